(* Proofs about the texts of whole metrics. *)
From Coq Require Import Bool Ascii String Arith NArith ZArith Lia List Permutation Sorted.
From Verif Require Import Prelude PreludeFacts Utf8Model Utf8Facts QuoteModel QuoteFacts DecModel DecFacts DurModel DurProofs PromModel PromSpec PromProofs PxModel PxSpec PxProofs.
Import ListNotations.

Section M.
  Context (isprint : N -> bool).
  Context {V : Type} (fv ff : V -> bytes) (num : bytes -> option V) (other : ascii -> option bytes).
  Context (leb : V -> V -> bool) (add : V -> V -> V) (zero : V).
  Context (of_nat : nat -> V) (rounded : V -> V).
  Context (Hf : number_formats isprint fv ff num of_nat rounded).
  Notation reads := (reads num other).
  Notation says := (says isprint fv num other leb add zero of_nat rounded).

  Let Hp : isprint 10%N = false.
  Proof. apply Hf. Qed.

  (* ---- labels as they are stored ---- *)
  Definition written (keys vals : list bytes) : list (bytes * bytes) := combine keys (map (body isprint) vals).
  Lemma lab_loop_ptail keys : forall vals, lab_loop isprint keys vals = ptail (written keys vals).
  Proof.
    induction keys as [|k keys IH]; intros [|v vals]; cbn [lab_loop written map combine ptail flat_map]; auto.
    rewrite IH. unfold assign. cbn [fst snd]. rewrite quote_body.
    change (dquote :: body isprint v ++ [dquote]) with ([dquote] ++ body isprint v ++ [dquote]).
    unfold written, ptail, dq. rewrite <- !app_assoc. reflexivity.
  Qed.
  Lemma stringify_text keys vals l : stringify isprint keys vals = Ok l ->
    l = ptext (written keys vals) /\ length keys = length vals.
  Proof.
    unfold stringify. destruct (length keys =? length vals)%nat eqn:E; [|discriminate]. apply Nat.eqb_eq in E. cbn [negb].
    rewrite lab_loop_ptail. intros H. split; auto. unfold written in *.
    destruct (combine keys (map (body isprint) vals)) as [|p ps]; cbn [ptail flat_map B list_ascii_of_string app] in H; cbn [ptext]; unfold ptail.
    - congruence.
    - injection H as <-. reflexivity.
  Qed.
  Lemma stands_vals keys : forall vals, Forall (fun k => label_name k = true) keys -> Forall (plain isprint) vals ->
    Forall2 (stands other) (written keys vals) (combine keys vals).
  Proof.
    induction keys as [|k keys IH]; intros [|v vals] Hk Hv; cbn; try constructor.
    - inversion Hk; inversion Hv; subst. repeat split; auto; cbn.
      + eapply plain_valid; eauto.
      + intros t. apply lvalue_body; auto.
    - inversion Hk; inversion Hv; subst. apply IH; auto.
  Qed.
  Lemma keys_combine (keys vals : list bytes) : length keys = length vals -> map fst (combine keys vals) = keys.
  Proof. revert vals. induction keys as [|k keys IH]; intros [|v vals] H; cbn in *; try lia; auto. f_equal. apply IH. lia. Qed.

  Lemma ascii_valid t : Forall (fun c => (code c < 128)%N) t -> valid_utf8 t = true.
  Proof.
    induction 1 as [|c t Hc Ht IH]; auto. unfold valid_utf8 in *.
    replace (c :: t) with (encode_rune (code c) ++ t) by (rewrite encode_ascii by auto; cbn; now rewrite chr_code).
    rewrite runes_encode; auto. unfold valid_rune. apply orb_true_iff. left. apply N.ltb_lt. lia.
  Qed.
  Lemma number_stands k t : label_name k = true -> number_text t -> stands other (k, t) (k, t).
  Proof.
    intros Hk Ht. repeat split; auto; cbn [fst snd].
    - apply ascii_valid. eapply Forall_impl; [|apply Ht]. cbn. intros; lia.
    - intros r. rewrite lvalue_raw by (eapply Forall_impl; [|apply Ht]; cbn; intros; lia). cbn. now rewrite app_nil_r.
  Qed.
  Lemma dec_number n : number_text (dec n).
  Proof.
    eapply Forall_impl; [|apply dec_digits]. cbn. intros a H. unfold is_digit in H. apply andb_prop in H as [H1 H2].
    apply N.leb_le in H1, H2. lia.
  Qed.

  (* ---- acts ---- *)
  Lemma ptext_nil ps : ptext ps = [] -> ps = [].
  Proof. destruct ps as [|[k b] ps]; auto. cbn. unfold assign. cbn [fst snd]. destruct k; discriminate. Qed.
  Lemma sample_line name ps value : sample name (ptext ps) value = AWrite (sline name ps value ++ nl).
  Proof.
    unfold sample, sline, braced. destruct ps as [|p ps].
    - cbn [ptext app]. now rewrite <- !app_assoc.
    - destruct (ptext (p :: ps)) as [|c t] eqn:E; [apply ptext_nil in E; discriminate|].
      f_equal. rewrite <- !app_assoc. reflexivity.
  Qed.
  Lemma ptext_snoc ps q : ps <> [] -> ptext (ps ++ [q]) = ptext ps ++ B "," ++ assign q.
  Proof.
    destruct ps as [|p ps]; [congruence|]. intros _. cbn [app ptext]. rewrite <- app_assoc. f_equal.
    unfold ptail. rewrite flat_map_app. cbn [flat_map]. now rewrite app_nil_r.
  Qed.
  Lemma bucket_line name ps bound n : bucket name (ptext ps) bound n =
    AWrite (sline (name ++ B "_bucket") (ps ++ [(B "le", bound)]) (dec (N.of_nat n)) ++ nl).
  Proof.
    unfold bucket, sline. destruct ps as [|p ps].
    - cbn [ptext app braced ptail flat_map]. unfold assign. cbn [fst snd]. f_equal. rewrite <- !app_assoc. reflexivity.
    - destruct (ptext (p :: ps)) as [|c t] eqn:E; [apply ptext_nil in E; discriminate|].
      f_equal. cbn [app braced]. change (p :: ps ++ [(B "le", bound)]) with ((p :: ps) ++ [(B "le", bound)]).
      rewrite ptext_snoc by discriminate. rewrite E. unfold assign. cbn [fst snd]. rewrite <- !app_assoc. reflexivity.
  Qed.

  (* the calls write the lines, which are read as said *)
  Definition tells (as_ : list act) (its : list (said V)) : Prop :=
    exists ts, as_ = map AWrite ts /\ reads (concat ts) = Some its.
  Lemma tells_nil : tells [] [].
  Proof. exists []. split; auto. Qed.
  Lemma tells_app a b ia ib : tells a ia -> tells b ib -> tells (a ++ b) (ia ++ ib).
  Proof.
    intros (ta & -> & Ha) (tb & -> & Hb). exists (ta ++ tb). split; [now rewrite map_app|].
    rewrite concat_app. rewrite (reads_app num other _ _ _ Ha), Hb. reflexivity.
  Qed.
  Lemma tells_line l its : oneline l -> read_line num other l = Some its -> tells [AWrite (l ++ nl)] its.
  Proof.
    intros Ho Hl. exists [l ++ nl]. split; auto. cbn [concat]. rewrite app_nil_r.
    rewrite <- (app_nil_r nl). rewrite reads_line by auto. rewrite reads_nil, both_nil. auto.
  Qed.
  Lemma tells_flat {E} (f : E -> list act) (g : E -> list (said V)) l : Forall (fun e => tells (f e) (g e)) l -> tells (flat_map f l) (flat_map g l).
  Proof. induction 1; cbn; [apply tells_nil|apply tells_app; auto]. Qed.
  Lemma tells_flat2 {D E} (f : E -> list act) (g : D -> list (said V)) d l : Forall2 (fun d e => tells (f e) (g d)) d l -> tells (flat_map f l) (flat_map g d).
  Proof. induction 1; cbn; [apply tells_nil|apply tells_app; auto]. Qed.

  Lemma label_oneline k : label_name k = true -> oneline k.
  Proof.
    intros H. apply label_first in H as (_ & _ & _ & _ & H). apply Forall_forall. intros c Hc.
    rewrite forallb_forall in H. specialize (H c Hc). apply lchar_mchar, mchar_range in H. lia.
  Qed.
  Lemma str_oneline s : forallb (fun c => negb (is 10 c)) (B s) = true -> oneline (B s).
  Proof.
    intros H. apply Forall_forall. intros c Hc. rewrite forallb_forall in H. specialize (H c Hc).
    apply negb_true_iff in H. now apply is_false in H.
  Qed.
  Definition onelines (ps : list (bytes * bytes)) : Prop := Forall (fun p => oneline (fst p) /\ oneline (snd p)) ps.
  Lemma assign_oneline p : oneline (fst p) /\ oneline (snd p) -> oneline (assign p).
  Proof.
    intros [H1 H2]. unfold assign. repeat apply oneline_app; auto; try (apply str_oneline; reflexivity);
      (constructor; [cbn; lia|constructor]).
  Qed.
  Lemma ptext_oneline ps : onelines ps -> oneline (ptext ps).
  Proof.
    intros H. destruct H as [|p ps Hq1 Hps]; [constructor|]. cbn [ptext]. apply oneline_app; [now apply assign_oneline|].
    induction Hps as [|q ps Hq Hps IH]; [constructor|]. cbn [ptail flat_map]. apply oneline_app; auto.
    apply oneline_app; [apply str_oneline; reflexivity|now apply assign_oneline].
  Qed.
  Lemma sline_oneline name ps value : oneline name -> onelines ps -> oneline value -> oneline (sline name ps value).
  Proof.
    intros Hn Hps Hv. unfold sline. repeat apply oneline_app; auto.
    - destruct ps; [constructor|]. cbn [braced]. apply oneline_app; [apply str_oneline; reflexivity|]. apply oneline_app; [now apply ptext_oneline|apply str_oneline; reflexivity].
    - apply str_oneline. reflexivity.
  Qed.
  Lemma written_oneline keys vals : Forall (fun k => label_name k = true) keys -> onelines (written keys vals).
  Proof.
    intros Hk. revert vals. induction Hk as [|k keys Hk Hks IH]; intros [|v vals]; cbn; try constructor; auto.
    - split; [now apply label_oneline|]. apply body_oneline; auto.
    - apply IH.
  Qed.

  Lemma tells_sample name keys vals l value x : metric_name name = true -> Forall (fun k => label_name k = true) keys -> NoDup keys ->
    stringify isprint keys vals = Ok l -> Forall (plain isprint) vals -> num value = Some x -> number_text value ->
    tells [sample name l value] [SSample name (combine keys vals) x []].
  Proof.
    intros Hn Hk Hd Hs Hv Hx Ht. apply stringify_text in Hs as [-> Hlen]. rewrite sample_line. apply tells_line.
    - apply sline_oneline; [now apply metric_oneline|now apply written_oneline|now apply number_oneline].
    - apply read_sline; auto; [now apply stands_vals|]. now rewrite keys_combine.
  Qed.
  Lemma suffix_name name s : metric_name name = true -> forallb mchar (B s) = true -> metric_name (name ++ B s) = true.
  Proof.
    destruct name as [|c t]; [discriminate|]. cbn [metric_name app]. intros H Hs. apply andb_prop in H as [H1 H2].
    rewrite H1. cbn [andb]. change (c :: t ++ B s) with ((c :: t) ++ B s). rewrite forallb_app, H2, Hs. reflexivity.
  Qed.
  Lemma tells_bucket name keys vals l bound n : metric_name name = true -> Forall (fun k => label_name k = true) keys -> NoDup keys ->
    ~ In (B "le") keys -> stringify isprint keys vals = Ok l -> Forall (plain isprint) vals -> number_text bound ->
    tells [bucket name l bound n] [SSample (name ++ B "_bucket") (combine keys vals ++ [(B "le", bound)]) (of_nat n) []].
  Proof.
    intros Hn Hk Hd Hle Hs Hv Hb. apply stringify_text in Hs as [-> Hlen]. rewrite bucket_line.
    assert (Hn' : metric_name (name ++ B "_bucket") = true) by now apply suffix_name.
    apply tells_line.
    - apply sline_oneline; [now apply metric_oneline| |apply number_oneline, dec_number].
      apply Forall_app. split; [now apply written_oneline|]. constructor; [|constructor]. cbn [fst snd].
      split; [now apply label_oneline|now apply number_oneline].
    - apply read_sline; auto.
      + apply Forall2_app; [now apply stands_vals|]. constructor; [|constructor]. now apply number_stands.
      + rewrite map_app, keys_combine by auto. cbn [map fst]. apply Permutation_NoDup with (l := B "le" :: keys); [|now constructor].
        rewrite Permutation_app_comm. reflexivity.
      + apply Hf.
      + apply dec_number.
  Qed.

  Lemma tells_help name desc : metric_name name = true -> plain_help desc -> tells [help name desc] [SHelp name desc].
  Proof.
    intros Hn Hd. unfold help. replace (B "# HELP " ++ name ++ B " " ++ desc ++ nl) with ((B "# HELP " ++ name ++ B " " ++ desc) ++ nl) by now rewrite <- !app_assoc.
    apply tells_line; [|now apply read_help].
    apply oneline_app; [apply str_oneline; reflexivity|]. apply oneline_app; [now apply metric_oneline|].
    apply oneline_app; [apply str_oneline; reflexivity|]. destruct Hd as [Hd _]. eapply Forall_impl; [|apply Hd]. cbn. tauto.
  Qed.
  Lemma tells_type name ty : metric_name name = true -> In ty types -> tells [type_ name ty] [SType name ty].
  Proof.
    intros Hn Hd. unfold type_. replace (B "# TYPE " ++ name ++ B " " ++ ty ++ nl) with ((B "# TYPE " ++ name ++ B " " ++ ty) ++ nl) by now rewrite <- !app_assoc.
    apply tells_line; [|now apply read_type].
    apply oneline_app; [apply str_oneline; reflexivity|]. apply oneline_app; [now apply metric_oneline|].
    apply oneline_app; [apply str_oneline; reflexivity|]. destruct Hd as [<-|[<-|[<-|[<-|[<-|[]]]]]]; apply str_oneline; reflexivity.
  Qed.
  Lemma tells_headed {D E} name desc ty (f : E -> list act) (its : list (said V)) (d : list D) (l : list E) :
    metric_name name = true -> plain_help desc -> In ty types -> length d = length l -> tells (flat_map f l) its ->
    tells (headed name desc ty f l) (headed_by name desc ty d its).
  Proof.
    intros Hn Hd Ht Hl H. destruct d as [|x d], l as [|y l]; cbn in Hl; try lia; [apply tells_nil|].
    unfold headed, headed_by. change (help name desc :: type_ name ty :: flat_map f (y :: l)) with ([help name desc] ++ [type_ name ty] ++ flat_map f (y :: l)).
    change (SHelp name desc :: SType name ty :: its) with ([@SHelp V name desc] ++ [SType name ty] ++ its).
    apply tells_app; [now apply tells_help|]. apply tells_app; [now apply tells_type|auto].
  Qed.

  Lemma bucket_loop_map name l : forall le (g : V -> nat) b, length b = length le ->
    (forall i x, nth_error le i = Some x -> nth_error b i = Some (g x)) ->
    bucket_loop fv name l le b = map (fun x => bucket name l (fv x) (g x)) le.
  Proof.
    induction le as [|x le IH]; intros g [|c b] Hl Hn; cbn in *; try lia; auto.
    f_equal; [specialize (Hn 0 x eq_refl); cbn in Hn; congruence|]. apply IH; auto. intros i y Hy. apply (Hn (S i) y Hy).
  Qed.
  Lemma tells_series name keys le vals l os : metric_name name = true -> Forall (fun k => label_name k = true) keys -> NoDup keys ->
    ~ In (B "le") keys -> stringify isprint keys vals = Ok l -> Forall (plain isprint) vals -> os <> [] ->
    tells (series_print fv ff name le (l, series_of leb add zero le os))
          (hist_samples fv leb add zero of_nat rounded name keys le vals os).
  Proof.
    intros Hn Hk Hd Hle Hs Hv Hne. unfold series_print, hist_samples.
    destruct (series_buckets leb add zero le os) as [[H _]|(_ & Hl & Hb)]; [contradiction|].
    rewrite (bucket_loop_map name l le (fun x => count_le leb x os)) by auto.
    rewrite series_count, series_sum.
    apply tells_app.
    - clear Hl Hb. induction le as [|x le IH]; [apply tells_nil|]. cbn [map].
      apply (tells_app [_] _ [_]); [|exact IH]. apply tells_bucket; auto. apply Hf.
    - apply (tells_app [_] _ [_]); [|apply (tells_app [_] _ [_])].
      + apply tells_bucket; auto. repeat constructor; cbn; lia.
      + apply tells_sample; auto; [now apply suffix_name| |]; apply Hf.
      + apply tells_sample; auto; [now apply suffix_name| |apply dec_number]. apply Hf.
  Qed.

  (* ---- the order of the keys of a Custom ---- *)
  Lemma bleb_before a : forall b, bleb a b = true <-> a = b \/ before a b.
  Proof.
    induction a as [|x a IH]; intros [|y b]; cbn.
    - tauto.
    - split; auto. intros _. right. constructor.
    - split; [discriminate|]. intros [H|H]; [discriminate|inversion H].
    - destruct (code x <? code y)%N eqn:E; [apply N.ltb_lt in E; split; auto; intros _; right; now constructor|].
      apply N.ltb_ge in E. destruct (code x =? code y)%N eqn:E2.
      + apply N.eqb_eq in E2. apply code_inj in E2. subst y. rewrite IH. split.
        * intros [->|H]; [auto|right; now constructor].
        * intros [H|H]; [injection H as ->; auto|]. inversion H; subst; auto. lia.
      + apply N.eqb_neq in E2. split; [discriminate|]. intros [H|H]; [injection H as -> ->; congruence|]. inversion H; subst; [lia|congruence].
  Qed.
  Lemma before_irrefl a : ~ before a a.
  Proof. induction a as [|c a IH]; intros H; inversion H; subst; [lia|contradiction]. Qed.
  Lemma before_trans a b c : before a b -> before b c -> before a c.
  Proof.
    intros H. revert c. induction H as [x t|x y s t Hxy|x s t Hst IH]; intros c Hc; inversion Hc; subst; try (constructor; auto; lia); auto.
  Qed.
  Lemma before_total a : forall b, a = b \/ before a b \/ before b a.
  Proof.
    induction a as [|x a IH]; intros [|y b]; auto; [right; left; constructor|right; right; constructor|].
    destruct (N.lt_trichotomy (code x) (code y)) as [H|[H|H]].
    - right. left. now constructor.
    - apply code_inj in H. subst y. destruct (IH b) as [->|[H|H]]; auto; right; [left|right]; now constructor.
    - right. right. now constructor.
  Qed.
  Lemma sinsert_perm x l : Permutation (sinsert x l) (x :: l).
  Proof. induction l as [|y l IH]; cbn; auto. destruct (bleb (fst x) (fst y)); auto. rewrite IH. constructor. Qed.
  Lemma ssort_perm l : Permutation (ssort l) l.
  Proof. induction l as [|x l IH]; cbn; auto. rewrite sinsert_perm. now constructor. Qed.
  Lemma sinsert_sorted x l : ~ In (fst x) (map fst l) -> StronglySorted before (map fst l) -> StronglySorted before (map fst (sinsert x l)).
  Proof.
    induction l as [|y l IH]; cbn; intros Hn Hs; [repeat constructor|]. inversion Hs as [|? ? Hs' Hall]; subst.
    destruct (bleb (fst x) (fst y)) eqn:E.
    - apply bleb_before in E as [E|E]; [exfalso; apply Hn; auto|]. cbn. constructor; auto. constructor; auto.
      eapply Forall_impl; [|apply Hall]. intros a Ha. eapply before_trans; eauto.
    - cbn. constructor; [apply IH; auto|].
      assert (Hyx : before (fst y) (fst x)).
      { destruct (before_total (fst x) (fst y)) as [H|[H|H]]; auto.
        - exfalso. apply Hn. auto.
        - assert (bleb (fst x) (fst y) = true) by (apply bleb_before; auto). congruence. }
      apply Forall_forall. intros a Ha. rewrite (sinsert_perm x l) in Ha. cbn in Ha. destruct Ha as [<-|Ha]; auto.
      rewrite Forall_forall in Hall. auto.
  Qed.
  Lemma ssort_sorted l : NoDup (map fst l) -> StronglySorted before (map fst (ssort l)).
  Proof.
    induction l as [|x l IH]; cbn; intros H; [constructor|]. inversion H; subst. apply sinsert_sorted; auto.
    intros Hi. apply H2. eapply Permutation_in; [|exact Hi]. apply Permutation_map, ssort_perm.
  Qed.
  Lemma sorted_unique : forall (l1 l2 : list (bytes * bytes)), Permutation l1 l2 -> StronglySorted before (map fst l1) -> StronglySorted before (map fst l2) -> l1 = l2.
  Proof.
    induction l1 as [|x l1 IH]; intros l2 Hpm H1 H2; [apply Permutation_nil in Hpm; auto|].
    destruct l2 as [|y l2]; [apply Permutation_sym, Permutation_nil in Hpm; discriminate|].
    cbn in H1, H2. inversion H1 as [|? ? H1' F1]; inversion H2 as [|? ? H2' F2]; subst.
    assert (x = y).
    { assert (Hx : In x (y :: l2)) by (eapply Permutation_in; [exact Hpm|left; auto]).
      assert (Hy : In y (x :: l1)) by (eapply Permutation_in; [apply Permutation_sym; exact Hpm|left; auto]).
      destruct Hx as [Hx|Hx]; auto. destruct Hy as [Hy|Hy]; auto.
      rewrite Forall_forall in F1, F2. specialize (F1 (fst y) (in_map fst _ _ Hy)). specialize (F2 (fst x) (in_map fst _ _ Hx)).
      exfalso. eapply before_irrefl. eapply before_trans; eauto. }
    subst y. f_equal. apply IH; auto. eapply Permutation_cons_inv; eauto.
  Qed.
  Lemma sorted_nodup l : StronglySorted before l -> NoDup l.
  Proof.
    induction 1 as [|a l Hs IH Hall]; constructor; auto. intros Hi. rewrite Forall_forall in Hall. apply (before_irrefl a). auto.
  Qed.

  (* ---- metrics ---- *)
  Lemma Forall2_len {A B} (R : A -> B -> Prop) a b : Forall2 R a b -> length a = length b.
  Proof. induction 1; cbn; auto. Qed.
  Lemma says_tells name m its : says name m its -> tells (print fv ff name m) its.
  Proof.
    intros H. destruct H as [desc keys ss es (Hn & Hk & Hd) Hh Hse Hv|desc keys le ls es vss (Hn & Hk & Hd) Hle Hh Hperm Hse Hv|
      desc ty m srt its Hn Hh Ht Hperm Hsort Hall|ts its Hr]; cbn [print].
    - apply tells_headed; auto; [cbn; auto|now apply Forall2_len in Hse|].
      induction Hse as [|s e ss es [Hs He] Hse IH]; cbn; [apply tells_nil|]. inversion Hv; subst.
      apply (tells_app [_] _ [_]); [|auto]. rewrite He. apply tells_sample; auto; apply Hf.
    - apply tells_headed; auto; [cbn; auto|now apply Forall2_len in Hse|]. apply tells_flat2.
      assert (Hin : Forall (fun e => mget beqb (tbl (mrun isprint leb add zero keys le ls)) (fst e) = Some (snd e)) es).
      { apply Forall_forall. intros [k h] Hi. cbn. apply (mget_in beqb beqb_is_ok).
        - destruct (inv_run isprint leb add zero keys le ls) as (G & _). exact G.
        - eapply Permutation_in; eauto. }
      clear Hperm. induction Hse as [|vals [k h] vss es Hs Hse IH]; constructor.
      + inversion Hv as [|? ? [Hos Hpl] _]; inversion Hin as [|? ? Hg _]; subst. cbn [fst snd] in *.
        pose proof (run_series isprint leb add zero keys le ls vals k Hs) as Hr. rewrite Hg in Hr. subst h.
        now apply tells_series.
      + inversion Hv; inversion Hin; subst. auto.
    - unfold custom_print, headed_by. destruct m as [|e0 m0] eqn:Em.
      { apply tells_nil. }
      rewrite <- Em in *. assert (Hs : ssort m = srt).
      { apply sorted_unique; auto.
        - rewrite ssort_perm. now symmetry.
        - apply ssort_sorted. eapply Permutation_NoDup; [apply Permutation_map; exact Hperm|]. now apply sorted_nodup. }
      rewrite Hs. change (help name desc :: type_ name ty :: ?r) with ([help name desc] ++ [type_ name ty] ++ r).
      change (SHelp name desc :: SType name ty :: its) with ([@SHelp V name desc] ++ [SType name ty] ++ its).
      apply tells_app; [now apply tells_help|]. apply tells_app; [now apply tells_type|].
      clear - Hall. induction Hall as [|e i srt its (n & ls & x & Hi & Hr) Hall IH]; cbn; [apply tells_nil|].
      apply (tells_app [_] _ [_]); [|auto]. exists [fst e ++ B " " ++ snd e ++ nl]. split; auto. cbn [concat]. now rewrite app_nil_r.
    - exists ts. auto.
  Qed.

  (* ---- labels that are not plain ---- *)
  Definition whole (t : bytes) : Prop := exists ls, lines [] t = Some ls.
  Lemma lines_whole a : forall cur la, lines cur a = Some la -> forall b, lines cur (a ++ b) = option_map (app la) (lines [] b).
  Proof.
    induction a as [|c a IH]; intros cur la H b; cbn in H.
    - destruct cur; [|discriminate]. injection H as <-. cbn [app]. destruct (lines [] b); reflexivity.
    - cbn [app lines]. destruct (is 10 c); [|now apply IH].
      destruct (lines [] a) as [l|] eqn:E; [|discriminate]. cbn in H. injection H as <-. rewrite (IH [] l E b).
      destruct (lines [] b); reflexivity.
  Qed.
  Lemma read_lines_app a b : read_lines num other (a ++ b) = both (read_lines num other a) (read_lines num other b).
  Proof.
    induction a as [|x a IH]; cbn [app read_lines]; [destruct (read_lines num other b); reflexivity|]. rewrite IH.
    destruct (read_line num other x), (read_lines num other a), (read_lines num other b); cbn; auto. now rewrite app_assoc.
  Qed.
  Lemma reads_whole a b : whole a -> reads (a ++ b) = both (reads a) (reads b).
  Proof.
    intros (la & H). unfold PxSpec.reads. rewrite (lines_whole a [] la H b), H. destruct (lines [] b) as [lb|]; cbn [option_map].
    - apply read_lines_app.
    - destruct (read_lines num other la); reflexivity.
  Qed.
  Lemma whole_app a b : whole a -> whole b -> whole (a ++ b).
  Proof. intros (la & Ha) (lb & Hb). exists (la ++ lb). rewrite (lines_whole a [] la Ha b), Hb. reflexivity. Qed.
  Lemma whole_line l : oneline l -> whole (l ++ nl).
  Proof. intros H. exists [l]. rewrite <- (app_nil_r nl). rewrite lines_line by auto. reflexivity. Qed.
  Lemma reads_is_whole t its : reads t = Some its -> whole t.
  Proof. unfold PxSpec.reads, whole. destruct (lines [] t); [eauto|discriminate]. Qed.

  (* the calls write whole lines; and some of them cannot be read *)
  Definition writes (bad : bool) (as_ : list act) : Prop :=
    exists ts, as_ = map AWrite ts /\ whole (concat ts) /\ (bad = true -> reads (concat ts) = None).
  Lemma writes_app p q a b : writes p a -> writes q b -> writes (p || q) (a ++ b).
  Proof.
    intros (ta & -> & Ha & Ra) (tb & -> & Hb & Rb). exists (ta ++ tb). rewrite map_app, concat_app. split; auto.
    split; [now apply whole_app|]. intros H. rewrite reads_whole by auto. apply orb_prop in H as [H|H].
    - now rewrite Ra.
    - rewrite Rb by auto. destruct (reads (concat ta)); reflexivity.
  Qed.
  Lemma tells_writes a its : tells a its -> writes false a.
  Proof. intros (ts & -> & H). exists ts. split; auto. split; [eapply reads_is_whole; eauto|discriminate]. Qed.
  Lemma writes_line l : oneline l -> writes false [AWrite (l ++ nl)].
  Proof. intros H. exists [l ++ nl]. split; auto. cbn. rewrite app_nil_r. split; [now apply whole_line|discriminate]. Qed.
  Lemma writes_bad_line l : oneline l -> read_line num other l = None -> writes true [AWrite (l ++ nl)].
  Proof.
    intros H Hb. exists [l ++ nl]. split; auto. cbn [concat]. rewrite app_nil_r. split; [now apply whole_line|]. intros _.
    rewrite <- (app_nil_r nl). rewrite reads_line by auto. now rewrite Hb.
  Qed.
  Lemma writes_false p a : writes p a -> writes false a.
  Proof. intros (ts & H1 & H2 & _). exists ts. split; auto. split; auto. discriminate. Qed.
  Lemma writes_nil : writes false [].
  Proof. exists []. split; auto. split; [now exists []|discriminate]. Qed.
  Lemma writes_flat {D E} (f : E -> list act) (Q : D -> Prop) d l :
    Forall2 (fun d e => writes false (f e) /\ (Q d -> writes true (f e))) d l -> writes false (flat_map f l) /\ (Exists Q d -> writes true (flat_map f l)).
  Proof.
    induction 1 as [|x e d l [H1 H2] H [IH1 IH2]]; cbn.
    - split; [apply writes_nil|]. intros H. inversion H.
    - split; [now apply (writes_app false false)|]. intros He. inversion He; subst.
      + apply (writes_app true false); auto.
      + apply (writes_app false true); auto.
  Qed.

  Context (Hforeign : forall e, foreign e -> other e = None).
  Lemma broken_vals keys : forall vals, Forall (fun k => label_name k = true) keys ->
    Forall (fun p => (exists v, stands other p v) \/ broken other p) (written keys vals).
  Proof.
    induction keys as [|k keys IH]; intros [|v vals] Hk; cbn; try constructor; inversion Hk; subst.
    - assert (Hd : plain isprint v \/ ~ plain isprint v).
      { unfold plain. assert (G : forall i : Utf8Model.item, good_item isprint i \/ ~ good_item isprint i).
        { destruct i as [r|b]; cbn; [|tauto]. destruct (isprint r); [tauto|]. destruct (N.eq_dec r 10), (N.eq_dec r 34), (N.eq_dec r 92); tauto || (right; intros [H|[H|[H|H]]]; congruence). }
        induction (runes v) as [|i l IHl]; [left; constructor|]. destruct (G i), IHl; [left; constructor; auto| | |];
          right; intros F; inversion F; auto. }
      destruct Hd as [Hd|Hd].
      + left. exists (k, v). repeat split; auto; cbn; [eapply plain_valid; eauto|]. intros t. now apply lvalue_body.
      + right. split; auto. intros t. eapply (lvalue_bad (V := V)); auto.
    - apply IH. auto.
  Qed.
  Lemma broken_some keys : forall vals, length keys = length vals -> Forall (fun k => label_name k = true) keys -> Exists (fun v => ~ plain isprint v) vals ->
    Exists (broken other) (written keys vals).
  Proof.
    induction keys as [|k keys IH]; intros [|v vals] Hl Hk He; cbn in *; try lia; inversion He; inversion Hk; subst.
    - constructor. split; auto. intros t. eapply (lvalue_bad (V := V)); auto.
    - right. apply IH; auto.
  Qed.
  Lemma writes_sample name keys vals l value : metric_name name = true -> Forall (fun k => label_name k = true) keys ->
    stringify isprint keys vals = Ok l -> number_text value ->
    writes false [sample name l value] /\ (Exists (fun v => ~ plain isprint v) vals -> writes true [sample name l value]).
  Proof.
    intros Hn Hk Hs Ht. apply stringify_text in Hs as [-> Hlen]. rewrite sample_line.
    assert (Ho : oneline (sline name (written keys vals) value)).
    { apply sline_oneline; [now apply metric_oneline|now apply written_oneline|now apply number_oneline]. }
    split; [now apply writes_line|]. intros He. apply writes_bad_line; auto.
    apply read_sline_bad; auto; [now apply broken_vals|now apply broken_some].
  Qed.
  Lemma writes_bucket name keys vals l bound n : metric_name name = true -> Forall (fun k => label_name k = true) keys ->
    stringify isprint keys vals = Ok l -> number_text bound -> writes false [bucket name l bound n].
  Proof.
    intros Hn Hk Hs Hb. apply stringify_text in Hs as [-> Hlen]. rewrite bucket_line.
    apply writes_line. apply sline_oneline; [apply metric_oneline; now apply suffix_name| |apply number_oneline, dec_number].
    apply Forall_app. split; [now apply written_oneline|]. constructor; [|constructor]. cbn [fst snd].
    split; [now apply label_oneline|now apply number_oneline].
  Qed.
  Lemma writes_headed {E} name desc ty p (f : E -> list act) (l : list E) : metric_name name = true -> oneline desc -> In ty types ->
    l <> [] -> writes p (flat_map f l) -> writes p (headed name desc ty f l).
  Proof.
    intros Hn Hd Ht Hl H. destruct l as [|x l]; [congruence|]. unfold headed.
    change (help name desc :: type_ name ty :: ?r) with ([help name desc] ++ [type_ name ty] ++ r).
    apply (writes_app false p).
    - unfold help. replace (B "# HELP " ++ name ++ B " " ++ desc ++ nl) with ((B "# HELP " ++ name ++ B " " ++ desc) ++ nl) by now rewrite <- !app_assoc.
      apply writes_line. apply oneline_app; [apply str_oneline; reflexivity|]. apply oneline_app; [now apply metric_oneline|].
      apply oneline_app; [apply str_oneline; reflexivity|auto].
    - apply (writes_app false p); auto. eapply tells_writes. now apply tells_type.
  Qed.
  Lemma spoiled_writes name m : spoiled isprint leb add zero name m -> writes true (print fv ff name m).
  Proof.
    intros H. destruct H as [desc keys vss es (Hn & Hk & Hd) Hh Hse He|desc keys le ls es vss (Hn & Hk & Hd) Hh Hperm Hse Hv He]; cbn [print].
    - apply writes_headed; auto; [cbn; auto|intros ->; inversion Hse; subst; inversion He|].
      eapply (proj2 (writes_flat _ (fun vals => Exists (fun v => ~ plain isprint v) vals) vss es _)); auto.
      Unshelve. clear He. induction Hse as [|vals e vss es Hs Hse IH]; constructor; auto. apply (writes_sample name keys); auto. apply Hf.
    - apply writes_headed; auto; [cbn; auto|intros ->; inversion Hse; subst; inversion He|].
      eapply (proj2 (writes_flat _ (fun vals => Exists (fun v => ~ plain isprint v) vals) vss es _)); auto.
      Unshelve.
      assert (Hin : Forall (fun e => mget beqb (tbl (mrun isprint leb add zero keys le ls)) (fst e) = Some (snd e)) es).
      { apply Forall_forall. intros [k h] Hi. cbn. apply (mget_in beqb beqb_is_ok).
        - destruct (inv_run isprint leb add zero keys le ls) as (G & _). exact G.
        - eapply Permutation_in; eauto. }
      clear Hperm He. induction Hse as [|vals [k h] vss es Hs Hse IH]; constructor.
      + inversion Hv as [|? ? Hos _]; inversion Hin as [|? ? Hg _]; subst. cbn [fst snd] in *.
        pose proof (run_series isprint leb add zero keys le ls vals k Hs) as Hr. rewrite Hg in Hr. subst h.
        set (os := values_of vals (finished (length keys) ls)) in *. unfold series_print.
        destruct (series_buckets leb add zero le os) as [[G _]|(_ & Hl & Hb)]; [contradiction|].
        rewrite (bucket_loop_map name k le (fun x => count_le leb x os)) by auto.
        assert (W : writes false (map (fun x => bucket name k (fv x) (count_le leb x os)) le)).
        { clear - Hf Hn Hk Hs Hp. induction le as [|x le IH]; [apply writes_nil|]. cbn [map]. apply (writes_app false false [_]); auto.
          apply (writes_bucket name keys vals); auto. apply Hf. }
        assert (S1 := writes_bucket name keys vals k (B "+Inf") (scount (series_of leb add zero le os)) Hn Hk Hs ltac:(repeat constructor; cbn; lia)).
        destruct (writes_sample (name ++ B "_sum") keys vals k (ff (ssum (series_of leb add zero le os))) ltac:(now apply suffix_name) Hk Hs ltac:(apply Hf)) as [S2 S2b].
        destruct (writes_sample (name ++ B "_count") keys vals k (dec (N.of_nat (scount (series_of leb add zero le os)))) ltac:(now apply suffix_name) Hk Hs ltac:(apply dec_number)) as [S3 S3b].
        split.
        * apply (writes_app false false); auto. apply (writes_app false false [_]); auto. apply (writes_app false false [_]); auto.
        * intros Hx. apply (writes_app false true); auto. apply (writes_app false true [_]); auto. apply (writes_app true false [_]); auto.
      + inversion Hv; inversion Hin; subst. auto.
  Qed.

  (* ---- the handler ---- *)
  Lemma perform_writes ts : forall n, perform (fun _ => None) n (map AWrite ts) = (n + length ts, concat ts, EOk).
  Proof.
    induction ts as [|t ts IH]; intros n; cbn [map perform concat length]; [now rewrite Nat.add_0_r|]. rewrite IH, Nat.add_succ_r. reflexivity.
  Qed.
  Lemma handler_reads visited itss : Forall2 (fun e its => says (fst e) (snd e) its) visited itss ->
    exists out, Handler fv ff (fun _ => None) visited = Some (200%N, out) /\ reads out = Some (concat itss).
  Proof.
    intros H. assert (T : tells (flat_map (fun e => print fv ff (fst e) (snd e)) visited) (concat itss)).
    { induction H as [|e its visited itss He H IH]; cbn; [apply tells_nil|]. apply tells_app; auto. now apply says_tells. }
    destruct T as (ts & E & Hr). exists (concat ts). split; auto. unfold Handler. rewrite E, perform_writes. reflexivity.
  Qed.
  Lemma handler_spoiled pre post name m : Forall (fun e => exists its, says (fst e) (snd e) its) pre -> Forall (fun e => exists its, says (fst e) (snd e) its) post ->
    spoiled isprint leb add zero name m ->
    exists out, Handler fv ff (fun _ => None) (pre ++ (name, m) :: post) = Some (200%N, out) /\ reads out = None.
  Proof.
    intros Ha Hb Hs.
    assert (G : forall l, Forall (fun e => exists its, says (fst e) (snd e) its) l -> writes false (flat_map (fun e => print fv ff (fst e) (snd e)) l)).
    { induction 1 as [|e l (its & He) Hl IH]; cbn; [apply writes_nil|]. apply (writes_app false false); auto.
      eapply tells_writes. eapply says_tells. exact He. }
    assert (T : writes true (flat_map (fun e => print fv ff (fst e) (snd e)) (pre ++ (name, m) :: post))).
    { rewrite flat_map_app. cbn [flat_map fst snd]. apply (writes_app false true); auto. apply (writes_app true false); auto.
      now apply spoiled_writes. }
    destruct T as (ts & E & Hw & Hr). exists (concat ts). split; auto. unfold Handler. rewrite E, perform_writes. reflexivity.
  Qed.
End M.
