(* Proofs about the text of metrics. *)
From Coq Require Import Bool Ascii String Arith NArith ZArith Lia List Permutation Sorted.
From Verif Require Import Prelude PreludeFacts Utf8Model Utf8Facts QuoteModel QuoteFacts DecModel DecFacts DurModel DurProofs PromModel PromSpec PromProofs PxModel PxSpec.
Import ListNotations.

Lemma is_true n c : is n c = true <-> code c = n.
Proof. apply N.eqb_eq. Qed.
Lemma is_false n c : is n c = false <-> code c <> n.
Proof. apply N.eqb_neq. Qed.

(* ---- lines ---- *)
Definition oneline (l : bytes) : Prop := Forall (fun c => code c <> 10%N) l.
Lemma oneline_app a b : oneline a -> oneline b -> oneline (a ++ b).
Proof. intros. apply Forall_app. auto. Qed.
Lemma lines_line l : oneline l -> forall cur t, lines cur (l ++ nl ++ t) = option_map (cons (rev cur ++ l)) (lines [] t).
Proof.
  induction 1 as [|c l Hc Hl IH]; intros cur t.
  - cbn [app nl lines]. replace (is 10 (chr 10)) with true by reflexivity. now rewrite app_nil_r.
  - cbn [app lines]. rewrite (proj2 (is_false 10 c)) by auto. rewrite IH. cbn [rev]. now rewrite <- app_assoc.
Qed.

Section R.
  Context {V : Type} (num : bytes -> option V) (other : ascii -> option bytes).
  Notation reads := (reads num other).
  Notation read_line := (read_line num other).
  Notation read_lines := (read_lines num other).

  Definition both {A} (a b : option (list A)) : option (list A) :=
    match a, b with Some x, Some y => Some (x ++ y) | _, _ => None end.
  Lemma reads_line l t : oneline l -> reads (l ++ nl ++ t) = both (read_line l) (reads t).
  Proof.
    intros Hl. unfold PxSpec.reads. rewrite lines_line by auto. cbn [rev app].
    destruct (lines [] t) as [ls|]; cbn [option_map PxSpec.read_lines]; [reflexivity|].
    destruct (read_line l); reflexivity.
  Qed.
  Lemma both_nil A (a : option (list A)) : both a (Some []) = a.
  Proof. destruct a; cbn; auto. now rewrite app_nil_r. Qed.
  Lemma both_assoc A (a b c : option (list A)) : both a (both b c) = both (both a b) c.
  Proof. destruct a, b, c; cbn; auto. now rewrite app_assoc. Qed.
  Lemma reads_nil : reads [] = Some [].
  Proof. reflexivity. Qed.

  (* a text that is read consists of whole lines *)
  Lemma lines_split s : forall cur ls, lines cur s = Some ls ->
    (cur = [] /\ s = []) \/ exists a t, oneline a /\ s = a ++ nl ++ t.
  Proof.
    induction s as [|c s IH]; intros cur ls E; cbn in E.
    - destruct cur; [auto|discriminate].
    - destruct (is 10 c) eqn:Ec.
      + right. exists [], s. split; [constructor|]. cbn. f_equal. apply is_true in Ec. apply code_inj. now rewrite Ec.
      + destruct (IH _ _ E) as [[Hc _]|(a & t & Ha & ->)]; [discriminate|].
        right. exists (c :: a), t. split; auto. constructor; auto. now apply is_false.
  Qed.
  Lemma reads_app a b ia : reads a = Some ia -> reads (a ++ b) = both (Some ia) (reads b).
  Proof.
    revert ia. remember (length a) as n eqn:Hn. assert (Hle : length a <= n) by lia. clear Hn. revert a Hle.
    induction n as [|n IH]; intros a Hle ia H.
    - destruct a; [|cbn in Hle; lia]. rewrite reads_nil in H. injection H as <-. cbn [app both]. destruct (reads b); reflexivity.
    - assert (Hl : exists ls, lines [] a = Some ls). { unfold PxSpec.reads in H. destruct (lines [] a); [eauto|discriminate]. }
      destruct Hl as (ls & Hl). destruct (lines_split _ _ _ Hl) as [[_ ->]|(l & t & Hone & ->)].
      + rewrite reads_nil in H. injection H as <-. cbn [app both]. destruct (reads b); reflexivity.
      + rewrite reads_line in H by auto. destruct (read_line l) as [il|] eqn:El; [|discriminate].
        destruct (reads t) as [it|] eqn:Et; [|discriminate]. cbn [both] in H. pose proof (f_equal (fun o => match o with Some x => x | None => [] end) H) as E. cbn in E. subst ia.
        rewrite <- !app_assoc. rewrite reads_line by auto. rewrite (IH t) with (ia := it); auto.
        * rewrite El. cbn [both]. destruct (reads b); cbn; auto. now rewrite app_assoc.
        * rewrite !app_length in Hle. cbn in Hle. lia.
  Qed.
  (* lines that are not read spoil the text *)
  Lemma reads_bad a l t : oneline l -> read_line l = None -> (exists ls, lines [] a = Some ls) -> reads (a ++ l ++ nl ++ t) = None.
  Proof.
    intros Ho Hl. remember (length a) as n eqn:Hn. assert (Hle : length a <= n) by lia. clear Hn. revert a Hle.
    induction n as [|n IH]; intros a Hle (ls & H).
    - destruct a; [|cbn in Hle; lia]. cbn [app]. rewrite reads_line by auto. now rewrite Hl.
    - destruct (lines_split _ _ _ H) as [[_ ->]|(x & y & Hone & ->)].
      + cbn [app]. rewrite reads_line by auto. now rewrite Hl.
      + rewrite lines_line in H by auto. destruct (lines [] y) as [ly|] eqn:Ey; [|discriminate].
        rewrite <- !app_assoc. rewrite reads_line by auto. rewrite IH.
        * destruct (read_line x); reflexivity.
        * rewrite !app_length in Hle. cbn in Hle. lia.
        * eauto.
  Qed.

  (* ---- tokens ---- *)
  Lemma span_all p a : forallb p a = true -> span p a = (a, []).
  Proof. induction a as [|c a IH]; cbn; auto. intros H. apply andb_prop in H as [-> H]. now rewrite IH. Qed.
  Lemma span_stop p a c t : forallb p a = true -> p c = false -> span p (a ++ c :: t) = (a, c :: t).
  Proof.
    induction a as [|d a IH]; cbn; intros Ha Hc; [now rewrite Hc|]. apply andb_prop in Ha as [-> Ha].
    now rewrite IH.
  Qed.
  Lemma skip_none c t : blank c = false -> skip (c :: t) = c :: t.
  Proof. cbn. now intros ->. Qed.
  Lemma mchar_range c : mchar c = true -> (48 <= code c <= 58 \/ 65 <= code c <= 90 \/ code c = 95 \/ 97 <= code c <= 122)%N.
  Proof.
    unfold mchar, letter, numeral, is. intros H.
    repeat (apply orb_prop in H as [H|H]); try (apply andb_prop in H as [H1 H2]); Nify_bool; lia.
  Qed.
  Lemma mchar_not_blank c : mchar c = true -> blank c = false.
  Proof. intros H. apply mchar_range in H. unfold blank. apply orb_false_iff. split; apply is_false; lia. Qed.
  Lemma lchar_mchar c : lchar c = true -> mchar c = true.
  Proof. unfold lchar, mchar. now intros ->. Qed.

  (* ---- values of labels ---- *)
  Definition body (isprint : N -> bool) (v : bytes) : bytes := concat (map (esc_item isprint) (runes v)).
  Lemma quote_body isprint v : quote isprint v = dquote :: body isprint v ++ [dquote].
  Proof. reflexivity. Qed.
  Lemma put_put p q r : put p (put q r) = put (p ++ q) r.
  Proof. destruct r as [[a b]|]; cbn; auto. now rewrite app_assoc. Qed.
  Lemma lvalue_raw l t : Forall (fun b => code b <> 34 /\ code b <> 92)%N l -> lvalue other (l ++ t) = put l (lvalue other t).
  Proof.
    induction 1 as [|b l [H1 H2] Hf IH].
    - cbn. destruct (lvalue other t) as [[a b]|]; reflexivity.
    - cbn [app lvalue]. rewrite (proj2 (is_false 34 b)), (proj2 (is_false 92 b)) by auto. rewrite IH.
      change (b :: l) with ([b] ++ l). now rewrite <- put_put.
  Qed.
  Definition good_item (isprint : N -> bool) (i : item) : Prop :=
    match i with IRune r => isprint r = true \/ r = 10%N \/ r = 34%N \/ r = 92%N | IBad _ => False end.
  Definition sound (i : item) : Prop := match i with IRune r => valid_rune r = true | IBad b => (0x80 <= code b)%N end.
  Lemma runes_sound s : Forall sound (runes s).
  Proof.
    induction s using runes_ind.
    - constructor.
    - rewrite runes_cons_bad by auto. constructor; auto. eapply bad_high; eauto.
    - rewrite runes_encode by auto. constructor; auto.
  Qed.
  Lemma encode_bytes r n : (n < 0x80)%N -> r <> n -> Forall (fun b => code b <> n) (encode_rune r).
  Proof.
    intros Hn Hr. destruct (N.lt_ge_cases r 0x80) as [H|H].
    - rewrite encode_ascii by auto. constructor; auto. rewrite code_chr by lia. auto.
    - eapply Forall_impl; [|apply encode_high; auto]. cbn. intros a Ha. lia.
  Qed.

  Section I.
    Context (isprint : N -> bool) (Hp : isprint 10%N = false).
    Lemma lvalue_item i t : good_item isprint i -> lvalue other (esc_item isprint i ++ t) = put (item_bytes i) (lvalue other t).
    Proof.
      destruct i as [r|b]; [|intros []]. cbn [good_item esc_item item_bytes]. intros Hg. unfold esc_rune.
      destruct ((r =? 34) || (r =? 92))%N eqn:E.
      - assert (r = 34 \/ r = 92)%N as [-> | ->] by (apply orb_prop in E as [E|E]; apply N.eqb_eq in E; auto); reflexivity.
      - apply orb_false_iff in E as [E1 E2]. apply N.eqb_neq in E1, E2. destruct (isprint r) eqn:Er.
        + apply lvalue_raw. apply Forall_forall. intros c Hc.
          pose proof (encode_bytes r 34 ltac:(lia) E1) as G1. pose proof (encode_bytes r 92 ltac:(lia) E2) as G2.
          rewrite Forall_forall in G1, G2. auto.
        + destruct Hg as [Hg|[->|[Hg|Hg]]]; try congruence. reflexivity.
    Qed.
    Lemma lvalue_items l t : Forall (good_item isprint) l ->
      lvalue other (concat (map (esc_item isprint) l) ++ t) = put (concat (map item_bytes l)) (lvalue other t).
    Proof.
      induction 1 as [|i l Hi Hl IH].
      - cbn. destruct (lvalue other t) as [[a b]|]; reflexivity.
      - cbn [map concat]. rewrite <- app_assoc, lvalue_item by auto. now rewrite IH, put_put.
    Qed.
    Lemma lvalue_body v t : plain isprint v -> lvalue other (body isprint v ++ dquote :: t) = Some (v, t).
    Proof.
      intros H. unfold body. rewrite lvalue_items by exact H. rewrite runes_concat. cbn. now rewrite app_nil_r.
    Qed.
    Lemma plain_valid v : plain isprint v -> valid_utf8 v = true.
    Proof.
      intros H. unfold valid_utf8. apply forallb_forall. intros i Hi. unfold plain in H. rewrite Forall_forall in H.
      specialize (H i Hi). destruct i; [auto|contradiction].
    Qed.
    (* the escapes that the format does not have *)
    Definition foreign (e : ascii) : Prop := In e (B "abfrtvxuU").
    Lemma lvalue_foreign e u : foreign e -> other e = None -> lvalue other (backslash :: e :: u) = None.
    Proof. intros [<-|[<-|[<-|[<-|[<-|[<-|[<-|[<-|[<-|[]]]]]]]]]] H; cbn; now rewrite H. Qed.
    Lemma lvalue_item_bad i t : (forall e, foreign e -> other e = None) -> ~ good_item isprint i ->
      lvalue other (esc_item isprint i ++ t) = None.
    Proof.
      intros Ho Hg. assert (G : forall e u, foreign e -> lvalue other (backslash :: e :: u) = None) by (intros; apply lvalue_foreign; auto).
      destruct i as [r|b]; cbn [good_item esc_item] in *.
      - unfold esc_rune. destruct ((r =? 34) || (r =? 92))%N eqn:E.
        { exfalso. apply Hg. apply orb_prop in E as [E|E]; apply N.eqb_eq in E; auto. }
        destruct (isprint r) eqn:Er; [exfalso; auto|].
        repeat match goal with |- context [if ?c then _ else _] => destruct c eqn:? end;
          try (apply G; cbn; tauto).
        exfalso. apply Hg. right. left. now apply N.eqb_eq.
      - apply G; cbn; tauto.
    Qed.
    Lemma lvalue_bad v t : (forall e, foreign e -> other e = None) -> ~ plain isprint v -> lvalue other (body isprint v ++ t) = None.
    Proof.
      intros Ho. unfold plain, body. induction (runes v) as [|i l IH]; intros Hn; [exfalso; apply Hn; constructor|].
      cbn [map concat]. rewrite <- app_assoc.
      assert (Hd : good_item isprint i \/ ~ good_item isprint i).
      { destruct i as [r|b]; cbn; [|tauto]. destruct (isprint r); [tauto|]. destruct (N.eq_dec r 10), (N.eq_dec r 34), (N.eq_dec r 92); tauto || (right; intros [H|[H|[H|H]]]; congruence). }
      destruct Hd as [Hi|Hi].
      - rewrite lvalue_item by auto. rewrite IH; auto.
      - now rewrite lvalue_item_bad.
    Qed.
    Lemma hexs_oneline k : forall n, oneline (hexs k n).
    Proof.
      induction k; intros n; cbn [hexs]; [constructor|]. apply oneline_app; auto. constructor; [|constructor].
      assert (n mod 16 < 16)%N by (apply N.mod_lt; lia). generalize dependent (n mod 16)%N. intros m Hm. unfold hexdig. destruct (m <? 10)%N eqn:E; Nify_bool; rewrite code_chr; lia.
    Qed.
    Lemma body_oneline v : oneline (body isprint v).
    Proof.
      unfold body. induction (runes v) as [|i l IH]; cbn [map concat]; [constructor|]. apply oneline_app; auto. clear IH.
      assert (G : forall s, oneline (B s) <-> forallb (fun c => negb (is 10 c)) (B s) = true).
      { intros s0. unfold oneline. rewrite forallb_forall, Forall_forall. split; intros H c Hc; specialize (H c Hc).
        - apply negb_true_iff. now apply is_false.
        - apply negb_true_iff in H. now apply is_false in H. }
      destruct i as [r|b]; cbn [esc_item].
      - unfold esc_rune. destruct ((r =? 34) || (r =? 92))%N eqn:E.
        { constructor; [cbn; lia|]. constructor; [|constructor]. apply orb_prop in E as [E|E]; apply N.eqb_eq in E; subst; rewrite code_chr; lia. }
        destruct (isprint r) eqn:Er; [apply encode_bytes; [lia|congruence]|].
        repeat match goal with |- oneline (if ?c then _ else _) => destruct c end; try (apply G; reflexivity);
          (apply oneline_app; [apply G; reflexivity|apply hexs_oneline]).
      - apply oneline_app; [apply G; reflexivity|apply hexs_oneline].
    Qed.
  End I.

  (* ---- labels ---- *)
  Definition assign (p : bytes * bytes) : bytes := fst p ++ B "=" ++ dq ++ snd p ++ dq.
  Definition ptail (ps : list (bytes * bytes)) : bytes := flat_map (fun p => B "," ++ assign p) ps.
  Definition ptext (ps : list (bytes * bytes)) : bytes := match ps with [] => [] | p :: t => assign p ++ ptail t end.

  (* p is written as v *)
  Definition stands (p v : bytes * bytes) : Prop :=
    fst p = fst v /\ label_name (fst p) = true /\ valid_utf8 (snd v) = true /\
    forall t, lvalue other (snd p ++ dquote :: t) = Some (snd v, t).
  Definition broken (p : bytes * bytes) : Prop :=
    label_name (fst p) = true /\ forall t, lvalue other (snd p ++ dquote :: t) = None.

  Lemma label_first n : label_name n = true -> exists c t, n = c :: t /\ lchar c = true /\ forallb lchar n = true.
  Proof.
    destruct n as [|c t]; [discriminate|]. intros H. exists c, t. cbn [label_name] in H. apply andb_prop in H as [_ H].
    split; auto. split; auto. cbn in H. now apply andb_prop in H as [H _].
  Qed.
  Lemma lchar_not c n : lchar c = true -> (n < 48 \/ (58 < n < 65) \/ (90 < n < 95) \/ n = 96 \/ 122 < n)%N -> is n c = false.
  Proof. intros H Hn. apply lchar_mchar in H. apply mchar_range in H. apply is_false. lia. Qed.
  Lemma labels_step f p t : label_name (fst p) = true ->
    labels other (S f) (assign p ++ t) =
    match lvalue other (snd p ++ dquote :: t) with
    | Some (v, r) =>
        if valid_utf8 v then
          match skip r with
          | d :: r => if is 125 d then Some ([(fst p, v)], r)
                      else if is 44 d then
                        match labels other f r with Some (ls, r) => Some ((fst p, v) :: ls, r) | None => None end
                      else None
          | [] => None
          end
        else None
    | None => None
    end.
  Proof.
    intros Hn. destruct p as [n b]. cbn [fst snd] in *. destruct (label_first n Hn) as (c & n' & En & Hc & Hall).
    unfold assign. cbn [fst snd]. cbn [labels].
    replace ((n ++ B "=" ++ dq ++ b ++ dq) ++ t) with (n ++ chr 61 :: dquote :: b ++ dquote :: t)
      by (unfold dq; rewrite <- !app_assoc; reflexivity).
    assert (Hsk : skip (n ++ chr 61 :: dquote :: b ++ dquote :: t) = n ++ chr 61 :: dquote :: b ++ dquote :: t).
    { rewrite En. cbn [app skip]. rewrite mchar_not_blank by now apply lchar_mchar. reflexivity. }
    rewrite Hsk. clear Hsk. subst n. cbn [app]. rewrite lchar_not by (auto; lia).
    change (c :: n' ++ chr 61 :: dquote :: b ++ dquote :: t) with ((c :: n') ++ chr 61 :: dquote :: b ++ dquote :: t).
    rewrite (span_stop lchar (c :: n') (chr 61)) by auto. rewrite Hn. reflexivity.
  Qed.

  Lemma ptext_length ps : (length ps <= length (ptext ps))%nat.
  Proof.
    destruct ps as [|p ps]; cbn [ptext length]; auto. rewrite app_length.
    assert (length ps <= length (ptail ps))%nat.
    { induction ps as [|q ps IH]; cbn [ptail flat_map length]; auto. fold (ptail ps). rewrite !app_length. cbn [B list_ascii_of_string length]. lia. }
    unfold assign. rewrite !app_length. cbn. lia.
  Qed.
  Lemma labels_ok : forall ps vs f t, Forall2 stands ps vs -> ps <> [] -> (length ps <= f)%nat ->
    labels other f (ptext ps ++ chr 125 :: t) = Some (vs, t).
  Proof.
    induction ps as [|p ps IH]; intros vs f t H Hne Hf; [congruence|]. inversion H as [|p' v ps' vs' Hp Hps]; subst.
    destruct f as [|f]; [cbn in Hf; lia|]. destruct Hp as (E & Hn & Hv & Hl).
    cbn [ptext]. rewrite <- app_assoc. rewrite labels_step by auto. rewrite Hl, Hv. destruct v as [n v]. cbn [fst snd] in *. subst n.
    destruct ps as [|q ps].
    - inversion Hps; subst. cbn [ptail flat_map app skip]. reflexivity.
    - cbn [ptail flat_map]. change (skip ((B "," ++ assign q) ++ flat_map (fun p0 => B "," ++ assign p0) ps ++ chr 125 :: t)) with
        (","%char :: assign q ++ flat_map (fun p0 => B "," ++ assign p0) ps ++ chr 125 :: t).
      assert (Hq : labels other f (ptext (q :: ps) ++ chr 125 :: t) = Some (vs', t)).
      { apply IH; auto; [discriminate|cbn in *; lia]. }
      cbn [ptext] in Hq. rewrite <- app_assoc in Hq. unfold ptail in Hq. cbn [B list_ascii_of_string app] in *.
      rewrite <- app_assoc. cbn [app skip]. replace (blank ","%char) with false by reflexivity.
      replace (is 125 ","%char) with false by reflexivity. replace (is 44 ","%char) with true by reflexivity.
      rewrite Hq. reflexivity.
  Qed.
  Lemma labels_bad : forall ps f t, Forall (fun p => (exists v, stands p v) \/ broken p) ps -> Exists broken ps ->
    labels other f (ptext ps ++ chr 125 :: t) = None.
  Proof.
    induction ps as [|p ps IH]; intros f t H He; [inversion He|]. inversion H as [|p' ps' Hp Hps]; subst.
    destruct f as [|f]; [reflexivity|]. cbn [ptext]. rewrite <- app_assoc.
    destruct Hp as [(v & E & Hn & Hv & Hl)|[Hn Hb]].
    2: { rewrite labels_step by auto. now rewrite Hb. }
    inversion He as [? ? Hb|? ? He']; subst. { destruct Hb as [_ Hb]. specialize (Hb []). rewrite Hl in Hb. discriminate. }
    rewrite labels_step by auto. rewrite Hl, Hv.
    destruct ps as [|q ps]; [inversion He'|].
    cbn [ptail flat_map].
    assert (Hq : labels other f (ptext (q :: ps) ++ chr 125 :: t) = None) by (apply IH; auto).
    cbn [ptext] in Hq. rewrite <- app_assoc in Hq. unfold ptail in Hq. cbn [B list_ascii_of_string app] in *.
    rewrite <- app_assoc. cbn [app skip]. replace (blank ","%char) with false by reflexivity.
    replace (is 125 ","%char) with false by reflexivity. replace (is 44 ","%char) with true by reflexivity.
    now rewrite Hq.
  Qed.

  (* ---- lines of samples ---- *)
  Definition braced (ps : list (bytes * bytes)) : bytes := match ps with [] => [] | _ => B "{" ++ ptext ps ++ B "}" end.
  Definition sline (name : bytes) (ps : list (bytes * bytes)) (value : bytes) : bytes := name ++ braced ps ++ B " " ++ value.

  Lemma distinct_ok l : NoDup l -> distinct l = true.
  Proof.
    induction 1 as [|a l Hn Hd IH]; cbn; auto. rewrite IH, andb_true_r. apply negb_true_iff.
    match goal with |- ?e = false => destruct e eqn:E end; auto. apply existsb_exists in E as (b & Hb & E). destruct (list_eq_dec ascii_dec a b); [subst; contradiction|discriminate].
  Qed.
  Lemma metric_first n : metric_name n = true -> exists c t, n = c :: t /\ mchar c = true /\ forallb mchar n = true.
  Proof.
    destruct n as [|c t]; [discriminate|]. intros H. exists c, t. cbn [metric_name] in H. apply andb_prop in H as [_ H].
    split; auto. split; auto. cbn in H. now apply andb_prop in H as [H _].
  Qed.
  Lemma metric_oneline n : metric_name n = true -> oneline n.
  Proof.
    intros H. apply metric_first in H as (_ & _ & _ & _ & H). apply Forall_forall. intros c Hc.
    rewrite forallb_forall in H. specialize (H c Hc). apply mchar_range in H. lia.
  Qed.
  Lemma number_oneline n : number_text n -> oneline n.
  Proof. intros H. eapply Forall_impl; [|apply H]. cbn. intros. lia. Qed.
  Lemma number_solid n : number_text n -> forallb (fun c => negb (blank c)) n = true.
  Proof.
    intros H. apply forallb_forall. intros c Hc. unfold number_text in H. rewrite Forall_forall in H. specialize (H c Hc).
    apply negb_true_iff. unfold blank. apply orb_false_iff. split; apply is_false; lia.
  Qed.
  Lemma number_skip n : number_text n -> skip n = n.
  Proof.
    destruct n as [|c n]; auto. intros H. apply skip_none. pose proof (number_solid _ H) as G. cbn in G.
    apply andb_prop in G as [G _]. now apply negb_true_iff.
  Qed.

  Lemma read_sline name ps vs value x : metric_name name = true -> Forall2 stands ps vs -> NoDup (map fst vs) ->
    num value = Some x -> number_text value -> read_line (sline name ps value) = Some [SSample name vs x []].
  Proof.
    intros Hname Hps Hd Hx Hv. destruct (metric_first _ Hname) as (c & n' & En & Hc & Hall). unfold sline.
    assert (Hl : read_sample num other (name ++ braced ps ++ B " " ++ value) = Some [SSample name vs x []]).
    { unfold read_sample. destruct ps as [|p ps].
      - inversion Hps; subst vs. cbn [braced app B list_ascii_of_string].
        rewrite (span_stop mchar name " "%char) by auto. rewrite Hname.
        cbn [skip]. replace (blank " "%char) with true by reflexivity. rewrite number_skip by auto.
        assert (E : match value with c :: t => if is 123 c then labels other (length value) t else Some ([], value) | [] => Some ([], value) end = Some ([], value)).
        { destruct value as [|d value]; auto. inversion Hv; subst. rewrite (proj2 (is_false 123 d)) by tauto. auto. }
        rewrite E. cbn [map distinct]. rewrite number_skip by auto. rewrite span_all by now apply number_solid.
        rewrite Hx. reflexivity.
      - cbn [braced]. rewrite <- !app_assoc. change (B "{" ++ ?r) with ("{"%char :: r). cbv beta.
        rewrite (span_stop mchar name "{"%char) by auto. rewrite Hname.
        rewrite (skip_none "{"%char) by auto. cbv beta iota. replace (is 123 "{"%char) with true by reflexivity.
        change (B "}" ++ B " " ++ value) with (chr 125 :: " "%char :: value).
        assert (Hlen : (length (p :: ps) <= length ("{"%char :: ptext (p :: ps) ++ chr 125 :: " "%char :: value))%nat).
        { pose proof (ptext_length (p :: ps)) as G. cbn [length] in *. rewrite app_length. lia. }
        rewrite (labels_ok _ vs _ _ Hps ltac:(discriminate) Hlen).
        rewrite distinct_ok by auto. cbn [skip]. replace (blank " "%char) with true by reflexivity.
        rewrite number_skip by auto. rewrite span_all by now apply number_solid. rewrite Hx. reflexivity. }
    unfold PxSpec.read_line. rewrite En in *. cbn [app] in *. rewrite skip_none by now apply mchar_not_blank.
    rewrite (proj2 (is_false 35 c)); auto. apply mchar_range in Hc. lia.
  Qed.
  Lemma read_sline_bad name ps value : metric_name name = true -> Forall (fun p => (exists v, stands p v) \/ broken p) ps -> Exists broken ps ->
    read_line (sline name ps value) = None.
  Proof.
    intros Hname Hps He. destruct (metric_first _ Hname) as (c & n' & En & Hc & Hall). unfold sline.
    assert (Hl : read_sample num other (name ++ braced ps ++ B " " ++ value) = None).
    { unfold read_sample. destruct ps as [|p ps]; [inversion He|].
      cbn [braced]. rewrite <- !app_assoc. change (B "{" ++ ?r) with ("{"%char :: r). cbv beta.
      rewrite (span_stop mchar name "{"%char) by auto. rewrite Hname.
      rewrite (skip_none "{"%char) by auto. cbv beta iota. replace (is 123 "{"%char) with true by reflexivity.
      change (B "}" ++ B " " ++ value) with (chr 125 :: " "%char :: value).
      rewrite labels_bad by auto. reflexivity. }
    unfold PxSpec.read_line. rewrite En in *. cbn [app] in *. rewrite skip_none by now apply mchar_not_blank.
    rewrite (proj2 (is_false 35 c)); auto. apply mchar_range in Hc. lia.
  Qed.

  (* ---- HELP and TYPE ---- *)
  Lemma htext_plain d : Forall (fun c => code c <> 10%N /\ code c <> 92%N) d -> htext other d = Some d.
  Proof. induction 1 as [|c d [_ Hc] Hd IH]; cbn; auto. rewrite (proj2 (is_false 92 c)) by auto. now rewrite IH. Qed.
  Lemma named_ok name t : metric_name name = true -> named (B " " ++ name ++ B " " ++ t) = Some (name, skip t).
  Proof.
    intros Hname. destruct (metric_first _ Hname) as (c & n' & En & Hc & Hall). unfold named.
    assert (E : skip (B " " ++ name ++ B " " ++ t) = name ++ " "%char :: t).
    { rewrite En. cbn. now rewrite mchar_not_blank. }
    rewrite E, (span_stop mchar name " "%char) by auto. rewrite Hname. reflexivity.
  Qed.
  Lemma read_help name desc : metric_name name = true -> plain_help desc ->
    read_line (B "# HELP " ++ name ++ B " " ++ desc) = Some [SHelp name desc].
  Proof.
    intros Hname [Hd Hb]. unfold PxSpec.read_line. cbn [B list_ascii_of_string app skip].
    replace (blank "#"%char) with false by reflexivity. replace (is 35 "#"%char) with true by reflexivity.
    unfold read_comment.
    pose proof (named_ok name desc Hname) as E. cbn [B list_ascii_of_string app] in E.
    change (span (fun c => negb (blank c)) (skip (" "%char :: "H"%char :: "E"%char :: "L"%char :: "P"%char :: " "%char :: name ++ " "%char :: desc)))
      with (B "HELP", " "%char :: name ++ " "%char :: desc).
    destruct (list_eq_dec ascii_dec (B "HELP") (B "HELP")) as [_|N]; [|congruence]. rewrite E.
    assert (Es : skip desc = desc). { destruct desc; auto. now apply skip_none. }
    rewrite Es, htext_plain by auto. reflexivity.
  Qed.
  Lemma read_type name ty : metric_name name = true -> In ty types ->
    read_line (B "# TYPE " ++ name ++ B " " ++ ty) = Some [SType name ty].
  Proof.
    intros Hname Ht. unfold PxSpec.read_line. cbn [B list_ascii_of_string app skip].
    replace (blank "#"%char) with false by reflexivity. replace (is 35 "#"%char) with true by reflexivity.
    unfold read_comment.
    pose proof (named_ok name ty Hname) as E. cbn [B list_ascii_of_string app] in E.
    change (span (fun c => negb (blank c)) (skip (" "%char :: "T"%char :: "Y"%char :: "P"%char :: "E"%char :: " "%char :: name ++ " "%char :: ty)))
      with (B "TYPE", " "%char :: name ++ " "%char :: ty).
    destruct (list_eq_dec ascii_dec (B "TYPE") (B "HELP")) as [N|_]; [discriminate|].
    destruct (list_eq_dec ascii_dec (B "TYPE") (B "TYPE")) as [_|N]; [|congruence]. rewrite E.
    assert (Es : skip ty = ty) by (destruct Ht as [<-|[<-|[<-|[<-|[<-|[]]]]]]; reflexivity).
    rewrite Es. destruct (in_dec (list_eq_dec ascii_dec) ty types); [reflexivity|contradiction].
  Qed.
End R.
