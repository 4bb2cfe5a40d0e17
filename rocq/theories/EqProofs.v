(* When the texts of jsonish are equal. *)
From Coq Require Import Bool Ascii String Arith NArith ZArith Lia List Permutation Sorted.
From Verif Require Import Prelude PreludeFacts Utf8Model Utf8Facts QuoteModel DecModel DecFacts DurModel DurProofs EncModel EncFacts KvSpec KvProofs
  JsonModel JsonSpec JsonFacts JsonProofs JsonParse RfcSpec RfcString RfcProofs EqModel EqSpec EqFloat.
Import ListNotations.
Local Open Scope N_scope.

(* ---- values with the same members ---- *)
Inductive jsame : jval -> jval -> Prop :=
| jm_null : jsame JNull JNull
| jm_bool b : jsame (JBool b) (JBool b)
| jm_num s : jsame (JNum s) (JNum s)
| jm_str s : jsame (JStr s) (JStr s)
| jm_arr l m : Forall2 jsame l m -> jsame (JArr l) (JArr m)
| jm_obj l m :
    (forall k x, mget beqb l k = Some x -> exists y, mget beqb m k = Some y /\ jsame x y) ->
    (forall k y, mget beqb m k = Some y -> exists x, mget beqb l k = Some x) -> jsame (JObj l) (JObj m).

Definition nent (e : bytes * jval) : bytes * node := (fst e, fromNative (snd e)).
Lemma nent_keys l : map fst (map nent l) = map fst l. Proof. rewrite map_map. reflexivity. Qed.
Lemma good_obj l : good_node (fromNative (JObj l)) -> NoDup (map fst l) /\ Forall (fun e => valid_utf8 (fst e) = true /\ good_node (fromNative (snd e))) l.
Proof.
  cbn [fromNative good_node]. intros [H1 H2]. change (fun e : bytes * jval => (fst e, fromNative (snd e))) with nent in *. rewrite nent_keys in H1. split; auto.
  clear H1. induction l as [|e l IH]; constructor; cbn in H2; [tauto|]. apply IH. tauto.
Qed.
Lemma good_arr l : good_node (fromNative (JArr l)) -> Forall (fun v => good_node (fromNative v)) l.
Proof. cbn [fromNative good_node]. induction l as [|e l IH]; intros H; constructor; cbn in H; tauto. Qed.

Lemma forall2_in_l {A C} (R : A -> C -> Prop) l m a : Forall2 R l m -> In a l -> exists b, In b m /\ R a b.
Proof. induction 1 as [|x y l m Hr Hf IH]; cbn; [tauto|]. intros [->|H]; [eauto|]. destruct (IH H) as (b & Hb & Hr'). eauto. Qed.
Lemma forall2_in_r {A C} (R : A -> C -> Prop) l m b : Forall2 R l m -> In b m -> exists a, In a l /\ R a b.
Proof. induction 1 as [|x y l m Hr Hf IH]; cbn; [tauto|]. intros [->|H]; [eauto|]. destruct (IH H) as (a & Ha & Hr'). eauto. Qed.

Lemma reads_both v : forall w n, good_node (fromNative v) -> good_node (fromNative w) -> reads_as (fromNative v) n -> reads_as (fromNative w) n -> jsame v w.
Proof.
  induction v as [| | | |l Hl|l Hl] using jval_ind2; intros w n Gv Gw Hv Hw.
  - inversion Hv; subst. destruct w; inversion Hw; subst; constructor.
  - inversion Hv; subst. destruct w; inversion Hw; subst; constructor.
  - inversion Hv; subst. destruct w; inversion Hw; subst; constructor.
  - inversion Hv; subst. destruct w; inversion Hw; subst; constructor.
  - inversion Hv as [| | | | | | | |? l' Hf| |]; subst. destruct w as [| | | |m|]; inversion Hw as [| | | | | | | |? l2 Hf2| |]; subst. constructor.
    apply good_arr in Gv, Gw. clear Hv Hw. revert l' Hf m Gw Hf2. induction Hl as [|x l Hx Hl IH]; intros l' Hf m Gw Hf2; cbn [map] in Hf; inversion Hf; subst.
    + destruct m; [constructor|inversion Hf2].
    + destruct m as [|y0 m]; [inversion Hf2|]. cbn [map] in Hf2. inversion Hf2; subst. inversion Gv; inversion Gw; subst. constructor; [eapply Hx; eauto|eapply IH; eauto].
  - inversion Hv as [| | | | | | | | |? p l' Hp Hf|]; subst. destruct w as [| | | | |m]; inversion Hw as [| | | | | | | | |? p2 l2 Hp2 Hf2|]; subst.
    apply good_obj in Gv as [Nl Gl]. apply good_obj in Gw as [Nm Gm].
    change (fun e : bytes * jval => (fst e, fromNative (snd e))) with nent in *.
    assert (K1 : forall k x, In (k, x) l -> exists y b, In (k, y) m /\ reads_as (fromNative x) b /\ reads_as (fromNative y) b).
    { intros k x Hx. assert (Hi : In (k, fromNative x) p). { eapply Permutation_in; [exact Hp|]. apply (in_map nent) in Hx. exact Hx. }
      destruct (forall2_in_l _ _ _ _ Hf Hi) as ([k' b] & Hb & Hk & Hr). cbn [fst snd] in *. subst k'.
      destruct (forall2_in_r _ _ _ _ Hf2 Hb) as ([k' n'] & Hn & Hk & Hr2). cbn [fst snd] in *. subst k'.
      apply Permutation_sym in Hp2. apply (Permutation_in _ Hp2) in Hn. apply in_map_iff in Hn as ([k' y] & Hy & Hm). injection Hy as -> <-. eauto. }
    assert (K2 : forall k y, In (k, y) m -> exists x, In (k, x) l).
    { intros k y Hy. assert (Hi : In (k, fromNative y) p2). { eapply Permutation_in; [exact Hp2|]. apply (in_map nent) in Hy. exact Hy. }
      destruct (forall2_in_l _ _ _ _ Hf2 Hi) as ([k' b] & Hb & Hk & Hr). cbn [fst snd] in *. subst k'.
      destruct (forall2_in_r _ _ _ _ Hf Hb) as ([k' n'] & Hn & Hk & Hr2). cbn [fst snd] in *. subst k'.
      apply Permutation_sym in Hp. apply (Permutation_in _ Hp) in Hn. apply in_map_iff in Hn as ([k' x] & Hx & Hm). injection Hx as -> <-. eauto. }
    rewrite Forall_forall in Hl, Gl, Gm. constructor.
    + intros k x Hx. apply (mget_in beqb beqb_ok) in Hx; auto. destruct (K1 k x Hx) as (y & b & Hy & Hb1 & Hb2). exists y. split; [now apply (mget_in beqb beqb_ok)|].
      apply (Hl (k, x) Hx y b); auto; [apply (Gl (k, x) Hx)|apply (Gm (k, y) Hy)].
    + intros k y Hy. apply (mget_in beqb beqb_ok) in Hy; auto. destruct (K2 k y Hy) as (x & Hx). exists x. now apply (mget_in beqb beqb_ok).
Qed.

Lemma nodup_map_in {A} (g : A -> node) (l : list (bytes * A)) : NoDup (map fst l) -> NoDup (map (fun e => (fst e, g (snd e))) l).
Proof.
  induction l as [|e l IH]; cbn [map]; intros H; inversion H; subst; constructor; auto.
  intros Hi. apply in_map_iff in Hi as (e' & E & Hi). injection E as E _. apply H2. rewrite <- E. now apply in_map.
Qed.

Lemma jsame_reorder v : forall w, good_node (fromNative v) -> good_node (fromNative w) -> jsame v w -> reorder (fromNative v) (fromNative w).
Proof.
  induction v as [| | | |l Hl|l Hl] using jval_ind2; intros w Gv Gw H; inversion H as [| | | |? m Hf|? m H1 H2]; subst; try constructor.
  - apply good_arr in Gv, Gw. clear H. revert Gv Gw Hl. induction Hf as [|x y l m Hxy Hf IH]; intros Gv Gw Hl; cbn [map]; constructor;
      inversion Gv; inversion Gw; inversion Hl; subst; auto.
  - apply good_obj in Gv as [Nl Gl]. apply good_obj in Gw as [Nm Gm]. cbn [fromNative].
    set (look := fun k => match mget beqb l k with Some x => x | None => JNull end).
    apply ro_map with (m := map (fun e => (fst e, fromNative (look (fst e)))) m).
    + apply NoDup_Permutation.
      * now apply nodup_map_in.
      * clear -Nm. induction m as [|e m IH]; cbn [map] in *; inversion Nm; subst; constructor; auto. intros Hi. apply in_map_iff in Hi as (e' & E & Hi).
        injection E as E _. apply H1. rewrite <- E. now apply in_map.
      * intros [k n]. split; intros Hi.
        -- apply in_map_iff in Hi as ([k' x] & E & Hi). injection E as -> <-. apply (mget_in beqb beqb_ok) in Hi; auto.
           destruct (H1 k x Hi) as (y & Hy & _). apply (mget_in beqb beqb_ok) in Hy; auto. apply in_map_iff. exists (k, y). split; auto.
           cbn [fst]. unfold look. now rewrite Hi.
        -- apply in_map_iff in Hi as ([k' y] & E & Hi). injection E as -> <-. apply (mget_in beqb beqb_ok) in Hi; auto.
           destruct (H2 k y Hi) as (x & Hx). unfold look. rewrite Hx. apply (mget_in beqb beqb_ok) in Hx; auto. apply (in_map nent) in Hx. exact Hx.
    + assert (K : Forall (fun e => reorder (fromNative (look (fst e))) (fromNative (snd e))) m).
      { apply Forall_forall. intros [k y] Hy. cbn [fst snd]. pose proof Hy as Hy'. apply (mget_in beqb beqb_ok) in Hy'; auto. destruct (H2 k y Hy') as (x & Hx).
        unfold look. rewrite Hx. destruct (H1 k x Hx) as (y' & Hy2 & Hs). assert (y' = y) by congruence. subst y'.
        apply (mget_in beqb beqb_ok) in Hx; auto. rewrite Forall_forall in Hl, Gl, Gm. apply (Hl (k, x) Hx); auto; [apply (Gl (k, x) Hx)|apply (Gm (k, y) Hy)]. }
      clear -K. induction K; cbn [map]; constructor; auto.
Qed.

Lemma jsame_text short v w : good_node (fromNative v) -> good_node (fromNative w) ->
  N.of_nat (ndepth (fromNative v)) <= 10000 -> N.of_nat (ndepth (fromNative w)) <= 10000 ->
  (jenc short false 0 (fromNative v) = jenc short false 0 (fromNative w) <-> jsame v w).
Proof.
  intros Gv Gw Dv Dw. split.
  - intros E. destruct (encode_decode short false _ Gv Dv) as (j & m & H1 & H2 & H3). destruct (encode_decode short false _ Gw Dw) as (j' & m' & H1' & H2' & H3').
    unfold Encode in *. rewrite good_encodable in H1, H1' by auto. injection H1 as <-. injection H1' as <-. rewrite <- E, H2 in H2'. injection H2' as <-.
    now apply (reads_both v w m).
  - intros H. apply jenc_reorder; [now apply good_distinct|]. now apply jsame_reorder.
Qed.

(* ---- numbers become floats ---- *)
Section Floats.
  Context (ftext : f64 -> bytes) (message : bytes -> bytes) (short : bool).
  Hypothesis HP : prints ftext.

  Fixpoint cj (v : jval) : jval :=
    match v with
    | JNum s => match convert s with Some f => JNum (ftext f) | None => JNull end
    | JArr l => JArr (map cj l)
    | JObj l => JObj (map (fun e => (fst e, cj (snd e))) l)
    | _ => v
    end.
  Lemma native_cj v : forall d, jenc short false d (native ftext v) = jenc short false d (fromNative (cj v)).
  Proof.
    induction v as [| | | |l Hl|l Hl] using jval_ind2; intros d; cbn [native cj fromNative]; try reflexivity.
    - destruct (convert s); reflexivity.
    - cbn [jenc]. f_equal. rewrite !map_map. induction Hl as [|x l Hx Hl IH]; cbn [map]; auto. now rewrite Hx, IH.
    - cbn [jenc]. f_equal. f_equal. f_equal. rewrite !map_map. cbn [fst snd]. induction Hl as [|x l Hx Hl IH]; cbn [map]; auto. now rewrite Hx, IH.
  Qed.
  Lemma reads_64 s f : reads_float s f -> float64 f.
  Proof. intros (P & Q & _ & [H _] & H2). split; auto. Qed.
  Lemma convert_64 s f : convert s = Some f -> float64 f.
  Proof.
    unfold convert. destruct (num_parts s) as [[neg m] e]. rewrite range_eq.
    destruct (N.ltb_spec (round64 (m * 10 ^ Z.to_N e) (10 ^ Z.to_N (- e))) (2 ^ (1024 + 1074))) as [H|]; [|discriminate]. intros E. injection E as <-.
    split; auto. apply round64_nearest. apply pow10_pos.
  Qed.
  Lemma cj_good v : good_node (fromNative v) -> good_node (fromNative (cj v)).
  Proof.
    induction v as [| | | |l Hl|l Hl] using jval_ind2; cbn [cj]; auto; intros G.
    - destruct (convert s) as [f|] eqn:E; cbn; auto. apply HP. now apply (convert_64 s).
    - apply good_arr in G. cbn [fromNative good_node]. induction Hl as [|x l Hx Hl IH]; cbn; auto. inversion G; subst. auto.
    - apply good_obj in G as [N1 G]. cbn [fromNative good_node]. rewrite !map_map. cbn [fst snd]. split; [exact N1|]. clear N1.
      induction Hl as [|x l Hx Hl IH]; cbn; auto. inversion G as [|? ? [G1 G2] G3]; subst. auto.
  Qed.
  Lemma cj_depth v : (ndepth (fromNative (cj v)) <= ndepth (fromNative v))%nat.
  Proof.
    induction v as [| | | |l Hl|l Hl] using jval_ind2; cbn [cj fromNative]; auto.
    - destruct (convert s); auto.
    - cbn [ndepth]. apply le_n_S. induction Hl as [|x l Hx Hl IH]; cbn; auto. lia.
    - cbn [ndepth]. apply le_n_S. induction Hl as [|x l Hx Hl IH]; cbn; auto. cbn in *. lia.
  Qed.
  Lemma native_encodable v : good_node (fromNative v) -> encodable (native ftext v) = true.
  Proof.
    induction v as [| | | |l Hl|l Hl] using jval_ind2; cbn [native]; auto; intros G.
    - destruct (convert s) as [f|] eqn:E; auto. cbn. apply is_number_spec. apply HP. now apply (convert_64 s).
    - apply good_arr in G. cbn [encodable]. induction Hl as [|x l Hx Hl IH]; cbn; auto. inversion G; subst. rewrite Hx by auto. auto.
    - apply good_obj in G as [_ G]. cbn [encodable]. induction Hl as [|x l Hx Hl IH]; cbn; auto. inversion G as [|? ? [G1 G2] G3]; subst. rewrite Hx by auto. auto.
  Qed.

  (* ---- texts ---- *)
  Lemma tree_good s x : json_text s x -> N.of_nat (tdepth x) <= 10000 -> whole s = Some (jval_of x) /\ good_node (fromNative (jval_of x)) /\ N.of_nat (ndepth (fromNative (jval_of x))) <= 10000.
  Proof.
    intros H Hd. apply maxdepth_le in Hd. destruct H as (a & t & b & -> & Ha & Ht & Hb). unfold whole.
    pose proof (all_taken x t Ht (2 * length (a ++ t ++ b) + 2)%nat 0%nat a b Ha (num_end_tail b Hb) (Nat.le_0_l _) (le_n _)) as E.
    rewrite Nat.add_0_r in E. rewrite (proj2 (Nat.leb_le _ _) Hd) in E. rewrite E.
    assert (Hw : ws b = []). { pose proof (ws_blanks b [] Hb) as Hw. now rewrite app_nil_r in Hw. } rewrite Hw. split; auto.
    destruct (parse_spec (2 * length (a ++ t ++ b) + 2)%nat 0%nat (a ++ t ++ b) (jval_of x) b) as [Hp _]. destruct Hp as [[H1 H2] _]; auto; [lia|].
    split; auto. apply maxdepth_le. lia.
  Qed.
  Lemma reads_convert s f : reads_float s f -> convert s = Some f.
  Proof.
    intros (P & Q & Hs & Hn & Hl). rewrite (convert_says _ _ _ _ Hs).
    rewrite (nearest_unique P Q (round64 P Q) (snd f)) by (auto; apply round64_nearest; eapply says_pos; eauto).
    apply N.ltb_lt in Hl. rewrite Hl. now destruct f.
  Qed.
  Lemma tree_unmarshalled s x : json_text s x -> N.of_nat (tdepth x) <= 10000 -> in_range x -> unmarshalled ftext s = Some (native ftext (jval_of x)).
  Proof.
    intros H Hd Hr. destruct (tree_good s x H Hd) as (Hw & _). unfold unmarshalled. rewrite Hw. destruct x as [| |n| | |]; try reflexivity.
    cbn [jval_of]. destruct Hr as (f & Hf). now rewrite (reads_convert n f Hf).
  Qed.
  Lemma tree_jsonish g s x : g = GStr s \/ g = GBytes (Some s) \/ g = GRaw (Some s) -> json_text s x -> N.of_nat (tdepth x) <= 10000 -> in_range x ->
    jsonish ftext message short g = Ok (jenc short false 0 (fromNative (cj (jval_of x)))).
  Proof.
    intros Hg H Hd Hr. destruct (tree_good s x H Hd) as (_ & G & _).
    assert (E : marshalled ftext message g = Good (native ftext (jval_of x))).
    { unfold marshalled. destruct Hg as [->|[->| ->]]; now rewrite (tree_unmarshalled s x H Hd Hr). }
    unfold jsonish. rewrite E. unfold Encode. rewrite native_encodable by auto. now rewrite native_cj.
  Qed.

  (* ---- members ---- *)
  Lemma last_map {V W} (h : V -> W) (m : list (bytes * V)) k : mget beqb (map (fun e => (fst e, h (snd e))) m) k = option_map h (mget beqb m k).
  Proof. induction m as [|[k' v] m IH]; cbn; auto. destruct (beqb k k'); auto. Qed.
  Lemma obj_get l k : mget beqb (map (fun e => (fst e, cj (snd e))) (puta (map (fun e => (fst e, jval_of (snd e))) l) [])) k = option_map (fun x => cj (jval_of x)) (last_member l k).
  Proof.
    rewrite last_map, <- puta_last. pose proof (puta_map jval_of l []) as E. cbn [map] in E. rewrite <- E, last_map. now destruct (mget beqb (puta l []) k).
  Qed.
  Lemma all_last A l k x : fold_right (fun e P => all_numbers A (snd e) /\ P) True l -> last_member l k = Some x -> In x (map snd l) /\ all_numbers A x.
  Proof.
    clear HP message ftext short. intros Ha H. assert (Hi : In x (map snd l)).
    { unfold last_member in H. destruct (find (fun e => beqb (fst e) k) (rev l)) as [e|] eqn:E; [|discriminate]. injection H as <-.
      apply find_some in E as [E _]. apply in_rev in E. now apply in_map. }
    split; auto. apply in_map_iff in Hi as (e & <- & Hi). clear H. induction l as [|e' l IH]; [destruct Hi|]. cbn in Ha. destruct Hi as [->|Hi]; [tauto|]. now apply IH.
  Qed.

  Lemma alike_jsame x : forall y, in_range x -> in_range y -> (alike same_float x y <-> jsame (cj (jval_of x)) (cj (jval_of y))).
  Proof.
    unfold in_range. induction x as [|b|s|s|l Hl|l Hl] using jtree_ind2; intros y Rx Ry.
    - split; intros H; [inversion H; constructor|]. destruct y; cbn in H; try (inversion H; fail); [constructor|]. destruct Ry as (f & Hf). rewrite (reads_convert _ _ Hf) in H. inversion H.
    - split; intros H; [inversion H; constructor|]. destruct y; cbn in H; try (inversion H; constructor; fail). destruct Ry as (f & Hf). rewrite (reads_convert _ _ Hf) in H. inversion H.
    - destruct Rx as (f & Hf). cbn [jval_of cj]. rewrite (reads_convert _ _ Hf). split; intros H.
      + inversion H as [| |? t (f' & H1 & H2)| | |]; subst. cbn [jval_of cj]. rewrite (reads_convert _ _ H2). apply reads_convert in H1. apply reads_convert in Hf.
        assert (f' = f) by congruence. subst f'. constructor.
      + destruct y as [| |t| | |]; cbn [jval_of cj] in H; try (inversion H; fail). destruct Ry as (g & Hg). rewrite (reads_convert _ _ Hg) in H. constructor. exists f. split; auto.
        assert (E : ftext f = ftext g) by (inversion H; congruence). apply HP in E; [now rewrite <- E in Hg|now apply reads_64 with s|now apply reads_64 with t].
    - split; intros H; [inversion H; constructor|]. destruct y; cbn in H; try (inversion H; constructor; fail). destruct Ry as (f & Hf). rewrite (reads_convert _ _ Hf) in H. inversion H.
    - split; intros H.
      + inversion H as [| | | |? m Hf|]; subst. cbn [jval_of cj]. constructor. clear H. cbn in Rx, Ry. revert Hl Rx Ry. induction Hf as [|x y l m Hxy Hf IH]; intros Hl Rx Ry; cbn [map]; constructor.
        * inversion Hl; subst. cbn in Rx, Ry. apply H1; tauto.
        * inversion Hl; subst. cbn in Rx, Ry. apply IH; tauto.
      + destruct y as [| |t| |m|]; cbn [jval_of cj] in H; try (inversion H; fail).
        { destruct Ry as (g & Hg). rewrite (reads_convert _ _ Hg) in H. inversion H. }
        inversion H as [| | | |? ? Hf|]; subst. constructor. clear H. cbn in Rx, Ry. revert m Hf Rx Ry. induction Hl as [|x l Hx Hl IH]; intros m Hf Rx Ry; cbn [map] in Hf.
        * destruct m; [constructor|inversion Hf].
        * destruct m as [|y m]; [inversion Hf|]. cbn [map] in Hf. inversion Hf; subst. cbn in Rx, Ry. constructor; [apply Hx; tauto|apply IH; tauto].
    - split; intros H.
      + inversion H as [| | | | |? m H1 H2]; subst. cbn [jval_of cj]. cbn in Rx, Ry. constructor.
        * intros k x Hx. rewrite obj_get in Hx. destruct (last_member l k) as [x0|] eqn:E; [|discriminate]. injection Hx as <-.
          destruct (H1 k x0 E) as (y0 & Ey & Hs). exists (cj (jval_of y0)). rewrite obj_get, Ey. split; auto.
          destruct (all_last _ l k x0 Rx E) as [Hi Ax]. destruct (all_last _ m k y0 Ry Ey) as [_ Ay].
          apply in_map_iff in Hi as (e & <- & Hi). rewrite Forall_forall in Hl. now apply (Hl e Hi).
        * intros k y Hy. rewrite obj_get in Hy. destruct (last_member m k) as [y0|] eqn:E; [|discriminate].
          destruct (H2 k y0 E) as (x0 & Ex). exists (cj (jval_of x0)). now rewrite obj_get, Ex.
      + destruct y as [| |t| | |m]; cbn [jval_of cj] in H; try (inversion H; fail).
        { destruct Ry as (g & Hg). rewrite (reads_convert _ _ Hg) in H. inversion H. }
        inversion H as [| | | | |? ? H1 H2]; subst. cbn in Rx, Ry. constructor.
        * intros k x Hx. destruct (H1 k (cj (jval_of x))) as (y & Hy & Hs); [now rewrite obj_get, Hx|]. rewrite obj_get in Hy.
          destruct (last_member m k) as [y0|] eqn:E; [|discriminate]. injection Hy as <-. exists y0. split; auto.
          destruct (all_last _ l k x Rx Hx) as [Hi Ax]. destruct (all_last _ m k y0 Ry E) as [_ Ay].
          apply in_map_iff in Hi as (e & <- & Hi). rewrite Forall_forall in Hl. now apply (Hl e Hi).
        * intros k y Hy. destruct (H2 k (cj (jval_of y))) as (x & Hx); [now rewrite obj_get, Hy|]. rewrite obj_get in Hx.
          destruct (last_member l k) as [x0|] eqn:E; [|discriminate]. eauto.
  Qed.

  (* ---- Go values ---- *)
  Fixpoint nj (n : node) : jval :=
    match n with
    | NBool b => JBool b
    | NInt z => JNum (decz z)
    | NStr s => JStr s
    | NList l => JArr (map nj l)
    | NMap l => JObj (map (fun e => (fst e, nj (snd e))) l)
    | NPairs l => JObj (map (fun e => (snd (fst e), nj (snd e))) l)
    | _ => JNull
    end.
  Lemma before_ltb a b : before a b -> bltb a b = true.
  Proof.
    induction 1; cbn; auto.
    - apply N.ltb_lt in H. now rewrite H.
    - rewrite N.eqb_refl, IHbefore. apply orb_true_r.
  Qed.
  Lemma ltb_before a : forall b, bltb a b = true -> before a b.
  Proof.
    induction a as [|c a IH]; intros [|d b] H; cbn in H; try discriminate; [constructor|].
    apply orb_true_iff in H as [H|H]; [apply bf_less; now apply N.ltb_lt|]. apply andb_true_iff in H as [H1 H2]. apply N.eqb_eq in H1. apply code_inj in H1. subst d.
    apply bf_same. auto.
  Qed.
  Lemma order_sorted {A} (l : list (bytes * A)) : in_order (map fst l) -> StronglySorted klt l.
  Proof.
    induction l as [|e l IH]; cbn [map]; intros H; constructor; inversion H as [|? ? H1 H2]; subst; auto.
    rewrite Forall_map in H2. eapply Forall_impl; [|exact H2]. intros f Hf. now apply before_ltb.
  Qed.
  Lemma sorted_order {A} (l : list (bytes * A)) : StronglySorted klt l -> in_order (map fst l).
  Proof.
    induction 1 as [|e l Hs IH Hf]; cbn [map]; constructor; auto. rewrite Forall_map. eapply Forall_impl; [|exact Hf]. intros f H. now apply ltb_before.
  Qed.
  Lemma order_nodup (l : list bytes) : in_order l -> NoDup l.
  Proof.
    induction l as [|e l IH]; intros H; constructor; inversion H as [|? ? H1 H2]; subst; auto.
    intros Hi. rewrite Forall_forall in H2. apply H2 in Hi. apply before_ltb in Hi. rewrite bltb_irrefl in Hi. discriminate.
  Qed.
  Lemma ksort_order {A} (l : list (bytes * A)) : in_order (map fst l) -> ksort l = l.
  Proof.
    intros H. apply sorted_unique.
    - apply ksort_sorted. now apply order_nodup.
    - now apply order_sorted.
    - symmetry. apply ksort_perm.
  Qed.
  Lemma names_map {A} (h : node -> A) l : map fst (map (fun e : bytes * bytes * node => (snd (fst e), h (snd e))) l) = json_names l.
  Proof. unfold json_names. now rewrite map_map. Qed.

  Lemma nj_enc n : forall d, plain n -> jenc short false d n = jenc short false d (fromNative (nj n)).
  Proof.
    induction n as [|b|z|f|s|s|t|u|l Hl|l Hl|l Hl] using node_ind2; intros d Hp; try (cbn in Hp; tauto); try reflexivity.
    - cbn [plain] in Hp. cbn [nj fromNative jenc]. f_equal. rewrite !map_map. induction Hl as [|x l Hx Hl IH]; cbn [map]; auto. cbn in Hp. rewrite Hx, IH by tauto. reflexivity.
    - cbn [plain] in Hp. destruct Hp as [_ Hp]. cbn [nj fromNative jenc]. f_equal. f_equal. f_equal. rewrite !map_map. cbn [fst snd].
      induction Hl as [|x l Hx Hl IH]; cbn [map]; auto. cbn in Hp. rewrite Hx, IH by tauto. reflexivity.
    - cbn [plain] in Hp. destruct Hp as [Ho Hp]. cbn [nj fromNative jenc]. f_equal. rewrite !map_map. cbn [fst snd].
      rewrite ksort_order; [|rewrite map_map; exact Ho]. rewrite map_map. cbn [fst snd]. clear Ho.
      induction Hl as [|x l Hx Hl IH]; cbn [map]; auto. cbn in Hp. rewrite Hx, IH by tauto. reflexivity.
  Qed.
  Lemma nj_good n : plain n -> good_node (fromNative (nj n)).
  Proof.
    induction n as [|b|z|f|s|s|t|u|l Hl|l Hl|l Hl] using node_ind2; intros Hp; cbn [nj fromNative]; try exact I; try (cbn in Hp; tauto).
    - apply decz_number.
    - cbn [plain] in Hp. cbn [good_node]. induction Hl as [|x l Hx Hl IH]; cbn; auto. cbn in Hp. tauto.
    - cbn [plain] in Hp. destruct Hp as [Hn Hp]. cbn [good_node]. rewrite !map_map. split; [exact Hn|]. clear Hn.
      induction Hl as [|x l Hx Hl IH]; cbn; auto. cbn in Hp. tauto.
    - cbn [plain] in Hp. destruct Hp as [Hn Hp]. cbn [good_node]. split.
      + rewrite map_map. cbn [fst]. rewrite names_map. now apply order_nodup.
      + rewrite !map_map. clear Hn. induction Hl as [|x l Hx Hl IH]; cbn; auto. cbn in Hp. tauto.
  Qed.
  Lemma nj_depth n : (ndepth (fromNative (nj n)) <= ndepth n)%nat.
  Proof.
    induction n as [|b|z|f|s|s|t|u|l Hl|l Hl|l Hl] using node_ind2; cbn [nj fromNative]; auto; cbn [ndepth]; try lia.
    - apply le_n_S. induction Hl as [|x l Hx Hl IH]; cbn; auto. lia.
    - apply le_n_S. induction Hl as [|x l Hx Hl IH]; cbn; auto. cbn in *. lia.
    - apply le_n_S. induction Hl as [|x l Hx Hl IH]; cbn; auto. cbn in *. lia.
  Qed.
  Lemma plain_encodable n : plain n -> encodable n = true.
  Proof.
    induction n as [|b|z|f|s|s|t|u|l Hl|l Hl|l Hl] using node_ind2; intros Hp; auto; try (cbn in Hp; tauto); cbn [plain encodable] in *.
    - induction Hl as [|x l Hx Hl IH]; cbn in *; auto. rewrite Hx by tauto. apply IH. tauto.
    - destruct Hp as [_ Hp]. induction Hl as [|x l Hx Hl IH]; cbn in *; auto. rewrite Hx by tauto. apply IH. tauto.
    - destruct Hp as [_ Hp]. induction Hl as [|x l Hx Hl IH]; cbn in *; auto. rewrite Hx by tauto. apply IH. tauto.
  Qed.
  Lemma value_jsonish n : plain n -> jsonish ftext message short (GValue (Good n)) = Ok (jenc short false 0 (fromNative (nj n))).
  Proof. intros H. unfold jsonish, marshalled, Encode. rewrite plain_encodable by auto. now rewrite nj_enc. Qed.

  Lemma exact_range s : exact s -> exists f, reads_float s f.
  Proof. intros (neg & P & Q & k & Hs & Hg & Hk & E). exists (neg, k). exists P, Q. split; auto. split; auto. apply exact_nearest; auto. eapply says_pos; eauto. Qed.
  Lemma all_impl (A C : bytes -> Prop) x : (forall s, A s -> C s) -> all_numbers A x -> all_numbers C x.
  Proof.
    intros H. induction x as [|b|s|s|l Hl|l Hl] using jtree_ind2; cbn; auto.
    - induction Hl as [|x l Hx Hl IH]; cbn; tauto.
    - induction Hl as [|x l Hx Hl IH]; cbn; tauto.
  Qed.
  Lemma exact_in_range x : all_numbers exact x -> in_range x.
  Proof. apply all_impl. apply exact_range. Qed.

  (* the float of a small integer *)
  Lemma int_64 z : (Z.abs z <= 2 ^ 53)%Z -> float64 ((z <? 0)%Z, Z.abs_N z * 2 ^ 1074).
  Proof.
    intros H. assert (Hn : Z.abs_N z <= 2 ^ 53) by lia. split; cbn [snd].
    - destruct (N.eq_dec (Z.abs_N z) (2 ^ 53)) as [->|Hne].
      + exists (2 ^ 52), (1 + 1074). split; [vm_compute; reflexivity|]. rewrite N.pow_add_r, N.mul_assoc. reflexivity.
      + exists (Z.abs_N z), 1074. split; auto. lia.
    - rewrite N.pow_add_r. apply N.mul_lt_mono_pos_r; [apply pow2_pos|]. eapply N.le_lt_trans; [exact Hn|]. vm_compute. reflexivity.
  Qed.
  Lemma int_number z s : (Z.abs z <= 2 ^ 53)%Z -> exact s ->
    (decz z = match convert s with Some f => ftext f | None => [] end <-> exists P Q, says s (z <? 0)%Z P Q /\ P = Z.abs_N z * Q).
  Proof.
    intros Hz Hx. pose proof (int_64 z Hz) as H64. split.
    - destruct Hx as (neg & P & Q & k & Hs & Hg & Hk & E). assert (Hr : reads_float s (neg, k)).
      { exists P, Q. split; auto. split; auto. apply exact_nearest; auto. eapply says_pos; eauto. }
      rewrite (reads_convert _ _ Hr). destruct HP as (_ & Hinj & Hint). rewrite <- Hint by auto. intros Ee. apply Hinj in Ee; auto; [|now apply reads_64 with s].
      injection Ee as <- <-. exists P, Q. split; auto. pose proof (pow2_pos 1074). apply N.mul_cancel_r with (p := 2 ^ 1074); [lia|]. rewrite E. apply N.mul_shuffle0.
    - intros (P & Q & Hs & ->). assert (Hr : reads_float s ((z <? 0)%Z, Z.abs_N z * 2 ^ 1074)).
      { exists (Z.abs_N z * Q), Q. split; auto. split; [|apply H64]. apply exact_nearest; [eapply says_pos; eauto|apply H64|apply N.mul_shuffle0]. }
      rewrite (reads_convert _ _ Hr). destruct HP as (_ & _ & Hint). symmetry. now apply Hint.
  Qed.

  Lemma mget_of_in {V W} (h : V -> W) (m : list (bytes * V)) k w : NoDup (map fst m) ->
    mget beqb (map (fun e => (fst e, h (snd e))) m) k = Some w <-> exists v, In (k, v) m /\ w = h v.
  Proof.
    intros Hn. rewrite last_map. split.
    - destruct (mget beqb m k) as [v|] eqn:E; [|discriminate]. intros H. injection H as <-. exists v. split; auto. now apply (mget_in beqb beqb_ok).
    - intros (v & Hi & ->). apply (mget_in beqb beqb_ok) in Hi; auto. now rewrite Hi.
  Qed.

  Lemma agrees_obj (l : list (bytes * node)) m : NoDup (map fst l) ->
    (forall e, In e l -> forall y, all_numbers exact y -> (agrees (snd e) y <-> jsame (nj (snd e)) (cj (jval_of y)))) ->
    fold_right (fun e P => all_numbers exact (snd e) /\ P) True m ->
    ((forall k n, In (k, n) l -> exists y, last_member m k = Some y /\ agrees n y) /\ (forall k y, last_member m k = Some y -> exists n, In (k, n) l) <->
     jsame (JObj (map (fun e => (fst e, nj (snd e))) l)) (cj (jval_of (TObj m)))).
  Proof.
    intros Hn Hl Ay. cbn [jval_of cj]. split.
    - intros [H1 H2]. constructor.
      + intros k x Hx. apply mget_of_in in Hx as (n & Hi & ->); auto. destruct (H1 k n Hi) as (y & Hy & Ha). exists (cj (jval_of y)).
        rewrite obj_get, Hy. split; auto. apply (Hl (k, n) Hi); auto. now apply (all_last _ m k).
      + intros k y Hy. rewrite obj_get in Hy. destruct (last_member m k) as [y0|] eqn:E; [|discriminate]. destruct (H2 k y0 E) as (n & Hi).
        exists (nj n). apply mget_of_in; eauto.
    - intros H. inversion H as [| | | | |? ? H1 H2]; subst. split.
      + intros k n Hi. destruct (H1 k (nj n)) as (y & Hy & Hs); [apply mget_of_in; eauto|]. rewrite obj_get in Hy.
        destruct (last_member m k) as [y0|] eqn:E; [|discriminate]. injection Hy as <-. exists y0. split; auto. apply (Hl (k, n) Hi); auto. now apply (all_last _ m k).
      + intros k y Hy. destruct (H2 k (cj (jval_of y))) as (x & Hx); [now rewrite obj_get, Hy|]. apply mget_of_in in Hx as (n & Hi & _); eauto.
  Qed.

  Lemma agrees_jsame n : forall y, plain n -> all_numbers exact y -> (agrees n y <-> jsame (nj n) (cj (jval_of y))).
  Proof.
    assert (Hnum : forall s v, exact s -> jsame v (cj (JNum s)) -> exists f, convert s = Some f /\ v = JNum (ftext f)).
    { intros s v Hx H. destruct (exact_range s Hx) as (f & Hf). apply reads_convert in Hf. exists f. split; auto. cbn [cj] in H. rewrite Hf in H. inversion H; auto. }
    induction n as [|b|z|f|s|s|t|u|l Hl|l Hl|l Hl] using node_ind2; intros y Hp Ay; try (cbn in Hp; tauto).
    - split; intros H; [inversion H; constructor|]. destruct y; cbn [jval_of] in H; try (inversion H; fail); [constructor|]. apply Hnum in H as (f & _ & H); auto. discriminate.
    - split; intros H; [inversion H; constructor|]. destruct y; cbn [jval_of] in H; try (inversion H; constructor; fail). apply Hnum in H as (f & _ & H); auto. discriminate.
    - split; intros H.
      + inversion H as [| |? s P Q Hs HPQ| | | |]; subst. cbn [nj jval_of cj]. pose proof (int_number z s Hp Ay) as [_ K]. specialize (K (ex_intro _ _ (ex_intro _ _ (conj Hs eq_refl)))).
        destruct (exact_range s Ay) as (f & Hf). apply reads_convert in Hf. rewrite Hf in *. rewrite K. constructor.
      + destruct y as [| |s| | |]; cbn [jval_of nj] in H; try (inversion H; fail). apply Hnum in H as (f & Hf & H); auto. injection H as H.
        pose proof (int_number z s Hp Ay) as [K _]. rewrite Hf in K. destruct (K H) as (P & Q & Hs & E). econstructor; eauto.
    - split; intros H; [inversion H; constructor|]. destruct y; cbn [jval_of] in H; try (inversion H; constructor; fail). apply Hnum in H as (f & _ & H); auto. discriminate.
    - cbn [plain] in Hp. split; intros H.
      + inversion H as [| | | |? m Hf| |]; subst. cbn [nj jval_of cj]. constructor. clear H. cbn in Ay. revert Hl Hp Ay. induction Hf as [|x y l m Hxy Hf IH]; intros Hl Hp Ay; cbn [map]; constructor.
        * inversion Hl; subst. cbn in Hp, Ay. apply H1; tauto.
        * inversion Hl; subst. cbn in Hp, Ay. apply IH; tauto.
      + destruct y as [| |s| |m|]; cbn [jval_of nj] in H; try (inversion H; fail); [apply Hnum in H as (f & _ & H); auto; discriminate|].
        inversion H as [| | | |? ? Hf|]; subst. constructor. clear H. cbn in Ay. revert m Hf Hp Ay. induction Hl as [|x l Hx Hl IH]; intros m Hf Hp Ay; cbn [map] in Hf.
        * destruct m; [constructor|inversion Hf].
        * destruct m as [|y m]; [inversion Hf|]. cbn [map] in Hf. inversion Hf; subst. cbn in Hp, Ay. constructor; [apply Hx; tauto|apply IH; tauto].
    - cbn [plain] in Hp. destruct Hp as [Hn Hp].
      assert (K : forall e, In e l -> forall y, all_numbers exact y -> (agrees (snd e) y <-> jsame (nj (snd e)) (cj (jval_of y)))).
      { intros e He y0 Hy0. rewrite Forall_forall in Hl. apply Hl; auto. apply (fold_and (fun e => valid_utf8 (fst e) = true) (fun e => plain (snd e))) in Hp.
        rewrite Forall_forall in Hp. now apply Hp. }
      split; intros H.
      + inversion H as [| | | | |? m H1 H2|]; subst. cbn [nj]. apply agrees_obj; auto.
      + destruct y as [| |s| | |m]; cbn [jval_of nj] in H; try (inversion H; fail); [apply Hnum in H as (f & _ & H); auto; discriminate|].
        apply agrees_obj in H as [H1 H2]; auto. now constructor.
    - cbn [plain] in Hp. destruct Hp as [Hn Hp]. set (l' := map (fun e : bytes * bytes * node => (snd (fst e), snd e)) l).
      assert (Hn' : NoDup (map fst l')). { unfold l'. rewrite map_map. now apply order_nodup. }
      assert (K : forall e, In e l' -> forall y, all_numbers exact y -> (agrees (snd e) y <-> jsame (nj (snd e)) (cj (jval_of y)))).
      { intros e He y0 Hy0. apply in_map_iff in He as (p & <- & He). cbn [snd]. rewrite Forall_forall in Hl. apply Hl; auto.
        apply (fold_and (fun e => valid_utf8 (snd (fst e)) = true) (fun e => plain (snd e))) in Hp. rewrite Forall_forall in Hp. now apply Hp. }
      assert (Ki : forall k n, In (k, n) l' <-> exists i, In (i, k, n) l).
      { intros k n. unfold l'. rewrite in_map_iff. split; [intros ([[i k'] n'] & E & Hi); cbn in E; injection E as <- <-; eauto|intros (i & Hi); exists (i, k, n); auto]. }
      assert (Kj : nj (NPairs l) = JObj (map (fun e => (fst e, nj (snd e))) l')). { unfold l'. rewrite map_map. reflexivity. } rewrite Kj.
      split; intros H.
      + inversion H as [| | | | | |? m H1 H2]; subst. apply agrees_obj; auto. split.
        * intros k n Hi. apply Ki in Hi as (i & Hi). eauto.
        * intros k y Hy. destruct (H2 k y Hy) as (i & n & Hi). exists n. apply Ki. eauto.
      + destruct y as [| |s| | |m]; cbn [jval_of nj] in H; try (inversion H; fail); [apply Hnum in H as (f & _ & H); auto; discriminate|].
        apply agrees_obj in H as [H1 H2]; auto. constructor.
        * intros i k n Hi. apply H1. apply Ki. eauto.
        * intros k y Hy. destruct (H2 k y Hy) as (n & Hi). apply Ki in Hi as (i & Hi). eauto.
  Qed.

  (* ---- the names of a struct stay in their order, those of a text are sorted ---- *)
  Lemma pairs_order l m : good_node (NPairs l) -> good_node (NMap m) -> NoDup (json_names l) ->
    N.of_nat (ndepth (NPairs l)) <= 10000 -> N.of_nat (ndepth (NMap m)) <= 10000 ->
    jenc short false 0 (NPairs l) = jenc short false 0 (NMap m) -> in_order (json_names l).
  Proof.
    intros Gl Gm Hn Dl Dm E. apply maxdepth_le in Dl, Dm. pose proof (fun n : node => roundtrip short false n) as RT.
    set (fuel := S (fzs (map jname l) + fzs (ksort m))).
    cbn [good_node ndepth] in *. destruct Gm as [Nm Gm].
    apply (fold_and (fun e => valid_utf8 (snd (fst e)) = true) (fun e => good_node (snd e))) in Gl.
    apply (fold_and (fun e => valid_utf8 (fst e) = true) (fun e => good_node (snd e))) in Gm.
    destruct (group_obj short false 0 0 [] (map jname l)) with (fuel := fuel) as (vs & Hvs & He).
    { rewrite Forall_forall. auto. }
    { rewrite Forall_map. rewrite Forall_forall in *. intros e Hi. destruct (Gl e Hi) as [H1 H2]. repeat split; auto.
      pose proof (JsonProofs.max_le (fun e => ndepth (snd e)) l e Hi). cbn beta in *. cbn [jname fst snd]. lia. }
    { lia. } { unfold fuel. lia. }
    destruct (group_obj short false 0 0 [] (ksort m)) with (fuel := fuel) as (ws' & Hws & He').
    { rewrite Forall_forall. auto. }
    { rewrite <- (ksort_perm m). rewrite Forall_forall in *. intros e Hi. destruct (Gm e Hi) as [H1 H2]. repeat split; auto.
      pose proof (JsonProofs.max_le (fun e => ndepth (snd e)) m e Hi). cbn beta in *. lia. }
    { lia. } { unfold fuel. lia. }
    assert (E2 : group false 123 125 0 (map (member short false 0) (map jname l)) = group false 123 125 0 (map (member short false 0) (ksort m))).
    { cbn [jenc] in E. rewrite ksort_map, map_map in E. cbn [fst snd] in E. etransitivity; [|exact E]. rewrite map_map. reflexivity. }
    rewrite E2, He' in He. injection He as He.
    pose proof (forall2_keys (fun n v => reads_as n (fromNative v)) _ _ Hvs) as K1. pose proof (forall2_keys (fun n v => reads_as n (fromNative v)) _ _ Hws) as K2.
    assert (K3 : map fst (map jname l) = json_names l) by (unfold json_names; now rewrite map_map).
    assert (Nk : NoDup (map fst (ksort m))). { eapply Permutation_NoDup; [|exact Nm]. apply Permutation_map, ksort_perm. }
    rewrite !fold_mset_nodup in He by (cbn [app]; congruence). cbn [app] in He. subst ws'. rewrite <- K3, K1, <- K2. apply sorted_order. now apply ksort_sorted.
  Qed.
  Lemma pairs_text l v : good_node (NPairs l) -> good_node (fromNative v) -> NoDup (json_names l) ->
    N.of_nat (ndepth (NPairs l)) <= 10000 -> N.of_nat (ndepth (fromNative v)) <= 10000 ->
    jenc short false 0 (NPairs l) = jenc short false 0 (fromNative v) -> in_order (json_names l).
  Proof.
    intros Gl Gv Hn Dl Dv E. assert (K : exists m, fromNative v = NMap m).
    { destruct (encode_decode short false _ Gl Dl) as (j & m & H1 & H2 & H3). destruct (encode_decode short false _ Gv Dv) as (j' & m' & H1' & H2' & H3').
      unfold Encode in *. rewrite good_encodable in H1, H1' by auto. assert (Ej : j = j') by congruence. rewrite Ej, H2' in H2. injection H2 as H2. subst m'.
      inversion H3; subst. destruct v; inversion H3'; subst. cbn [fromNative]. eauto. }
    destruct K as (m & Em). rewrite Em in *. eapply pairs_order; eauto.
  Qed.
End Floats.
