From Coq Require Import Bool Ascii String Arith NArith ZArith Lia List Permutation.
From Verif Require Import Prelude PreludeFacts Utf8Model Utf8Facts QuoteModel QuoteFacts DecModel DecFacts DurModel DurProofs EncModel EncFacts KvModel KvSpec.
Import ListNotations.

Lemma beqb_ok : eqb_ok beqb.
Proof. intros x y. apply beqb_eq. Qed.
Lemma beqb_sym a b : beqb a b = beqb b a.
Proof.
  destruct (beqb a b) eqn:E; destruct (beqb b a) eqn:F; auto.
  - apply beqb_eq in E. subst. rewrite beqb_refl in F. auto.
  - apply beqb_eq in F. subst. rewrite beqb_refl in E. auto.
Qed.
Lemma beqb_neq a b : beqb a b = false <-> a <> b.
Proof.
  split; intros H.
  - intros ->. rewrite beqb_refl in H. discriminate.
  - destruct (beqb a b) eqn:E; auto. apply beqb_eq in E. contradiction.
Qed.

(* ---- C14 ---- *)
Lemma kvrun_nodup ops : NoDup (map fst (kvrun ops)).
Proof.
  unfold kvrun. assert (H : forall s, NoDup (map fst s) -> NoDup (map fst (fold_left kvstep ops s))).
  { induction ops as [|o ops IH]; intros s Hs; cbn; auto. apply IH. destruct o; cbn.
    - apply (mset_nodup beqb beqb_ok); auto.
    - apply (mdel_nodup beqb); auto. }
  apply H. constructor.
Qed.
Lemma kvrun_get ops k : kvGet (kvrun ops) k = last_write ops k.
Proof.
  induction ops as [|o ops IH] using rev_ind; [reflexivity|].
  unfold last_write. rewrite rev_app_distr. cbn [rev app find].
  pose proof (kvrun_nodup ops) as Hnd.
  unfold kvrun. rewrite fold_left_app. cbn [fold_left]. fold (kvrun ops).
  destruct o as [a v|a]; cbn [kvstep writes].
  - unfold kvGet, kvUpsert. destruct (beqb a k) eqn:E.
    + apply beqb_eq in E. subst. rewrite (mget_mset_eq beqb beqb_ok). auto.
    + apply beqb_neq in E. rewrite (mget_mset_ne beqb beqb_ok) by congruence. apply IH.
  - unfold kvGet, kvDelete. destruct (beqb a k) eqn:E.
    + apply beqb_eq in E. subst. rewrite (mget_mdel_eq beqb beqb_ok); auto.
    + apply beqb_neq in E. rewrite (mget_mdel_ne beqb beqb_ok) by congruence. apply IH.
Qed.

(* ---- C15 ---- *)
Lemma field_get v f :
  match v with
  | Some m => match mget beqb m f with Some n => n | None => NNil end
  | None => NNil
  end = field_of v f.
Proof.
  destruct v as [m|]; cbn; auto. induction m as [|[k n] m IH]; cbn; auto. destruct (beqb f k); cbn; auto.
Qed.

Section R.
  Context (isprint : N -> bool) (sh : nat -> node -> node) (Hsh : forall i n, reorder n (sh i n)).

  Lemma fCheck_accepts i f v : accepts isprint f v -> fCheck isprint sh i f v = Good true.
  Proof.
    intros (w & Hw & Hc). unfold fCheck. rewrite field_get, Hw. destruct Hc as [[Hc Ht]|[Hc Ht]]; rewrite Hc; cbn.
    - f_equal. apply beqb_eq. apply Ht; apply Hsh.
    - f_equal. apply negb_true_iff, beqb_neq. apply Ht; apply Hsh.
  Qed.
  Lemma fCheck_refuses i f v : refuses isprint f v -> fCheck isprint sh i f v = Good false.
  Proof.
    intros (w & Hw & Hc). unfold fCheck. rewrite field_get, Hw. destruct Hc as [[Hc Ht]|[Hc Ht]]; rewrite Hc; cbn.
    - f_equal. apply beqb_neq. apply Ht; apply Hsh.
    - f_equal. apply negb_false_iff, beqb_eq. apply Ht; apply Hsh.
  Qed.
  Lemma accepts_refuses f v : accepts isprint f v -> refuses isprint f v -> False.
  Proof.
    intros H1 H2. apply (fCheck_accepts 0) in H1. apply (fCheck_refuses 0) in H2. congruence.
  Qed.

  Lemma checks_all i v fs : Forall (fun f => accepts isprint f v) fs -> exists j, checks isprint sh i v fs = (Good true, j).
  Proof.
    intros H. revert i. induction H as [|f fs Hf Hfs IH]; intros i; cbn; eauto.
    rewrite (fCheck_accepts i f v Hf). apply IH.
  Qed.
  Lemma checks_not i v fs : Forall (fun f => accepts isprint f v \/ refuses isprint f v) fs ->
    ~ Forall (fun f => accepts isprint f v) fs -> exists j, checks isprint sh i v fs = (Good false, j).
  Proof.
    intros H. revert i. induction H as [|f fs Hf Hfs IH]; intros i Hn.
    - exfalso. apply Hn. constructor.
    - cbn. destruct Hf as [Hf|Hf].
      + rewrite (fCheck_accepts i f v Hf). apply IH. intros Ha. apply Hn. constructor; auto.
      + rewrite (fCheck_refuses i f v Hf). eauto.
  Qed.
  Lemma all_or_not v fs : Forall (fun f => accepts isprint f v \/ refuses isprint f v) fs ->
    Forall (fun f => accepts isprint f v) fs \/ ~ Forall (fun f => accepts isprint f v) fs.
  Proof.
    induction 1 as [|f fs [Hf|Hf] Hfs IH].
    - left. constructor.
    - destruct IH as [IH|IH]; [left; constructor; auto|right; intros H; inversion H; auto].
    - right. intros H. inversion H; subst. eapply accepts_refuses; eauto.
  Qed.

  Lemma snapshot_good fs : forall data i,
    (forall k v, In (k, v) data -> Forall (fun f => accepts isprint f v \/ refuses isprint f v) fs) ->
    NoDup (map fst data) ->
    exists l, snapshot isprint sh i data fs = Good l /\ NoDup (map fst l) /\
      forall e, In e l <-> In e data /\ Forall (fun f => accepts isprint f (snd e)) fs.
  Proof.
    induction data as [|[k v] data IH]; intros i Hd Hnd.
    - exists []. cbn. repeat split; try constructor; tauto.
    - cbn [snapshot]. cbn in Hnd. inversion Hnd as [|? ? Hni Hnd']; subst.
      assert (Hv : Forall (fun f => accepts isprint f v \/ refuses isprint f v) fs) by (eapply Hd; left; reflexivity).
      destruct (all_or_not v fs Hv) as [Ha|Ha].
      + destruct (checks_all i v fs Ha) as (j & ->).
        destruct (IH j) as (l & -> & Hl1 & Hl2); auto. { intros k' v' H. apply (Hd k'). now right. }
        exists ((k, v) :: l). split; auto. split.
        * cbn. constructor; auto. intros Hin. apply in_map_iff in Hin as (e & He & Hin). apply Hl2 in Hin as [Hin _].
          apply Hni. apply in_map_iff. exists e. auto.
        * intros e. split.
          -- intros [He|He]; [subst; cbn; auto|]. apply Hl2 in He as [He1 He2]. cbn. auto.
          -- intros [[He|He] Hf]; [left; auto|right; apply Hl2; auto].
      + destruct (checks_not i v fs Hv Ha) as (j & ->).
        destruct (IH j) as (l & -> & Hl1 & Hl2); auto. { intros k' v' H. apply (Hd k'). now right. }
        exists l. split; auto. split; auto.
        intros e. split.
        * intros He. apply Hl2 in He as [He1 He2]. cbn. auto.
        * intros [[He|He] Hf]; [subst; cbn in Hf; contradiction|apply Hl2; auto].
  Qed.

  Section V.
    Context {St E : Type} (cb : St -> bytes -> kval -> St * cbres E).

    Lemma visit_spec l : forall s s' tr res, visit cb s l = (s', tr, res) -> calls cb s tr s' /\ visits l tr res.
    Proof.
      induction l as [|[k v] l IH]; intros s s' tr res H; cbn in H.
      - inversion H; subst. split; [constructor|]. left. cbn. auto.
      - destruct (cb s k v) as [s1 r] eqn:Ecb. destruct r.
        + destruct (visit cb s1 l) as [[s2 tr2] res2] eqn:Ev. inversion H; subst.
          apply IH in Ev as [Hc Hv]. split; [econstructor; eauto|].
          destruct Hv as [(H1 & H2 & H3)|(pre & k' & v' & r' & post & H1 & H2 & H3 & H4)].
          * left. cbn. subst. repeat split; auto.
          * right. exists ((k, v, CNil) :: pre), k', v', r', post. subst. cbn. repeat split; auto.
        + inversion H; subst. split; [econstructor; [eassumption|constructor]|].
          right. exists [], k, v, CEod, l. cbn. repeat split; auto.
        + inversion H; subst. split; [econstructor; [eassumption|constructor]|].
          right. exists [], k, v, (CErr e), l. cbn. repeat split; auto. right; eauto.
    Qed.

    Lemma range_spec store order fs s s' tr res :
      NoDup (map fst store) -> Permutation store order ->
      (forall k v, In (k, v) store -> Forall (fun f => accepts isprint f v \/ refuses isprint f v) fs) ->
      kvRange isprint sh cb s order fs = (s', tr, res) ->
      exists l, NoDup (map fst l) /\
        (forall e, In e l <-> In e store /\ Forall (fun f => accepts isprint f (snd e)) fs) /\
        calls cb s tr s' /\ visits l tr res.
    Proof.
      intros Hnd Hp Hdef H. unfold kvRange in H.
      destruct (snapshot_good fs order 0) as (l & Hs & Hl1 & Hl2).
      - intros k v Hin. apply (Hdef k). eapply Permutation_in; [symmetry; eauto|auto].
      - eapply Permutation_NoDup; [apply Permutation_map; eauto|auto].
      - rewrite Hs in H. apply visit_spec in H as [H1 H2]. exists l. split; auto. split; auto.
        intros e. rewrite Hl2. split; intros [Ha Hb]; split; auto.
        + eapply Permutation_in; [symmetry; eauto|auto].
        + eapply Permutation_in; [eauto|auto].
    Qed.

    (* an unsupported comparison *)
    Lemma checks_unsupported i v pre f post : supported f = false ->
      Forall (fun f => accepts isprint f v \/ refuses isprint f v) pre ->
      (Forall (fun f => accepts isprint f v) pre -> exists j, checks isprint sh i v (pre ++ f :: post) = (Fail tt, j)) /\
      (~ Forall (fun f => accepts isprint f v) pre -> exists j, checks isprint sh i v (pre ++ f :: post) = (Good false, j)).
    Proof.
      intros Hs H. revert i. induction H as [|g pre Hg Hpre IH]; intros i; cbn [app checks].
      - split; intros Ha.
        + unfold fCheck. unfold supported in Hs. rewrite Hs. eauto.
        + exfalso. apply Ha. constructor.
      - destruct Hg as [Hg|Hg].
        + rewrite (fCheck_accepts i g v Hg). destruct (IH (S (S i))) as [IH1 IH2]. split; intros Ha.
          * inversion Ha; auto.
          * apply IH2. intros Hb. apply Ha. constructor; auto.
        + rewrite (fCheck_refuses i g v Hg). split; intros Ha; eauto.
          inversion Ha; subst. exfalso. eapply accepts_refuses; eauto.
    Qed.

    Lemma snapshot_unsupported pre f post : supported f = false -> forall data i,
      (forall k v, In (k, v) data -> Forall (fun f => accepts isprint f v \/ refuses isprint f v) pre) ->
      (snapshot isprint sh i data (pre ++ f :: post) = Good [] /\
        forall e, In e data -> ~ Forall (fun f => accepts isprint f (snd e)) pre) \/
      (snapshot isprint sh i data (pre ++ f :: post) = Fail tt /\
        exists e, In e data /\ Forall (fun f => accepts isprint f (snd e)) pre).
    Proof.
      intros Hs. induction data as [|[k v] data IH]; intros i Hd; cbn [snapshot].
      - left. cbn. auto.
      - assert (Hv : Forall (fun f => accepts isprint f v \/ refuses isprint f v) pre) by (eapply Hd; left; reflexivity).
        destruct (checks_unsupported i v pre f post Hs Hv) as [H1 H2].
        destruct (all_or_not v pre Hv) as [Ha|Ha].
        + destruct (H1 Ha) as (j & ->). right. split; auto. exists (k, v). cbn. auto.
        + destruct (H2 Ha) as (j & ->). destruct (IH j) as [[-> H]|[-> (e & He1 & He2)]].
          * intros k' v' Hin. apply (Hd k'). now right.
          * left. split; auto. intros e [He|He]; [subst; cbn; auto|auto].
          * right. split; auto. exists e. cbn. auto.
    Qed.

    Lemma range_unsupported store order pre f post s s' tr res :
      Permutation store order -> supported f = false ->
      (forall k v, In (k, v) store -> Forall (fun f => accepts isprint f v \/ refuses isprint f v) pre) ->
      kvRange isprint sh cb s order (pre ++ f :: post) = (s', tr, res) ->
      tr = [] /\ s' = s /\ (res = RNil \/ res = RUnsupported) /\
      (res = RUnsupported <-> exists e, In e store /\ Forall (fun f => accepts isprint f (snd e)) pre).
    Proof.
      intros Hp Hs Hd H. unfold kvRange in H.
      destruct (snapshot_unsupported pre f post Hs order 0) as [[H1 H2]|[H1 (e & He1 & He2)]].
      - intros k v Hin. apply (Hd k). eapply Permutation_in; [symmetry; eauto|auto].
      - rewrite H1 in H. cbn in H. inversion H; subst. repeat split; auto; try discriminate.
        intros (e & He1 & He2). exfalso. apply (H2 e); auto. eapply Permutation_in; eauto.
      - rewrite H1 in H. inversion H; subst. repeat split; auto.
        intros _. exists e. split; auto. eapply Permutation_in; [symmetry; eauto|auto].
    Qed.
  End V.

  (* ---- C16 ---- *)
  Lemma reorder_scalar n m : scalar n -> reorder n m -> m = n.
  Proof. intros Hs H. inversion H; subst; auto; cbn in Hs; contradiction. Qed.

  Lemma brace_inj a b : a ++ B "}" = b ++ B "}" -> a = b.
  Proof. intros H. apply app_inj_tail in H. tauto. Qed.

  Lemma gostring_inj n w : go_node n -> scalar w -> gostring isprint n = gostring isprint w <-> same_value n w.
  Proof.
    intros Hn Hw. split.
    - intros H. destruct n as [|[]|z|f|d|s|t|d|l|l|l]; destruct w as [|[]|z'|f'|d'|s'|t'|d'|l'|l'|l'];
        cbn in Hw; try contradiction; cbn [gostring] in H; try (cbn in H; discriminate H); cbn [same_value]; auto;
        apply app_inv_head in H.
      + apply (brace_inj (decz z) (decz z')) in H. apply decz_inj in H. congruence.
      + apply (brace_inj (f_go f) (f_go f')) in H. auto.
      + apply (brace_inj (quote isprint d) (quote isprint d')) in H. apply quote_inj in H. congruence.
      + apply (brace_inj (quote isprint s) (quote isprint s')) in H. apply quote_inj in H. congruence.
      + apply (brace_inj (t_go t) (t_go t')) in H. auto.
      + apply (brace_inj (dur_string d) (dur_string d')) in H. apply dur_string_inj in H; auto. congruence.
    - intros H. destruct n; destruct w; cbn in H; try discriminate H; try (inversion H; subst; reflexivity);
        cbn [gostring]; rewrite H; reflexivity.
  Qed.
End R.

Lemma same_value_reorder n n' w : scalar w -> reorder n n' -> (same_value n' w <-> same_value n w).
Proof.
  intros Hw H. inversion H; subst; try tauto; destruct w; cbn in *; try contradiction; split; discriminate.
Qed.
Lemma go_node_reorder n n' : go_node n -> reorder n n' -> go_node n'.
Proof. intros Hg H. inversion H; subst; cbn; auto. Qed.

Lemma scalar_texts isprint n w : go_node n -> scalar w ->
  (same_value n w -> texts_equal isprint n w) /\ (~ same_value n w -> texts_differ isprint n w).
Proof.
  intros Hg Hw. split; intros H n' w' Hn Hw'; apply reorder_scalar in Hw'; auto; subst w'.
  - apply gostring_inj; auto. { eapply go_node_reorder; eauto. } apply (same_value_reorder n n' w); auto.
  - intros He. apply gostring_inj in He; auto; [|eapply go_node_reorder; eauto].
    apply H. apply (same_value_reorder n n' w); auto.
Qed.

Lemma check_scalar isprint sh i f v w : (forall i n, reorder n (sh i n)) ->
  fval f = Some w -> scalar w -> go_node (field_of v (ffield f)) ->
  exists b, (b = true <-> same_value (field_of v (ffield f)) w) /\
    (fcmp f = B "EQ" -> fCheck isprint sh i f v = Good b) /\
    (fcmp f = B "NEQ" -> fCheck isprint sh i f v = Good (negb b)).
Proof.
  intros Hsh Hf Hw Hg.
  exists (beqb (gostring isprint (field_of v (ffield f))) (gostring isprint w)).
  assert (Hb : beqb (gostring isprint (field_of v (ffield f))) (gostring isprint w) =
               beqb (gostring isprint (sh i (field_of v (ffield f)))) (gostring isprint (sh (S i) w))).
  { assert (H1 : sh (S i) w = w) by (apply reorder_scalar; auto). rewrite H1.
    destruct (beqb _ _) eqn:E; symmetry.
    - apply beqb_eq in E. apply gostring_inj in E; auto. apply beqb_eq.
      apply (proj1 (scalar_texts isprint _ _ Hg Hw) E); auto. constructor.
    - apply beqb_neq in E. apply beqb_neq.
      apply (proj2 (scalar_texts isprint _ _ Hg Hw)); auto; [|constructor].
      intros Hs. apply E. now apply gostring_inj. }
  split; [|split].
  - rewrite beqb_eq. now apply gostring_inj.
  - intros Hc. unfold fCheck. rewrite Hc, field_get, Hf. cbn. f_equal. now rewrite Hb.
  - intros Hc. unfold fCheck. rewrite Hc, field_get, Hf. cbn. f_equal. now rewrite Hb.
Qed.

Lemma Forall2_same {A} (R : A -> A -> Prop) l l' : Forall2 R l l' -> (forall x y, In x l -> R x y -> y = x) -> l' = l.
Proof.
  induction 1 as [|x y l l' Hr Hf IH]; intros H; auto. f_equal.
  - apply H; cbn; auto.
  - apply IH. intros. apply H; cbn; auto.
Qed.

Lemma one_listing_reorder n : one_listing n -> forall m, reorder n m -> m = n.
Proof.
  induction n as [| | | | | | | |l IH|l IH|l IH] using node_ind2; intros Ho m H;
    try (inversion H; subst; reflexivity).
  - inversion H as [|? l' Hf| |]; subst; auto. f_equal. eapply Forall2_same; eauto.
    intros x y Hin Hr. cbn in Ho. clear Hf H. induction IH as [|a l Ha Hl IHl]; [contradiction|].
    cbn in Ho. destruct Ho as [Ho1 Ho2]. destruct Hin as [->|Hin]; auto.
  - inversion H as [| |? mm l' Hp Hf|]; subst; auto. f_equal. cbn in Ho. destruct Ho as [Hlen Ho].
    assert (mm = l). { destruct l as [|e [|]]; cbn in Hlen; try lia.
      - apply Permutation_nil in Hp. auto.
      - apply Permutation_length_1_inv in Hp. auto. }
    subst mm. eapply Forall2_same; eauto. cbn.
    intros [k x] [k' y] Hin [Hr1 Hr2]. cbn in *. subst k'. f_equal. clear Hf H Hp Hlen.
    induction IH as [|a l Ha Hl IHl]; [contradiction|].
    cbn in Ho. destruct Ho as [Ho1 Ho2]. destruct Hin as [->|Hin]; cbn in *; auto.
  - inversion H as [| | |? l' Hf]; subst; auto. f_equal. cbn in Ho. eapply Forall2_same; eauto. cbn.
    intros [k x] [k' y] Hin [Hr1 Hr2]. cbn in *. subst k'. f_equal. clear Hf H.
    induction IH as [|a l Ha Hl IHl]; [contradiction|].
    cbn in Ho. destruct Ho as [Ho1 Ho2]. destruct Hin as [->|Hin]; cbn in *; auto.
Qed.
Lemma one_listing_equal isprint n : one_listing n -> texts_equal isprint n n.
Proof.
  intros H n' w' H1 H2. apply one_listing_reorder in H1; auto. apply one_listing_reorder in H2; auto. congruence.
Qed.

(* ---- C60 ---- *)
Lemma AsMap_last l k : mget beqb (AsMap l) k =
  match find (fun p => beqb (snd (fst p)) k) (rev l) with Some p => Some (snd p) | None => None end.
Proof.
  induction l as [|p l IH] using rev_ind; [reflexivity|].
  unfold AsMap. rewrite fold_left_app, rev_app_distr. cbn [fold_left rev app find]. fold (AsMap l).
  destruct (beqb (snd (fst p)) k) eqn:E.
  - apply beqb_eq in E. rewrite E. rewrite (mget_mset_eq beqb beqb_ok). auto.
  - apply beqb_neq in E. rewrite (mget_mset_ne beqb beqb_ok) by auto. apply IH.
Qed.
Lemma Find_first l k : Find l k =
  match find (fun p => beqb (snd (fst p)) k) l with Some p => Some (snd p) | None => None end.
Proof. induction l as [|p l IH]; cbn; auto. destruct (beqb _ _); auto. Qed.

Lemma find_rev {A} (f : A -> bool) l : (forall x y, In x l -> In y l -> f x = true -> f y = true -> x = y) ->
  find f (rev l) = find f l.
Proof.
  intros H. destruct (find f l) as [x|] eqn:E.
  - apply find_some in E as [Hx1 Hx2]. destruct (find f (rev l)) as [y|] eqn:E2.
    + apply find_some in E2 as [Hy1 Hy2]. f_equal. apply H; auto. now apply in_rev.
    + eapply find_none in E2; [|apply -> in_rev; eauto]. congruence.
  - destruct (find f (rev l)) as [y|] eqn:E2; auto.
    apply find_some in E2 as [Hy1 Hy2]. apply in_rev in Hy1. eapply find_none in E; eauto. congruence.
Qed.
Lemma Find_AsMap l k : NoDup (map (fun p => snd (fst p)) l) -> mget beqb (AsMap l) k = Find l k.
Proof.
  intros Hnd. rewrite AsMap_last, Find_first, find_rev; auto.
  intros x y Hx Hy H1 H2. apply beqb_eq in H1, H2.
  clear -Hnd Hx Hy H1 H2. induction l as [|a l IH]; [contradiction|]. cbn in *. inversion Hnd as [|? ? Hni Hnd']; subst.
  destruct Hx as [->|Hx]; destruct Hy as [->|Hy]; auto.
  - exfalso. apply Hni. apply in_map_iff. exists y. split; auto; congruence.
  - exfalso. apply Hni. apply in_map_iff. exists x. split; auto; congruence.
Qed.

Lemma scalar_definite isprint f v w : fval f = Some w -> scalar w -> go_node (field_of v (ffield f)) ->
  supported f = true -> accepts isprint f v \/ refuses isprint f v.
Proof.
  intros Hf Hw Hg Hs. unfold supported in Hs. apply orb_true_iff in Hs. rewrite !beqb_eq in Hs.
  destruct (scalar_texts isprint _ _ Hg Hw) as [H1 H2].
  assert (Hd : same_value (field_of v (ffield f)) w \/ ~ same_value (field_of v (ffield f)) w).
  { destruct (beqb (gostring isprint (field_of v (ffield f))) (gostring isprint w)) eqn:E.
    - left. apply beqb_eq in E. now apply gostring_inj in E.
    - right. intros H. apply beqb_neq in E. apply E. now apply gostring_inj. }
  unfold accepts, refuses. destruct Hd as [Hd|Hd]; destruct Hs as [Hs|Hs]; eauto 10.
Qed.

Lemma check_equal isprint sh i f v w : (forall i n, reorder n (sh i n)) ->
  fval f = Some w -> field_of v (ffield f) = w -> one_listing w -> fcmp f = B "EQ" ->
  fCheck isprint sh i f v = Good true.
Proof.
  intros Hsh Hf Hv Ho Hc. apply fCheck_accepts; auto. exists w. split; auto. left. split; auto.
  rewrite Hv. now apply one_listing_equal.
Qed.

Lemma eq_refuted : let p := fun n => (n <? 127)%N && (31 <? n)%N in
  (exists f v w, fval f = Some w /\ fcmp f = B "EQ" /\ ~ same_value (field_of v (ffield f)) w /\
     forall sh, (forall i n, reorder n (sh i n)) -> fCheck p sh 0 f v = Good true) /\
  (exists f v w sh, fval f = Some w /\ fcmp f = B "EQ" /\ field_of v (ffield f) = w /\
     (forall i n, reorder n (sh i n)) /\ fCheck p sh 0 f v = Good false).
Proof.
  intros p. split.
  - exists (Filt (B "x") (B "EQ") (Some (NList [NInt 1]))), (Some [(B "x", NList [NDigits (B "1")])]), (NList [NInt 1]).
    repeat split; try (cbn; discriminate).
    intros sh Hsh. apply fCheck_accepts; auto. exists (NList [NInt 1]). split; auto. left. split; auto.
    intros n' w' Hn Hw. apply one_listing_reorder in Hn, Hw; try (cbn; auto; fail). subst. vm_compute. reflexivity.
  - set (m := NMap [(B "a", NNil); (B "b", NNil)]). set (m' := NMap [(B "b", NNil); (B "a", NNil)]).
    exists (Filt (B "x") (B "EQ") (Some m)), (Some [(B "x", m)]), m,
      (fun i n => match i, n with
                  | 1, NMap [a; b] => NMap [b; a]
                  | _, _ => n
                  end).
    repeat split.
    + intros [|[|i]] n; try constructor. destruct n; try constructor.
      destruct l as [|a [|b [|]]]; try constructor. apply ro_map with [b; a]; [apply perm_swap|].
      repeat constructor.
Qed.
