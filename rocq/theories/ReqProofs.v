From Coq Require Import Bool Arith ZArith Lia List Permutation.
From Verif Require Import Prelude PreludeFacts LruModel LruProofs ReqModel ReqSpec.
Import ListNotations.

Section P.
  Context {K V E : Type} (eqb : K -> K -> bool) (Heq : eqb_ok eqb) (zero : V).
  Context (dec : forall x y : K, {x = y} + {x <> y}).
  Notation event := (event K V E).
  Notation st := (st K V E).
  Notation label := (label K V E).

  Implicit Types (s : st) (pre post : list event).
  Definition ev_entry (ev : event) : option nat :=
    match ev with
    | EStart _ _ e _ | EHit _ _ e _ _ _ | EFetch _ _ e _ | EFetched _ _ e _ _ _ _ => Some e
    | EInval _ => None
    end.
  Definition ev_req (ev : event) : option nat :=
    match ev with
    | EStart r _ _ _ | EHit r _ _ _ _ _ | EFetch r _ _ _ | EFetched r _ _ _ _ _ _ => Some r
    | EInval _ => None
    end.
  Definition mentioned (e : nat) (l : list event) : Prop := exists ev, In ev l /\ ev_entry ev = Some e.

  (* what must hold of an event, given the older ones *)
  Definition local (ev : event) (pre : list event) : Prop :=
    match ev with
    | EStart r k e miss =>
        if miss then ~ mentioned e pre else exists r', In (EStart r' k e true) pre
    | EHit r k e v err now =>
        In (EStart r k e false) pre /\ exists exp, last_result e pre = Some (k, v, err, exp) /\ (now <= exp)%Z
    | EFetch r k e now =>
        (forall r' k' now', In (EFetch r' k' e now') pre -> exists v ttl err n, In (EFetched r' k' e v ttl err n) pre) /\
        (forall k' e' now', ~ In (EFetch r k' e' now') pre) /\
        (In (EStart r k e true) pre \/
         In (EStart r k e false) pre /\
         match last_result e pre with Some (_, _, _, exp) => (exp < now)%Z | None => True end)
    | EFetched r k e v ttl err now => exists n, In (EFetch r k e n) pre
    | EInval _ => True
    end.

  Fixpoint good (l : list event) : Prop :=
    match l with [] => True | ev :: pre => local ev pre /\ good pre end.

  Lemma good_split post ev pre : good (post ++ ev :: pre) -> local ev pre.
  Proof. induction post as [|x post IH]; cbn; [tauto|]. intros [_ H]. auto. Qed.
  Lemma good_in l ev : good l -> In ev l -> exists post pre, l = post ++ ev :: pre /\ local ev pre.
  Proof.
    intros Hg Hin. apply in_split in Hin as (post & pre & ->). exists post, pre. split; auto.
    eapply good_split; eauto.
  Qed.

  (* every entry has one creator *)
  Lemma creator_unique l r k e r' k' : good l ->
    In (EStart r k e true) l -> In (EStart r' k' e true) l -> r = r' /\ k = k'.
  Proof.
    induction l as [|ev l IH]; cbn; [tauto|]. intros [Hl Hg] H1 H2.
    destruct H1 as [->|H1], H2 as [H2|H2].
    - inversion H2; auto.
    - exfalso. cbn in Hl. apply Hl. exists (EStart r' k' e true). auto.
    - subst ev. exfalso. cbn in Hl. apply Hl. exists (EStart r k e true). auto.
    - auto.
  Qed.

  Lemma start_creator l r k e m : good l -> In (EStart r k e m) l -> exists r', In (EStart r' k e true) l.
  Proof.
    intros Hg Hin. destruct m; [eauto|]. destruct (good_in _ _ Hg Hin) as (post & pre & -> & r' & Hr').
    exists r'. apply in_or_app. right. right. auto.
  Qed.

  Lemma one_key l r k e m r' k' m' : good l -> In (EStart r k e m) l -> In (EStart r' k' e m') l -> k = k'.
  Proof.
    intros Hg H1 H2. destruct (start_creator _ _ _ _ _ Hg H1) as (a & Ha).
    destruct (start_creator _ _ _ _ _ Hg H2) as (b & Hb).
    destruct (creator_unique _ _ _ _ _ _ Hg Ha Hb). auto.
  Qed.

  Lemma fetch_started l r k e n : good l -> In (EFetch r k e n) l -> exists m, In (EStart r k e m) l.
  Proof.
    intros Hg Hin. destruct (good_in _ _ Hg Hin) as (post & pre & -> & _ & _ & H).
    destruct H as [H|[H _]]; eexists; apply in_or_app; right; right; eauto.
  Qed.
  Lemma fetched_fetch l r k e v ttl err n : good l -> In (EFetched r k e v ttl err n) l -> exists n', In (EFetch r k e n') l.
  Proof.
    intros Hg Hin. destruct (good_in _ _ Hg Hin) as (post & pre & -> & n' & H).
    exists n'. apply in_or_app. right. right. auto.
  Qed.

  Lemma last_result_in e (l : list event) k v err exp : last_result e l = Some (k, v, err, exp) ->
    exists r ttl now, In (EFetched r k e v ttl err now) l /\ (0 < ttl)%Z /\ exp = (now + ttl)%Z.
  Proof.
    induction l as [|ev l IH]; cbn; [discriminate|]. intros H.
    assert (Hrec : last_result e l = Some (k, v, err, exp) ->
       exists r ttl now, In (EFetched r k e v ttl err now) (ev :: l) /\ (0 < ttl)%Z /\ exp = (now + ttl)%Z).
    { intros H'. destruct (IH H') as (r & ttl & now & Hin & ?). exists r, ttl, now. cbn. auto. }
    destruct ev as [| | |r0 k0 e0 v0 ttl0 err0 now0|]; auto.
    destruct (e =? e0) eqn:He; auto. destruct (0 <? ttl0)%Z eqn:Ht; [|discriminate].
    apply Nat.eqb_eq in He. apply Z.ltb_lt in Ht. inversion H; subst. exists r0, ttl0, now0. auto.
  Qed.

  Definition holds (p : pc K) (e : nat) : Prop :=
    match p with PHold _ e' _ | PFetch _ e' => e' = e | _ => False end.

  Record RInv (max : Z) (s : st) : Prop := {
    I_lru : Inv (cache s) /\ MaxSize (cache s) = max;
    I_res : forall x, In x (hlist (lheap (cache s))) -> exists r, In (EStart r (key x) (val x) true) (log s);
    I_fresh : forall e, mentioned e (log s) -> e < fresh s;
    I_new : forall r ev, pcs s r = PNew -> In ev (log s) -> ev_req ev <> Some r;
    I_pc : forall r, match pcs s r with
           | PNew | PDone => True
           | PGot k e m | PHold k e m => In (EStart r k e m) (log s) /\ forall k' e' n, ~ In (EFetch r k' e' n) (log s)
           | PFetch k e => exists n, In (EFetch r k e n) (log s)
           end;
    I_own : forall e r, owner s e = Some r <-> holds (pcs s r) e;
    I_ent : forall e, match last_result e (log s) with
            | Some (k, v, err, exp) => ents s e = CEntry v exp err
            | None => cexpire (ents s e) = 0%Z
            end;
    I_fetch : forall r k e n, In (EFetch r k e n) (log s) ->
              pcs s r = PFetch k e \/ exists v ttl err n', In (EFetched r k e v ttl err n') (log s);
    I_good : good (log s);
    I_bar : forall post k pre, log s = post ++ EInval k :: pre ->
            (forall r e m, In (EStart r k e m) post -> ~ mentioned e pre) /\
            (forall x, In x (hlist (lheap (cache s))) -> key x = k -> ~ mentioned (val x) pre)
  }.

  Lemma mentioned_cons e ev l : mentioned e (ev :: l) <-> ev_entry ev = Some e \/ mentioned e l.
  Proof.
    unfold mentioned. cbn. split.
    - intros (x & [->|H] & He); eauto.
    - intros [H|(x & H & He)]; eauto.
  Qed.

  Lemma fset_eq {A} (f : nat -> A) i x : fset f i x i = x.
  Proof. unfold fset. now rewrite Nat.eqb_refl. Qed.
  Lemma fset_ne {A} (f : nat -> A) i x j : j <> i -> fset f i x j = f j.
  Proof. unfold fset. intros H. apply Nat.eqb_neq in H. now rewrite H. Qed.

  Lemma init_inv max : RInv max (NewRequestLRU zero max).
  Proof.
    constructor; cbn; auto; try tauto; try discriminate.
    - split; [apply new_inv|auto].
    - intros e (ev & [] & _).
    - intros e r. split; [discriminate|tauto].
    - intros post k pre H. destruct post; discriminate.
  Qed.

  Lemma split_cons (ev : event) l post k pre : ev :: l = post ++ EInval k :: pre ->
    (post = [] /\ ev = EInval k /\ l = pre) \/ (exists post', post = ev :: post' /\ l = post' ++ EInval k :: pre).
  Proof.
    destruct post as [|x post]; cbn; intros H; inversion H; subst; [auto|]. right. eauto.
  Qed.

  Lemma inv_start max s r k now : (0 <= max)%Z -> (0 < now)%Z -> RInv max s ->
    exists s', rstep eqb s (LStart r k now) = Ok s' /\ RInv max s'.
  Proof.
    intros Hmax Hnow HI. cbn [rstep]. destruct (pcs s r) eqn:Hpc; try (exists s; auto; fail).
    destruct (I_lru _ _ HI) as [HL HM].
    destruct (key_in_dec dec (cache s) k) as [(x & Hin & Hk)|Hni].
    - subst k. destruct (get_hit eqb Heq (cache s) x now (Loaded (fresh s) 1 None : loaded nat Empty_set) HL Hin)
        as (c' & Hg & HL' & Hm & _ & Hp).
      rewrite Hg. cbn [rbind rhit rval]. eexists. split; [reflexivity|].
      destruct (I_res _ _ HI x Hin) as (r0 & Hr0).
      assert (Hlog : forall ev, In ev (log s) -> In ev (EStart r (key x) (val x) false :: log s)) by (cbn; auto).
      constructor; cbn [cache fresh ents owner pcs log].
      + split; auto. congruence.
      + intros y Hy. apply Permutation_sym in Hp. apply (Permutation_in _ Hp) in Hy.
        destruct (I_res _ _ HI y Hy) as (r1 & H1). eauto.
      + intros e He. apply mentioned_cons in He as [He|He]; [|eapply I_fresh; eauto].
        inversion He; subst. apply (I_fresh _ _ HI). exists (EStart r0 (key x) (val x) true). auto.
      + intros r1 ev Hr1 Hev. destruct (Nat.eq_dec r1 r) as [->|Hne]; [rewrite fset_eq in Hr1; discriminate|].
        rewrite fset_ne in Hr1 by auto. destruct Hev as [<-|Hev]; [cbn; congruence|]. eapply I_new; eauto.
      + intros r1. destruct (Nat.eq_dec r1 r) as [->|Hne].
        * rewrite fset_eq. split; [cbn; auto|]. intros k' e' n [H|H]; [discriminate|].
          eapply (I_new _ _ HI r); eauto.
        * rewrite fset_ne by auto. pose proof (I_pc _ _ HI r1) as H. destruct (pcs s r1); auto.
          -- destruct H as [H1 H2]. split; auto. intros k' e' n [H|H]; [discriminate|]. eapply H2; eauto.
          -- destruct H as [H1 H2]. split; auto. intros k' e' n [H|H]; [discriminate|]. eapply H2; eauto.
          -- destruct H as [n H]. eauto.
      + intros e r1. destruct (Nat.eq_dec r1 r) as [->|Hne].
        * rewrite fset_eq. cbn. rewrite (I_own _ _ HI e r), Hpc. reflexivity.
        * rewrite fset_ne by auto. apply (I_own _ _ HI).
      + intros e. cbn [last_result]. apply (I_ent _ _ HI).
      + intros r1 k1 e1 n [H|H]; [discriminate|]. destruct (Nat.eq_dec r1 r) as [->|Hne].
        * exfalso. eapply (I_new _ _ HI r); eauto.
        * rewrite fset_ne by auto. destruct (I_fetch _ _ HI _ _ _ _ H) as [?|(v & ttl & err & n' & H')]; auto.
          right. exists v, ttl, err, n'. auto.
      + cbn [good local]. split; [eauto|]. apply (I_good _ _ HI).
      + intros post k pre Hs. apply split_cons in Hs as [(_ & H & _)|(post' & -> & Hl)]; [discriminate|].
        destruct (I_bar _ _ HI _ _ _ Hl) as [Ha Hb]. split.
        * intros r1 e m [H|H]; [inversion H; subst|]; eauto.
        * intros y Hy. apply Permutation_sym in Hp. apply (Permutation_in _ Hp) in Hy. auto.
    - destruct (get_miss eqb Heq (cache s) k now (Loaded (fresh s) 1 None : loaded nat Empty_set) HL ltac:(lia) Hnow Hni
                  eq_refl ltac:(cbn; lia)) as (c' & ev0 & Hg & HL' & Hm & _ & Hp & _).
      rewrite Hg. cbn [rbind rhit rval lval]. eexists. split; [reflexivity|].
      assert (Hlog : forall ev, In ev (log s) -> In ev (EStart r k (fresh s) true :: log s)) by (cbn; auto).
      assert (Hnm : ~ mentioned (fresh s) (log s)).
      { intros H. apply (I_fresh _ _ HI) in H. lia. }
      assert (Hres : forall y, In y (hlist (lheap c')) ->
                (key y = k /\ val y = fresh s) \/ In y (hlist (lheap (cache s)))).
      { intros y Hy. assert (Hy' : In y (ev0 ++ hlist (lheap c'))) by (apply in_or_app; auto).
        apply Permutation_sym in Hp. apply (Permutation_in _ Hp) in Hy'. destruct Hy' as [<-|Hy']; auto. }
      constructor; cbn [cache fresh ents owner pcs log].
      + split; auto. congruence.
      + intros y Hy. destruct (Hres y Hy) as [[-> ->]|Hy'].
        * exists r. cbn; auto.
        * destruct (I_res _ _ HI y Hy') as (r1 & H1). eauto.
      + intros e He. apply mentioned_cons in He as [He|He].
        * inversion He; subst. lia.
        * apply (I_fresh _ _ HI) in He. lia.
      + intros r1 ev Hr1 Hev. destruct (Nat.eq_dec r1 r) as [->|Hne]; [rewrite fset_eq in Hr1; discriminate|].
        rewrite fset_ne in Hr1 by auto. destruct Hev as [<-|Hev]; [cbn; congruence|]. eapply I_new; eauto.
      + intros r1. destruct (Nat.eq_dec r1 r) as [->|Hne].
        * rewrite fset_eq. split; [cbn; auto|]. intros k' e' n [H|H]; [discriminate|].
          eapply (I_new _ _ HI r); eauto.
        * rewrite fset_ne by auto. pose proof (I_pc _ _ HI r1) as H. destruct (pcs s r1); auto.
          -- destruct H as [H1 H2]. split; auto. intros k' e' n [H|H]; [discriminate|]. eapply H2; eauto.
          -- destruct H as [H1 H2]. split; auto. intros k' e' n [H|H]; [discriminate|]. eapply H2; eauto.
          -- destruct H as [n H]. eauto.
      + intros e r1. destruct (Nat.eq_dec r1 r) as [->|Hne].
        * rewrite fset_eq. cbn. rewrite (I_own _ _ HI e r), Hpc. reflexivity.
        * rewrite fset_ne by auto. apply (I_own _ _ HI).
      + intros e. cbn [last_result]. apply (I_ent _ _ HI).
      + intros r1 k1 e1 n [H|H]; [discriminate|]. destruct (Nat.eq_dec r1 r) as [->|Hne].
        * exfalso. eapply (I_new _ _ HI r); eauto.
        * rewrite fset_ne by auto. destruct (I_fetch _ _ HI _ _ _ _ H) as [?|(v & ttl & err & n' & H')]; auto.
          right. exists v, ttl, err, n'. auto.
      + cbn [good local]. split; auto. apply (I_good _ _ HI).
      + intros post k1 pre Hs. apply split_cons in Hs as [(_ & H & _)|(post' & -> & Hl)]; [discriminate|].
        destruct (I_bar _ _ HI _ _ _ Hl) as [Ha Hb].
        assert (Hnp : ~ mentioned (fresh s) pre).
        { intros (ev & Hev & He). apply Hnm. exists ev. split; auto. rewrite Hl. apply in_or_app. right. right. auto. }
        split.
        * intros r1 e m [H|H]; [inversion H; subst; auto|]; eauto.
        * intros y Hy Hky. destruct (Hres y Hy) as [[_ ->]|Hy']; auto.
  Qed.

  Lemma inv_lock max s r : RInv max s -> exists s', rstep eqb s (LLock r) = Ok s' /\ RInv max s'.
  Proof.
    intros HI. cbn [rstep]. destruct (pcs s r) as [|k e miss| | |] eqn:Hpc; try (exists s; auto; fail).
    destruct (owner s e) eqn:Ho; [exists s; auto|]. eexists. split; [reflexivity|].
    destruct HI. constructor; cbn [cache fresh ents owner pcs log]; auto.
    - intros r1 ev Hr1. destruct (Nat.eq_dec r1 r) as [->|Hne]; [rewrite fset_eq in Hr1; discriminate|].
      rewrite fset_ne in Hr1 by auto. auto.
    - intros r1. destruct (Nat.eq_dec r1 r) as [->|Hne].
      + rewrite fset_eq. specialize (I_pc0 r). now rewrite Hpc in I_pc0.
      + rewrite fset_ne by auto. apply I_pc0.
    - intros e1 r1. destruct (Nat.eq_dec e1 e) as [->|He].
      + rewrite fset_eq. destruct (Nat.eq_dec r1 r) as [->|Hne].
        * rewrite fset_eq. cbn. tauto.
        * rewrite fset_ne by auto. rewrite <- I_own0. split; congruence.
      + rewrite fset_ne by auto. destruct (Nat.eq_dec r1 r) as [->|Hne].
        * rewrite fset_eq. cbn. rewrite I_own0, Hpc. cbn. split; [tauto|congruence].
        * rewrite fset_ne by auto. apply I_own0.
    - intros r1 k1 e1 n H. destruct (Nat.eq_dec r1 r) as [->|Hne].
      + exfalso. specialize (I_pc0 r). rewrite Hpc in I_pc0. destruct I_pc0 as [_ H0]. eapply H0; eauto.
      + rewrite fset_ne by auto. eauto.
  Qed.

  Lemma own_release s r e (p : pc K) : (forall e r, owner s e = Some r <-> holds (pcs s r) e) ->
    holds (pcs s r) e -> (forall e', ~ holds p e') ->
    forall e1 r1, fset (owner s) e None e1 = Some r1 <-> holds (fset (pcs s) r p r1) e1.
  Proof.
    intros Hown Hh Hp e1 r1. destruct (Nat.eq_dec e1 e) as [->|He].
    - rewrite fset_eq. destruct (Nat.eq_dec r1 r) as [->|Hne].
      + rewrite fset_eq. split; [discriminate|]. intros H. destruct (Hp _ H).
      + rewrite fset_ne by auto. rewrite <- Hown. apply Hown in Hh. split; congruence.
    - rewrite fset_ne by auto. destruct (Nat.eq_dec r1 r) as [->|Hne].
      + rewrite fset_eq, Hown. split; intros H; [|destruct (Hp _ H)]. exfalso.
        unfold holds in *. destruct (pcs s r); congruence.
      + rewrite fset_ne by auto. apply Hown.
  Qed.

  Lemma inv_check max s r now : (0 < now)%Z -> RInv max s -> exists s', rstep eqb s (LCheck r now) = Ok s' /\ RInv max s'.
  Proof.
    intros Hnow HI. cbn [rstep]. destruct (pcs s r) as [| |k e miss| |] eqn:Hpc; try (exists s; auto; fail).
    destruct HI.
    pose proof (I_pc0 r) as Hr. rewrite Hpc in Hr. destruct Hr as [Hst Hnf].
    destruct (negb miss && (now <=? cexpire (ents s e))%Z) eqn:Hc; eexists; (split; [reflexivity|]).
    - apply andb_true_iff in Hc as [Hmiss Hle]. apply Z.leb_le in Hle. destruct miss; [discriminate|].
      constructor; cbn [cache fresh ents owner pcs log]; auto.
      + intros x Hx. destruct (I_res0 x Hx) as (r1 & H1). exists r1. cbn; auto.
      + intros e1 He. apply mentioned_cons in He as [He|He]; auto. inversion He; subst.
        apply I_fresh0. exists (EStart r k e1 false). auto.
      + intros r1 ev Hr1 Hev. destruct (Nat.eq_dec r1 r) as [->|Hne]; [rewrite fset_eq in Hr1; discriminate|].
        rewrite fset_ne in Hr1 by auto. destruct Hev as [<-|Hev]; [cbn; congruence|]. auto.
      + intros r1. destruct (Nat.eq_dec r1 r) as [->|Hne]; [now rewrite fset_eq|].
        rewrite fset_ne by auto. specialize (I_pc0 r1). destruct (pcs s r1); auto.
        * destruct I_pc0 as [H1 H2]. split; [cbn; auto|]. intros k' e' n [H|H]; [discriminate|]. eapply H2; eauto.
        * destruct I_pc0 as [H1 H2]. split; [cbn; auto|]. intros k' e' n [H|H]; [discriminate|]. eapply H2; eauto.
        * destruct I_pc0 as [n H]. exists n. cbn; auto.
      + apply own_release; auto. rewrite Hpc. cbn. auto.
      + intros r1 k1 e1 n [H|H]; [discriminate|]. destruct (Nat.eq_dec r1 r) as [->|Hne].
        * exfalso. eapply Hnf; eauto.
        * rewrite fset_ne by auto. destruct (I_fetch0 _ _ _ _ H) as [?|(v & ttl & err & n' & H')]; auto.
          right. exists v, ttl, err, n'. cbn; auto.
      + cbn [good local]. split; auto. split; auto. specialize (I_ent0 e).
        destruct (last_result e (log s)) as [[[[k0 v0] err0] exp0]|] eqn:Hlast; [|lia].
        rewrite I_ent0 in *. cbn in *. exists exp0. split; auto.
        destruct (last_result_in _ _ _ _ _ _ Hlast) as (r1 & ttl & n & Hin & _).
        destruct (fetched_fetch _ _ _ _ _ _ _ _ I_good0 Hin) as (n' & Hf).
        destruct (fetch_started _ _ _ _ _ I_good0 Hf) as (m & Hs).
        rewrite (one_key _ _ _ _ _ _ _ _ I_good0 Hst Hs). reflexivity.
      + intros post k1 pre Hs. apply split_cons in Hs as [(_ & H & _)|(post' & -> & Hl)]; [discriminate|].
        destruct (I_bar0 _ _ _ Hl) as [Ha Hb]. split; auto.
        intros r1 e1 m [H|H]; [discriminate|]. eauto.
    - constructor; cbn [cache fresh ents owner pcs log]; auto.
      + intros x Hx. destruct (I_res0 x Hx) as (r1 & H1). exists r1. cbn; auto.
      + intros e1 He. apply mentioned_cons in He as [He|He]; auto. inversion He; subst.
        apply I_fresh0. exists (EStart r k e1 miss). auto.
      + intros r1 ev Hr1 Hev. destruct (Nat.eq_dec r1 r) as [->|Hne]; [rewrite fset_eq in Hr1; discriminate|].
        rewrite fset_ne in Hr1 by auto. destruct Hev as [<-|Hev]; [cbn; congruence|]. auto.
      + intros r1. destruct (Nat.eq_dec r1 r) as [->|Hne]; [rewrite fset_eq; exists now; cbn; auto|].
        rewrite fset_ne by auto. specialize (I_pc0 r1). destruct (pcs s r1); auto.
        * destruct I_pc0 as [H1 H2]. split; [cbn; auto|]. intros k' e' n [H|H]; [congruence|]. eapply H2; eauto.
        * destruct I_pc0 as [H1 H2]. split; [cbn; auto|]. intros k' e' n [H|H]; [congruence|]. eapply H2; eauto.
        * destruct I_pc0 as [n H]. exists n. cbn; auto.
      + intros e1 r1. destruct (Nat.eq_dec r1 r) as [->|Hne].
        * rewrite fset_eq, I_own0, Hpc. cbn. reflexivity.
        * rewrite fset_ne by auto. auto.
      + intros r1 k1 e1 n [H|H].
        * inversion H; subst. left. apply fset_eq.
        * destruct (Nat.eq_dec r1 r) as [->|Hne]; [exfalso; eapply Hnf; eauto|].
          rewrite fset_ne by auto. destruct (I_fetch0 _ _ _ _ H) as [?|(v & ttl & err & n' & H')]; auto.
          right. exists v, ttl, err, n'. cbn; auto.
      + cbn [good local]. split; auto. split; [|split; auto].
        * intros r1 k1 n1 H1. destruct (I_fetch0 _ _ _ _ H1) as [Hp|H']; auto. exfalso.
          assert (Ho : owner s e = Some r1) by (apply I_own0; rewrite Hp; cbn; auto).
          assert (Ho' : owner s e = Some r) by (apply I_own0; rewrite Hpc; cbn; auto).
          rewrite Ho in Ho'. inversion Ho'; subst r1. rewrite Hpc in Hp. discriminate.
        * destruct miss; [left; auto|]. right. split; auto. cbn in Hc. apply Z.leb_gt in Hc.
          specialize (I_ent0 e). destruct (last_result e (log s)) as [[[[k0 v0] err0] exp0]|]; auto.
          rewrite I_ent0 in Hc. exact Hc.
      + intros post k1 pre Hs. apply split_cons in Hs as [(_ & H & _)|(post' & -> & Hl)]; [discriminate|].
        destruct (I_bar0 _ _ _ Hl) as [Ha Hb]. split; auto.
        intros r1 e1 m [H|H]; [discriminate|]. eauto.
  Qed.

  Lemma inv_fetched max s r v ttl err now : RInv max s -> exists s', rstep eqb s (LFetched r v ttl err now) = Ok s' /\ RInv max s'.
  Proof.
    intros HI. cbn [rstep]. destruct (pcs s r) as [| | |k e|] eqn:Hpc; try (exists s; auto; fail).
    destruct HI. eexists; split; [reflexivity|].
    pose proof (I_pc0 r) as Hr. rewrite Hpc in Hr. destruct Hr as [n Hf].
    constructor; cbn [cache fresh ents owner pcs log]; auto.
    - intros x Hx. destruct (I_res0 x Hx) as (r1 & H1). exists r1. cbn; auto.
    - intros e1 He. apply mentioned_cons in He as [He|He]; auto. inversion He; subst.
      apply I_fresh0. exists (EFetch r k e1 n). auto.
    - intros r1 ev Hr1 Hev. destruct (Nat.eq_dec r1 r) as [->|Hne]; [rewrite fset_eq in Hr1; discriminate|].
      rewrite fset_ne in Hr1 by auto. destruct Hev as [<-|Hev]; [cbn; congruence|]. auto.
    - intros r1. destruct (Nat.eq_dec r1 r) as [->|Hne]; [now rewrite fset_eq|].
      rewrite fset_ne by auto. specialize (I_pc0 r1). destruct (pcs s r1); auto.
      + destruct I_pc0 as [H1 H2]. split; [cbn; auto|]. intros k' e' n' [H|H]; [discriminate|]. eapply H2; eauto.
      + destruct I_pc0 as [H1 H2]. split; [cbn; auto|]. intros k' e' n' [H|H]; [discriminate|]. eapply H2; eauto.
      + destruct I_pc0 as [n' H]. exists n'. cbn; auto.
    - apply own_release; auto. rewrite Hpc. cbn. auto.
    - intros e1. cbn [last_result]. destruct (Nat.eq_dec e1 e) as [->|He].
      + rewrite Nat.eqb_refl, fset_eq. destruct (0 <? ttl)%Z; auto.
      + rewrite fset_ne by auto. apply Nat.eqb_neq in He. rewrite He. apply I_ent0.
    - intros r1 k1 e1 n1 [H|H]; [discriminate|]. destruct (I_fetch0 _ _ _ _ H) as [Hp|(v' & ttl' & err' & n' & H')].
      + destruct (Nat.eq_dec r1 r) as [->|Hne].
        * right. rewrite Hpc in Hp. inversion Hp; subst. exists v, ttl, err, now. cbn; auto.
        * left. rewrite fset_ne by auto. auto.
      + right. exists v', ttl', err', n'. cbn; auto.
    - cbn [good local]. eauto.
    - intros post k1 pre Hs. apply split_cons in Hs as [(_ & H & _)|(post' & -> & Hl)]; [discriminate|].
      destruct (I_bar0 _ _ _ Hl) as [Ha Hb]. split; auto.
      intros r1 e1 m [H|H]; [discriminate|]. eauto.
  Qed.

  Lemma inv_inval max s k : RInv max s -> exists s', rstep eqb s (LInval k) = Ok s' /\ RInv max s'.
  Proof.
    intros HI. cbn [rstep]. destruct (I_lru _ _ HI) as [HL HM].
    assert (Hinv : exists c', Invalidate eqb (cache s) k = Ok c' /\ Inv c' /\ MaxSize c' = max /\
              (forall x, In x (hlist (lheap c')) -> In x (hlist (lheap (cache s))) /\ key x <> k)).
    { destruct (key_in_dec dec (cache s) k) as [(x & Hin & Hk)|Hni].
      - subst k. destruct (invalidate_present eqb Heq (cache s) x HL Hin) as (c' & Hi & HL' & Hm & Hp).
        exists c'. split; auto. split; auto. split; [congruence|]. intros y Hy.
        assert (Hy' : In y (x :: hlist (lheap c'))) by (cbn; auto).
        split; [eapply Permutation_in; [apply Permutation_sym; exact Hp|auto]|].
        pose proof (keys_nodup (cache s) HL) as Hnd. unfold Keys in Hnd.
        apply (Permutation_NoDup (Permutation_map key Hp)) in Hnd. cbn in Hnd. inversion Hnd; subst.
        intros He. apply H1. rewrite <- He. now apply in_map.
      - exists (cache s). split; [now apply invalidate_absent|]. split; auto. split; auto. intros x Hx. split; auto.
        intros He. apply Hni. unfold Keys. rewrite <- He. now apply in_map. }
    destruct Hinv as (c' & Hi & HL' & Hm & Hres). rewrite Hi. cbn [rbind]. eexists. split; [reflexivity|].
    destruct HI. constructor; cbn [cache fresh ents owner pcs log]; auto.
    - intros x Hx. destruct (Hres x Hx) as [Hx' _]. destruct (I_res0 x Hx') as (r1 & H1). exists r1. cbn; auto.
    - intros e1 He. apply mentioned_cons in He as [He|He]; auto. discriminate.
    - intros r1 ev Hr1 [<-|Hev]; [cbn; congruence|]. auto.
    - intros r1. specialize (I_pc0 r1). destruct (pcs s r1); auto.
      + destruct I_pc0 as [H1 H2]. split; [cbn; auto|]. intros k' e' n' [H|H]; [discriminate|]. eapply H2; eauto.
      + destruct I_pc0 as [H1 H2]. split; [cbn; auto|]. intros k' e' n' [H|H]; [discriminate|]. eapply H2; eauto.
      + destruct I_pc0 as [n' H]. exists n'. cbn; auto.
    - intros r1 k1 e1 n1 [H|H]; [discriminate|]. destruct (I_fetch0 _ _ _ _ H) as [Hp|(v' & ttl' & err' & n' & H')]; auto.
      right. exists v', ttl', err', n'. cbn; auto.
    - cbn. auto.
    - intros post k1 pre Hs. apply split_cons in Hs as [(-> & H & Hl)|(post' & -> & Hl)].
      + inversion H; subst k1. subst pre. split; [intros ? ? ? []|]. intros x Hx Hk. destruct (Hres x Hx). contradiction.
      + destruct (I_bar0 _ _ _ Hl) as [Ha Hb]. split.
        * intros r1 e1 m [H|H]; [discriminate|]. eauto.
        * intros x Hx. destruct (Hres x Hx) as [Hx' _]. auto.
  Qed.

  Lemma exec_inv max ls : (0 <= max)%Z -> Forall clock_ok ls -> forall s, RInv max s ->
    exists s', rexec eqb s ls = Ok s' /\ RInv max s'.
  Proof.
    intros Hmax Hf. induction Hf as [|l ls Hl Hf IH]; intros s HI; cbn [rexec]; [eauto|].
    assert (Hs : exists s', rstep eqb s l = Ok s' /\ RInv max s').
    { destruct l; cbn in Hl.
      - now apply inv_start.
      - now apply inv_lock.
      - now apply inv_check.
      - now apply inv_fetched.
      - now apply inv_inval. }
    destruct Hs as (s1 & Hs & HI1). rewrite Hs. cbn [rbind]. auto.
  Qed.

  Definition reachable max s := exists ls, Forall clock_ok ls /\ rexec eqb (NewRequestLRU zero max) ls = Ok s.

  Lemma reach_inv max s : (0 <= max)%Z -> reachable max s -> RInv max s.
  Proof.
    intros Hmax (ls & Hf & He). destruct (exec_inv max ls Hmax Hf _ (init_inv max)) as (s' & He' & HI).
    congruence.
  Qed.

  Lemma no_panic max ls : (0 <= max)%Z -> Forall clock_ok ls -> exists s, rexec eqb (NewRequestLRU zero max) ls = Ok s.
  Proof. intros Hmax Hf. destruct (exec_inv max ls Hmax Hf _ (init_inv max)) as (s' & He' & HI). eauto. Qed.

  Lemma hit_unexpired max ls s : (0 <= max)%Z -> Forall clock_ok ls ->
    rexec eqb (NewRequestLRU zero max) ls = Ok s ->
    forall post r k e v err now pre, log s = post ++ EHit r k e v err now :: pre ->
    exists exp, last_result e pre = Some (k, v, err, exp) /\ (now <= exp)%Z.
  Proof.
    intros Hmax Hf He post r k e v err now pre Hl.
    assert (HI : RInv max s) by (apply reach_inv; [auto|exists ls; auto]).
    pose proof (I_good _ _ HI) as Hg. rewrite Hl in Hg. apply good_split in Hg. cbn in Hg. tauto.
  Qed.

  Lemma one_fetch max ls s : (0 <= max)%Z -> Forall clock_ok ls ->
    rexec eqb (NewRequestLRU zero max) ls = Ok s ->
    forall post r k e now pre r' k' now', log s = post ++ EFetch r k e now :: pre ->
    In (EFetch r' k' e now') pre -> exists v ttl err n, In (EFetched r' k' e v ttl err n) pre.
  Proof.
    intros Hmax Hf He post r k e now pre r' k' now' Hl Hin.
    assert (HI : RInv max s) by (apply reach_inv; [auto|exists ls; auto]).
    pose proof (I_good _ _ HI) as Hg. rewrite Hl in Hg. apply good_split in Hg. cbn in Hg.
    destruct Hg as (H & _). eauto.
  Qed.

  Lemma entry_key max ls s : (0 <= max)%Z -> Forall clock_ok ls ->
    rexec eqb (NewRequestLRU zero max) ls = Ok s ->
    forall r k e m r' k' m', In (EStart r k e m) (log s) -> In (EStart r' k' e m') (log s) -> k = k'.
  Proof.
    intros Hmax Hf He. intros.
    assert (HI : RInv max s) by (apply reach_inv; [auto|exists ls; auto]).
    eapply one_key; eauto using I_good.
  Qed.

  Lemma invalidate_barrier max ls s : (0 <= max)%Z -> Forall clock_ok ls ->
    rexec eqb (NewRequestLRU zero max) ls = Ok s ->
    forall post k pre r e m v err now, log s = post ++ EInval k :: pre ->
    In (EStart r k e m) post -> In (EHit r k e v err now) post ->
    exists r' n ttl n', In (EFetch r' k e n) post /\ In (EFetched r' k e v ttl err n') post.
  Proof.
    intros Hmax Hf He post k pre r e m v err now Hl Hst Hh.
    assert (HI : RInv max s) by (apply reach_inv; [auto|exists ls; auto]).
    destruct (I_bar _ _ HI _ _ _ Hl) as [Ha _]. specialize (Ha _ _ _ Hst).
    assert (Hhl : In (EHit r k e v err now) (log s)) by (rewrite Hl; apply in_or_app; auto).
    pose proof (I_good _ _ HI) as Hg.
    destruct (good_in _ _ Hg Hhl) as (p1 & p2 & Hp & _ & exp & Hlast & _).
    destruct (last_result_in _ _ _ _ _ _ Hlast) as (r' & ttl & n' & Hin & _).
    assert (Hin' : In (EFetched r' k e v ttl err n') (log s)).
    { rewrite Hp. apply in_or_app. right. right. auto. }
    destruct (fetched_fetch _ _ _ _ _ _ _ _ Hg Hin') as (n & Hfe).
    assert (Hpost : forall ev, In ev (log s) -> ev_entry ev = Some e -> In ev post).
    { intros ev Hev Hee. rewrite Hl in Hev. apply in_app_or in Hev as [|[<-|Hev]]; auto; [discriminate|].
      exfalso. apply Ha. exists ev. auto. }
    exists r', n, ttl, n'. split; apply Hpost; auto.
  Qed.

  Lemma refetch_reason max ls s : (0 <= max)%Z -> Forall clock_ok ls ->
    rexec eqb (NewRequestLRU zero max) ls = Ok s ->
    forall post r k e now pre, log s = post ++ EFetch r k e now :: pre ->
    In (EStart r k e true) pre \/
    match last_result e pre with Some (_, _, _, exp) => (exp < now)%Z | None => True end.
  Proof.
    intros Hmax Hf He post r k e now pre Hl.
    assert (HI : RInv max s) by (apply reach_inv; [auto|exists ls; auto]).
    pose proof (I_good _ _ HI) as Hg. rewrite Hl in Hg. apply good_split in Hg. cbn in Hg. tauto.
  Qed.

  Lemma fetchers_in r e (l : list event) : In r (fetchers e l) <-> exists k n, In (EFetch r k e n) l.
  Proof.
    induction l as [|ev l IH]; cbn.
    - split; [tauto|]. intros (k & n & []).
    - assert (Hrec : In r (fetchers e l) -> exists k n, ev = EFetch r k e n \/ In (EFetch r k e n) l).
      { intros H. apply IH in H as (k & n & H). eauto. }
      destruct ev as [| |r0 k0 e0 n0| |]; try (split; auto; intros (k1 & n1 & [H|H]); [discriminate|apply IH; eauto]).
      destruct (e =? e0) eqn:Ee.
      + apply Nat.eqb_eq in Ee. subst e0. cbn. split.
        * intros [->|H]; eauto.
        * intros (k & n & [H|H]); [left; congruence|right; apply IH; eauto].
      + apply Nat.eqb_neq in Ee. split; auto. intros (k & n & [H|H]); [congruence|apply IH; eauto].
  Qed.

  Lemma last_result_some r k e v ttl err n (l : list event) :
    (forall r k v ttl err now, In (EFetched r k e v ttl err now) l -> (0 < ttl)%Z) ->
    In (EFetched r k e v ttl err n) l -> exists x, last_result e l = Some x.
  Proof.
    induction l as [|ev l IH]; cbn; [tauto|]. intros Hpos Hin.
    assert (Hrec : In (EFetched r k e v ttl err n) l -> exists x, last_result e l = Some x).
    { intros H. apply IH; auto. intros. eapply Hpos. eauto. }
    destruct ev as [| | |r0 k0 e0 v0 ttl0 err0 n0|]; try (destruct Hin as [Hin|Hin]; [discriminate|auto]).
    destruct (e =? e0) eqn:Ee.
    - apply Nat.eqb_eq in Ee. subst e0. specialize (Hpos r0 k0 v0 ttl0 err0 n0 (or_introl eq_refl)).
      apply Z.ltb_lt in Hpos. rewrite Hpos. eauto.
    - apply Nat.eqb_neq in Ee. destruct Hin as [Hin|Hin]; [congruence|auto].
  Qed.

  Lemma long_lived_tail e (ev : event) l : long_lived e (ev :: l) -> long_lived (K := K) (V := V) (E := E) e l.
  Proof.
    intros H r k v ttl err now Hin. destruct (H r k v ttl err now (or_intror Hin)) as [Hp Hle].
    split; auto. intros r' k' now' Hf. eapply Hle. right. eauto.
  Qed.

  Lemma fetch_count e (l : list event) : good l -> long_lived e l ->
    NoDup (fetchers e l) /\
    (forall r, In r (removelast (fetchers e l)) -> exists k, In (EStart r k e true) l).
  Proof.
    induction l as [|ev l IH]; intros Hg Hll; [cbn; split; [constructor|tauto]|].
    destruct Hg as [Hl Hg]. specialize (IH Hg (long_lived_tail _ _ _ Hll)). destruct IH as [Hnd Hc].
    assert (Hkeep : NoDup (fetchers e l) /\ (forall r, In r (removelast (fetchers e l)) -> exists k, In (EStart r k e true) (ev :: l))).
    { split; auto. intros r Hr. destruct (Hc r Hr) as (k & H). exists k. cbn; auto. }
    destruct ev as [| |r0 k0 e0 n0| |]; auto. cbn [fetchers].
    destruct (e =? e0) eqn:Ee; auto. apply Nat.eqb_eq in Ee. subst e0. cbn [local] in Hl.
    destruct Hl as (Hser & Honce & Hwhy). split.
    - constructor; auto. intros H. apply fetchers_in in H as (k & n & H). eapply Honce; eauto.
    - intros r Hr. destruct (fetchers e l) as [|r1 rest] eqn:Hfe; [destruct Hr|].
      change (removelast (r0 :: r1 :: rest)) with (r0 :: removelast (r1 :: rest)) in Hr. destruct Hr as [<-|Hr].
      + assert (H1 : In r1 (fetchers e l)) by (rewrite Hfe; cbn; auto).
        apply fetchers_in in H1 as (k1 & n1 & H1). destruct (Hser _ _ _ H1) as (v & ttl & err & n & Hfd).
        destruct Hwhy as [H|[_ H]]; [exists k0; cbn; auto|]. exfalso.
        destruct (last_result_some _ _ _ _ _ _ _ l (fun r k v ttl err now H =>
          proj1 (Hll r k v ttl err now (or_intror H))) Hfd) as ([[[k2 v2] err2] exp2] & Hx).
        rewrite Hx in H. destruct (last_result_in _ _ _ _ _ _ Hx) as (r3 & ttl3 & n3 & Hin3 & _ & ->).
        destruct (Hll _ _ _ _ _ _ (or_intror Hin3)) as [_ Hle]. specialize (Hle r0 k0 n0 (or_introl eq_refl)). lia.
      + destruct (Hc r Hr) as (k & H). exists k. cbn; auto.
  Qed.

  Lemma at_most_two max ls s : (0 <= max)%Z -> Forall clock_ok ls ->
    rexec eqb (NewRequestLRU zero max) ls = Ok s ->
    forall e, long_lived e (log s) -> length (fetchers e (log s)) <= 2.
  Proof.
    intros Hmax Hf He e Hll.
    assert (HI : RInv max s) by (apply reach_inv; [auto|exists ls; auto]).
    pose proof (I_good _ _ HI) as Hg. destruct (fetch_count e _ Hg Hll) as [Hnd Hc].
    destruct (fetchers e (log s)) as [|a [|b [|c rest]]]; cbn; try lia. exfalso.
    destruct (Hc a) as (k1 & H1); [cbn; auto|]. destruct (Hc b) as (k2 & H2); [cbn; auto|].
    destruct (creator_unique _ _ _ _ _ _ Hg H1 H2) as [-> _].
    inversion Hnd; subst. apply H3. cbn; auto.
  Qed.

  (* if the creator of the entry fetched first, there is one fetch *)
  Lemma one_if_creator_first max ls s : (0 <= max)%Z -> Forall clock_ok ls ->
    rexec eqb (NewRequestLRU zero max) ls = Ok s ->
    forall e r k l, long_lived e (log s) -> In (EStart r k e true) (log s) ->
    fetchers e (log s) = l ++ [r] -> l = [].
  Proof.
    intros Hmax Hf He e r k l Hll Hst Hfe.
    assert (HI : RInv max s) by (apply reach_inv; [auto|exists ls; auto]).
    pose proof (I_good _ _ HI) as Hg. destruct (fetch_count e _ Hg Hll) as [Hnd Hc].
    rewrite Hfe in *. rewrite removelast_last in Hc. destruct l as [|a l]; auto. exfalso.
    destruct (Hc a) as (k1 & H1); [cbn; auto|]. destruct (creator_unique _ _ _ _ _ _ Hg H1 Hst) as [-> _].
    inversion Hnd; subst. apply H2. apply in_or_app. cbn; auto.
  Qed.
End P.
