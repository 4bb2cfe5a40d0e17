(* Theorems about a typed sync.Map that several goroutines use (C141). *)
From Coq Require Import Bool Arith List Lia.
From Verif Require Import Prelude PreludeFacts SMapModel SMapSpec SMapProofs CmModel CmSpec.
Import ListNotations.

Section All.
  Context (K V : Type) (eqb : K -> K -> bool) (zero : V) (Heq : eqb_ok eqb).
  Notation entry := (nat * @label K V * list (K * V))%type.
  Notation csteps := (csteps eqb zero).
  Notation cstep := (cstep eqb zero).
  Notation OP := (sop eqb (fun _ => false) zero).
  Lemma op_ok (m : list (K * V)) o : NoDup (map fst m) -> exists m' a, OP m o = (m', Ok a) /\ NoDup (map fst m') /\ spec_op eqb zero (mget eqb m) o (mget eqb m') a.
  Proof. intros N. apply (sop_ok eqb Heq (fun _ => false) zero ltac:(discriminate)). exact N. Qed.

  (* a call of Map that has not returned *)
  Record running (s : cst) (g : nat) (ks : list K) (acc : list (K * V)) mid m0 old : Prop := {
    r_tr : c_tr s = mid ++ (g, LMap, m0) :: old;
    r_mid : no_map g mid;
    r_some : forall k v, mget eqb acc k = Some v -> exists m, In m (moments mid m0) /\ mget eqb m k = Some v;
    r_none : forall k, mget eqb acc k = None -> In k ks \/ exists m, In m (moments mid m0) /\ mget eqb m k = None }.
  Definition good (s : cst) : Prop := forall g ks acc, c_in s g = Some (ks, acc) -> exists mid m0 old, running s g ks acc mid m0 old.
  Lemma set_same l g x : set_in (K := K) (V := V) l g x g = x.
  Proof. unfold set_in. now rewrite Nat.eqb_refl. Qed.
  Lemma set_other l g x y : y <> g -> set_in (K := K) (V := V) l g x y = l y.
  Proof. intros H. unfold set_in. apply Nat.eqb_neq in H. now rewrite H. Qed.
  Lemma running_more s s' g ks acc mid m0 old e : running s g ks acc mid m0 old -> c_tr s' = e :: c_tr s -> (fst (fst e) = g -> match snd (fst e) with LMap | LRet _ => False | _ => True end) -> running s' g ks acc (e :: mid) m0 old.
  Proof.
    intros [T M S N] Et He. split.
    - rewrite Et, T. reflexivity.
    - intros x [<-|Hx]; [exact He|exact (M x Hx)].
    - intros k v E. destruct (S k v E) as (m & Hm & Em). exists m. split; auto. now right.
    - intros k E. destruct (N k E) as [H|(m & Hm & Em)]; auto. right. exists m. split; auto. now right.
  Qed.
  Lemma good_step s s' : good s -> cstep s s' -> good s'.
  Proof.
    intros G H. destruct H as [g o s m r Ei Eo|g ks s Ei Nk Hk|g a k b acc s Ei|g acc s Ei]; intros x ks' acc' E; cbn [c_in] in E.
    - destruct (G _ _ _ E) as (mid & m0 & old & R). exists ((g, LOp o r, m) :: mid), m0, old. eapply running_more; [exact R|reflexivity|cbn; auto].
    - destruct (Nat.eq_dec x g) as [->|N].
      + rewrite set_same in E. injection E as <- <-. exists [], (c_map s), (c_tr s). apply Build_running; [reflexivity|intros e []|discriminate|]. intros k _. destruct (mget eqb (c_map s) k) as [v|] eqn:Ek; [left; eauto|right]. exists (c_map s). split; [now left|auto].
      + rewrite set_other in E by auto. destruct (G _ _ _ E) as (mid & m0 & old & R). exists ((g, LMap, c_map s) :: mid), m0, old. eapply running_more; [exact R|reflexivity|cbn; congruence].
    - destruct (Nat.eq_dec x g) as [->|N].
      + rewrite set_same in E. injection E as <- <-. destruct (G _ _ _ Ei) as (mid & m0 & old & R). exists ((g, LVisit, c_map s) :: mid), m0, old.
        pose proof (running_more s (Cst (c_map s) (set_in (c_in s) g (Some (a ++ b, acc))) ((g, LVisit, c_map s) :: c_tr s)) g _ _ _ _ _ (g, LVisit, c_map s) R eq_refl (fun _ => I)) as [T M S Q].
        split; [exact T|exact M| |].
        * intros k' v E. destruct (mget eqb (c_map s) k) as [w|] eqn:Ek; auto. destruct (eqb k' k) eqn:Eq.
          -- apply Heq in Eq. subst k'. rewrite mget_mset_eq in E by auto. injection E as ->. exists (c_map s). split; [now left|auto].
          -- assert (Ne : k' <> k) by (intros ->; rewrite (proj2 (Heq k k) eq_refl) in Eq; discriminate). rewrite mget_mset_ne in E by (auto; congruence). auto.
        * intros k' E. destruct (eqb k' k) eqn:Eq.
          -- apply Heq in Eq. subst k'. destruct (mget eqb (c_map s) k) as [w|] eqn:Ek; [rewrite mget_mset_eq in E by auto; discriminate|]. right. exists (c_map s). split; [now left|auto].
          -- assert (Ne : k' <> k) by (intros ->; rewrite (proj2 (Heq k k) eq_refl) in Eq; discriminate).
             assert (E' : mget eqb acc k' = None) by (destruct (mget eqb (c_map s) k); auto; rewrite mget_mset_ne in E by (auto; congruence); auto). destruct (Q k' E') as [Hi|Hm]; auto. left.
             apply in_app_iff in Hi as [Hi|[Hi|Hi]]; [apply in_app_iff; auto|congruence|apply in_app_iff; auto].
      + rewrite set_other in E by auto. destruct (G _ _ _ E) as (mid & m0 & old & R). exists ((g, LVisit, c_map s) :: mid), m0, old. eapply running_more; [exact R|reflexivity|cbn; auto].
    - destruct (Nat.eq_dec x g) as [->|N]; [rewrite set_same in E; discriminate|]. rewrite set_other in E by auto. destruct (G _ _ _ E) as (mid & m0 & old & R). exists ((g, LRet acc, c_map s) :: mid), m0, old. eapply running_more; [exact R|reflexivity|cbn; congruence].
  Qed.
  Lemma good_all s : csteps s -> good s.
  Proof. intros H. induction H as [|s s' H IH Hs]; [intros g ks acc [=]|eapply good_step; eauto]. Qed.
  Lemma step_tr s s' : cstep s s' -> exists e, c_tr s' = e :: c_tr s.
  Proof. intros []; eexists; reflexivity. Qed.

  (* Each entry of what Map (or MarshalNode) returns was in the map at some moment of the call, and what is not in it was not in the map at some
     moment of the call: so what is in the map all the time, unchanged, is returned. *)
  Theorem C141_partial : forall s g acc m1 new rest, csteps s -> c_tr s = new ++ (g, LRet acc, m1) :: rest ->
    exists mid m0 old, rest = mid ++ (g, LMap, m0) :: old /\ no_map g mid /\
      (forall k v, mget eqb acc k = Some v -> exists m, In m (moments mid m0) /\ mget eqb m k = Some v) /\
      (forall k, mget eqb acc k = None -> exists m, In m (moments mid m0) /\ mget eqb m k = None).
  Proof.
    intros s g acc m1 new rest H. revert new. induction H as [|s s' H IH Hs]; intros new E; [destruct new; discriminate|].
    destruct new as [|e new]; [|destruct (step_tr _ _ Hs) as (e' & Et); rewrite Et in E; injection E as _ E; eauto].
    pose proof (good_all s H) as G. destruct Hs as [? ? s ? ? ? ?|? ? s ? ? ?|? ? ? ? ? s ?|g' acc' s Ei]; try discriminate. injection E as -> -> _ <-.
    destruct (G _ _ _ Ei) as (mid & m0 & old & [T M S N]). exists mid, m0, old. split; [exact T|]. split; [exact M|]. split; [exact S|]. intros k Ek. destruct (N k Ek) as [[]|Q]; auto.
  Qed.

  (* ---- single operations ---- *)
  Inductive linked : list entry -> list (K * V) -> Prop :=
  | l_none : linked [] []
  | l_op g o r m m' tr : linked tr m -> OP m o = (m', r) -> linked ((g, LOp o r, m') :: tr) m'
  | l_map g m tr : linked tr m -> linked ((g, LMap, m) :: tr) m
  | l_visit g m tr : linked tr m -> linked ((g, LVisit, m) :: tr) m
  | l_ret g acc m tr : linked tr m -> linked ((g, LRet acc, m) :: tr) m.
  Lemma linked_all s : csteps s -> linked (c_tr s) (c_map s).
  Proof. intros H. induction H as [|s s' H IH Hs]; [constructor|]. destruct Hs; cbn; econstructor; eauto. Qed.
  Lemma linked_nodup tr m : linked tr m -> NoDup (map fst m).
  Proof.
    intros H. induction H as [|g o r m m' tr _ IH E| | |]; auto; [constructor|]. destruct (op_ok m o IH) as (m1 & a & E1 & N1 & _). rewrite E in E1. injection E1 as <- _. exact N1.
  Qed.
  Lemma linked_app a b m : linked (a ++ b) m -> exists m', linked b m'.
  Proof. revert m. induction a as [|e a IH]; intros m H; [eauto|]. inversion H; subst; eauto. Qed.
  Lemma op_spec g o r m2 tr m : linked ((g, LOp o r, m2) :: tr) m -> exists m1 a, linked tr m1 /\ m = m2 /\ r = Ok a /\ spec_op eqb zero (mget eqb m1) o (mget eqb m2) a.
  Proof.
    intros H. inversion H; subst. destruct (op_ok m0 o) as (m1 & a & E1 & _ & Hs); [eapply linked_nodup; eauto|]. match goal with E : OP _ _ = _ |- _ => rewrite E in E1; injection E1 as <- -> end. exists m0, a. auto.
  Qed.
  Lemma keep_some k v mid : forall tr m m0, linked (mid ++ tr) m -> linked tr m0 -> none (touches k) mid -> mget eqb m0 k = Some v -> mget eqb m k = Some v.
  Proof.
    assert (U : forall tr m m', linked tr m -> linked tr m' -> m = m').
    { induction tr as [|e tr IH]; intros m m' H H'; inversion H; subst; inversion H'; subst; auto. }
    induction mid as [|e mid IH]; intros tr m m0 H H0 Hn Ek; [now rewrite (U _ _ _ H H0)|]. cbn [app] in H.
    assert (Hn' : none (touches k) mid) by (intros g o r x Hx; eapply Hn; right; exact Hx).
    destruct e as [[g l] me]. destruct l as [o r| | |acc].
    - destruct (op_spec _ _ _ _ _ _ H) as (m1 & a & H1 & -> & -> & Hs). specialize (IH _ _ _ H1 H0 Hn' Ek). assert (Ht : ~ touches k o) by (eapply Hn; left; reflexivity).
      destruct o as [x w|x|x|x| |x w|x w|x]; cbn in Hs, Ht.
      + destruct Hs as (Hs & _). rewrite Hs. unfold put. destruct (eqb k x) eqn:E; auto. apply Heq in E. congruence.
      + destruct Hs as (Hs & _). rewrite Hs. unfold put. destruct (eqb k x) eqn:E; auto. apply Heq in E. congruence.
      + destruct Hs as (Hs & _). now rewrite Hs.
      + destruct Hs as (Hs & _). now rewrite Hs.
      + destruct Hs as (Hs & _). now rewrite Hs.
      + destruct (mget eqb m1 x) as [y|] eqn:Ex; destruct Hs as (Hs & _); rewrite Hs; auto. unfold put. destruct (eqb k x) eqn:E; auto. apply Heq in E. congruence.
      + destruct (mget eqb m1 x) as [y|] eqn:Ex; destruct Hs as (Hs & _); rewrite Hs; auto. unfold put. destruct (eqb k x) eqn:E; auto. apply Heq in E. congruence.
      + destruct Hs as (Hs & _). rewrite Hs. unfold put. destruct (eqb k x) eqn:E; auto. apply Heq in E. congruence.
    - inversion H; subst. eauto.
    - inversion H; subst. eauto.
    - inversion H; subst. eauto.
  Qed.
  Lemma keep_none k mid : forall tr m m0, linked (mid ++ tr) m -> linked tr m0 -> none (stores k) mid -> mget eqb m0 k = None -> mget eqb m k = None.
  Proof.
    assert (U : forall tr m m', linked tr m -> linked tr m' -> m = m').
    { induction tr as [|e tr IH]; intros m m' H H'; inversion H; subst; inversion H'; subst; auto. }
    induction mid as [|e mid IH]; intros tr m m0 H H0 Hn Ek; [now rewrite (U _ _ _ H H0)|]. cbn [app] in H.
    assert (Hn' : none (stores k) mid) by (intros g o r x Hx; eapply Hn; right; exact Hx).
    destruct e as [[g l] me]. destruct l as [o r| | |acc].
    - destruct (op_spec _ _ _ _ _ _ H) as (m1 & a & H1 & -> & -> & Hs). specialize (IH _ _ _ H1 H0 Hn' Ek). assert (Ht : ~ stores k o) by (eapply Hn; left; reflexivity).
      destruct o as [x w|x|x|x| |x w|x w|x]; cbn in Hs, Ht.
      + destruct Hs as (Hs & _). rewrite Hs. unfold put. destruct (eqb k x) eqn:E; auto. apply Heq in E. congruence.
      + destruct Hs as (Hs & _). rewrite Hs. unfold put. destruct (eqb k x) eqn:E; auto.
      + destruct Hs as (Hs & _). now rewrite Hs.
      + destruct Hs as (Hs & _). now rewrite Hs.
      + destruct Hs as (Hs & _). now rewrite Hs.
      + destruct (mget eqb m1 x) as [y|] eqn:Ex; destruct Hs as (Hs & _); rewrite Hs; auto. unfold put. destruct (eqb k x) eqn:E; auto. apply Heq in E. congruence.
      + destruct (mget eqb m1 x) as [y|] eqn:Ex; destruct Hs as (Hs & _); rewrite Hs; auto. unfold put. destruct (eqb k x) eqn:E; auto. apply Heq in E. congruence.
      + destruct Hs as (Hs & _). rewrite Hs. unfold put. destruct (eqb k x) eqn:E; auto.
    - inversion H; subst. eauto.
    - inversion H; subst. eauto.
    - inversion H; subst. eauto.
  Qed.

  (* Goroutines that call LoadOrStore or GetOrStore for a key get the same value as long as nobody stores, deletes or takes it, and only one of them stores its own. *)
  Theorem C141_once : forall s k new mid old g1 o1 r1 m1 g2 o2 r2 m2, csteps s -> c_tr s = new ++ (g2, LOp o2 r2, m2) :: mid ++ (g1, LOp o1 r1, m1) :: old ->
    loads_or_stores k o1 -> loads_or_stores k o2 -> none (touches k) mid -> (exists v, value r1 = Some v /\ value r2 = Some v) /\ ~ stored r2.
  Proof.
    intros s k new mid old g1 o1 r1 m1 g2 o2 r2 m2 H E L1 L2 Hn. pose proof (linked_all s H) as L. rewrite E in L. apply linked_app in L as (mx & L).
    destruct (op_spec _ _ _ _ _ _ L) as (ma & a & La & -> & -> & Hs). destruct (linked_app mid _ _ La) as (mb & Lb). destruct (op_spec _ _ _ _ _ _ Lb) as (mc & a1 & Lc & -> & -> & Hs1).
    assert (A : exists v, value (Ok a1) = Some v /\ mget eqb m1 k = Some v).
    { destruct o1; cbn in L1; try contradiction; subst k0; cbn in Hs1; destruct (mget eqb mc k) as [w|] eqn:Ek; destruct Hs1 as (Q & ->); cbn; eexists; (split; [reflexivity|]); rewrite Q; auto; unfold put; now rewrite (proj2 (Heq k k) eq_refl). }
    destruct A as (v & Av & Ev). pose proof (keep_some k v mid _ _ _ La Lb Hn Ev) as Ea.
    destruct o2; cbn in L2; try contradiction; subst k0; cbn in Hs; rewrite Ea in Hs; destruct Hs as (_ & ->); (split; [exists v; split; [exact Av|reflexivity]|intros (y & [=])]).
  Qed.
  (* A value is taken by one goroutine: between two calls of LoadAndDelete that find something, something was stored. *)
  Theorem C141_taken : forall s k new mid old g1 r1 m1 g2 r2 m2, csteps s -> c_tr s = new ++ (g2, LOp (OLoadAndDelete k) r2, m2) :: mid ++ (g1, LOp (OLoadAndDelete k) r1, m1) :: old ->
    found r2 -> ~ none (stores k) mid.
  Proof.
    intros s k new mid old g1 r1 m1 g2 r2 m2 H E F Hn. pose proof (linked_all s H) as L. rewrite E in L. apply linked_app in L as (mx & L).
    destruct (op_spec _ _ _ _ _ _ L) as (ma & a & La & -> & -> & Hs). destruct (linked_app mid _ _ La) as (mb & Lb). destruct (op_spec _ _ _ _ _ _ Lb) as (mc & a1 & Lc & -> & -> & Hs1).
    assert (Ek : mget eqb m1 k = None) by (destruct Hs1 as (Q & _); rewrite Q; unfold put; now rewrite (proj2 (Heq k k) eq_refl)).
    pose proof (keep_none k mid _ _ _ La Lb Hn Ek) as Ea. cbn in Hs. rewrite Ea in Hs. destruct Hs as (_ & ->). destruct F as (v & [=]).
  Qed.
End All.

(* Map does not return the map as it was at one moment: 1 is stored for a and b, one goroutine stores 2 for a and then 2 for b, and another one gets 1 for a and 2 for b. *)
Theorem C141_snapshot_refuted : exists s g acc m1 rest, csteps Nat.eqb 0 s /\ c_tr s = (g, LRet acc, m1) :: rest /\ mget Nat.eqb acc 0 = Some 1 /\ mget Nat.eqb acc 1 = Some 2 /\
  forall e, In e (c_tr s) -> ~ (mget Nat.eqb (snd e) 0 = Some 1 /\ mget Nat.eqb (snd e) 1 = Some 2).
Proof.
  pose proof (cs_start Nat.eqb 0) as H.
  match type of H with CmModel.csteps _ _ ?s => pose proof (cs_more _ _ _ _ H (c_op Nat.eqb 0 8 (OStore 0 1) s [(0, 1)] (Ok ANone) eq_refl eq_refl)) as H1 end. cbn [c_map c_in c_tr] in H1.
  match type of H1 with CmModel.csteps _ _ ?s => pose proof (cs_more _ _ _ _ H1 (c_op Nat.eqb 0 8 (OStore 1 1) s [(0, 1); (1, 1)] (Ok ANone) eq_refl eq_refl)) as H2 end. cbn [c_map c_in c_tr] in H2.
  assert (Nk : NoDup [0; 1]) by (repeat constructor; cbn; intuition discriminate).
  assert (Hk : forall k v, mget Nat.eqb [(0, 1); (1, 1)] k = Some v -> In k [0; 1]) by (intros k v E; destruct k as [|[|k]]; cbn in *; auto; discriminate).
  match type of H2 with CmModel.csteps _ _ ?s => pose proof (cs_more _ _ _ _ H2 (c_range Nat.eqb 0 7 [0; 1] s eq_refl Nk Hk)) as H3 end. cbn [c_map c_in c_tr mget mset Nat.eqb app] in H3.
  match type of H3 with CmModel.csteps _ _ ?s => pose proof (cs_more _ _ _ _ H3 (c_visit Nat.eqb 0 7 [] 0 [1] [] s eq_refl)) as H4 end. cbn [c_map c_in c_tr mget mset Nat.eqb app] in H4.
  match type of H4 with CmModel.csteps _ _ ?s => pose proof (cs_more _ _ _ _ H4 (c_op Nat.eqb 0 8 (OStore 0 2) s [(0, 2); (1, 1)] (Ok ANone) eq_refl eq_refl)) as H5 end. cbn [c_map c_in c_tr] in H5.
  match type of H5 with CmModel.csteps _ _ ?s => pose proof (cs_more _ _ _ _ H5 (c_op Nat.eqb 0 8 (OStore 1 2) s [(0, 2); (1, 2)] (Ok ANone) eq_refl eq_refl)) as H6 end. cbn [c_map c_in c_tr] in H6.
  match type of H6 with CmModel.csteps _ _ ?s => pose proof (cs_more _ _ _ _ H6 (c_visit Nat.eqb 0 7 [] 1 [] [(0, 1)] s eq_refl)) as H7 end. cbn [c_map c_in c_tr mget mset Nat.eqb app] in H7.
  match type of H7 with CmModel.csteps _ _ ?s => pose proof (cs_more _ _ _ _ H7 (c_ret Nat.eqb 0 7 [(0, 1); (1, 2)] s eq_refl)) as H8 end. cbn [c_map c_in c_tr mget mset Nat.eqb app] in H8.
  match type of H8 with CmModel.csteps _ _ ?s => exists s end. exists 7, [(0, 1); (1, 2)]. eexists. eexists. split; [exact H8|]. cbn [c_tr]. split; [reflexivity|]. split; [reflexivity|]. split; [reflexivity|].
  cbn. intros e He. repeat (destruct He as [<-|He]; [cbn; intuition discriminate|]). destruct He.
Qed.

(* two goroutines store for 5 at once, a third takes it, a fourth finds nothing *)
Example C141_ex : exists s, csteps Nat.eqb 0 s /\ map (fun e => (fst (fst e), snd (fst e))) (c_tr s) =
  [(4, LOp (OLoadAndDelete 5) (Ok (AVB 0 false))); (3, LOp (OLoadAndDelete 5) (Ok (AVB 1 true))); (2, LOp (OLoadOrStore 5 2) (Ok (AVB 1 true))); (1, LOp (OLoadOrStore 5 1) (Ok (AVB 1 false)))].
Proof.
  pose proof (cs_start Nat.eqb 0) as H.
  match type of H with CmModel.csteps _ _ ?s => pose proof (cs_more _ _ _ _ H (c_op Nat.eqb 0 1 (OLoadOrStore 5 1) s [(5, 1)] (Ok (AVB 1 false)) eq_refl eq_refl)) as H1 end. cbn [c_map c_in c_tr] in H1.
  match type of H1 with CmModel.csteps _ _ ?s => pose proof (cs_more _ _ _ _ H1 (c_op Nat.eqb 0 2 (OLoadOrStore 5 2) s [(5, 1)] (Ok (AVB 1 true)) eq_refl eq_refl)) as H2 end. cbn [c_map c_in c_tr] in H2.
  match type of H2 with CmModel.csteps _ _ ?s => pose proof (cs_more _ _ _ _ H2 (c_op Nat.eqb 0 3 (OLoadAndDelete 5) s [] (Ok (AVB 1 true)) eq_refl eq_refl)) as H3 end. cbn [c_map c_in c_tr] in H3.
  match type of H3 with CmModel.csteps _ _ ?s => pose proof (cs_more _ _ _ _ H3 (c_op Nat.eqb 0 4 (OLoadAndDelete 5) s [] (Ok (AVB 0 false)) eq_refl eq_refl)) as H4 end. cbn [c_map c_in c_tr] in H4.
  match type of H4 with CmModel.csteps _ _ ?s => exists s end. split; [exact H4|reflexivity].
Qed.
Print Assumptions C141_partial.
Print Assumptions C141_once.
Print Assumptions C141_taken.
Print Assumptions C141_snapshot_refuted.
