(* Invariants of Server.Listen. *)
From Coq Require Import Bool Arith ZArith Lia List.
From Verif Require Import Prelude ReqModel ShutModel ShutSpec ShutProofs LsModel LsSpec.
Import ListNotations.

(* ---- steps of the others ---- *)
Lemma other_hid i : other (hid i) = false.
Proof. unfold other, hid. rewrite Nat.mul_comm, Nat.mod_mul by discriminate. reflexivity. Qed.
Lemma other_rid i : other (rid i) = false.
Proof. unfold other, rid. rewrite Nat.add_comm, Nat.mul_comm, Nat.mod_add by discriminate. reflexivity. Qed.
Lemma hid_inj i j : hid i = hid j -> i = j.
Proof. unfold hid. lia. Qed.
Lemma hid_rid i j : hid i <> rid j.
Proof. unfold hid, rid. lia. Qed.
Lemma rid_inj i j : rid i = rid j -> i = j.
Proof. unfold rid. lia. Qed.

Definition kept (s s' : st) (r : nat) : Prop :=
  (pcs s' r = pcs s r \/ exists w, pcs s r = PRel w) /\
  (In (EHold r) (log s') <-> In (EHold r) (log s)) /\ (In (ERelease r) (log s') <-> In (ERelease r) (log s)).
Lemma other_ne r q : other r = false -> other q = true -> r <> q.
Proof. congruence. Qed.
Opaque other.
Lemma outside_kept s l s' r : outside l = true -> step s l = Ok s' -> other r = false -> kept s s' r.
Proof.
  intros Ho H Hr. unfold kept.
  destruct l; cbn [outside] in Ho; try (apply andb_true_iff in Ho; destruct Ho as [Ho Ho2]);
    inv_step H; repeat split; try tauto; try (left; reflexivity);
    repeat match goal with Q : other ?q = true |- _ => pose proof (other_ne r q Hr Q); clear Q end;
    try (left; fcase; congruence); try (fcase; eauto; congruence);
    try (let E := fresh in intros E; repeat (destruct E as [E|E]; [congruence|]); exact E); try (intros; auto; fail).
Qed.
Lemma hold_step s h s' : exited s = false -> pcs s h = PIdle -> step s (LHold h false) = Ok s' ->
  pcs s' h = PHeld /\ In (EHold h) (log s') /\ (In (ERelease h) (log s') <-> In (ERelease h) (log s)) /\ ch s' = ch s /\ exited s' = false /\
  forall r, r <> h -> kept s s' r.
Proof.
  intros He Hp H. unfold step in H. rewrite He, Hp in H. destruct (negb (waiters s =? 0) && (cnt s =? 0)%Z); [discriminate|].
  assert (E : s' = emit (set_wg (set_pc s h PHeld) (cnt s + 1) (waiters s) (sema s) (asleep s)) (EHold h)) by congruence. clear H. subst s'.
  cbn. rewrite fset_eq. repeat split; auto.
  - intros [E|E]; [discriminate|exact E].
  - left. now apply fset_ne.
  - cbn. intros [E|E]; [congruence|exact E].
  - cbn. auto.
  - cbn. intros [E|E]; [discriminate|exact E].
  - cbn. auto.
Qed.
Lemma release_step s r h s' : exited s = false -> pcs s r = PIdle -> pcs s h = PHeld -> step s (LRelease r h) = Ok s' ->
  In (ERelease h) (log s') /\ (In (EHold h) (log s) -> In (EHold h) (log s')) /\ ch s' = ch s /\ exited s' = false /\
  forall q, q <> r -> q <> h -> kept s s' q.
Proof.
  intros He Hr Hh H. unfold step in H. rewrite He, Hr, Hh in H. cbv zeta in H. destruct (cnt s - 1 <? 0)%Z; [discriminate|].
  match type of H with Ok ?a = _ => assert (E : s' = a) by congruence end. clear H. subst s'. cbn. repeat split; auto.
  - left. now apply fset_ne.
  - cbn. intros [E|E]; [discriminate|exact E].
  - cbn. auto.
  - cbn. intros [E|E]; [congruence|exact E].
  - cbn. auto.
Qed.
Lemma ch_step s l s' : step s l = Ok s' -> ch s = true -> ch s' = true.
Proof. intros H Hc. inv_step H. Qed.

(* ---- the invariant ---- *)
Definition vinv (t : st) (i : nat) (o : option srv) : Prop :=
  match o with
  | None => pcs t (hid i) = PIdle /\ pcs t (rid i) = PIdle /\ ~ In (ERelease (hid i)) (log t)
  | Some v =>
      match v_go v with
      | GStart => pcs t (hid i) = PIdle /\ pcs t (rid i) = PIdle /\ ~ In (ERelease (hid i)) (log t)
      | GHeld | GLoop | GAccept | GRet =>
          pcs t (hid i) = PHeld /\ pcs t (rid i) = PIdle /\ In (EHold (hid i)) (log t) /\ ~ In (ERelease (hid i)) (log t)
      | GOver => In (EHold (hid i)) (log t) /\ In (ERelease (hid i)) (log t)
      end /\
      (v_ret v = true -> v_ch v = true) /\
      (v_ch v = true <-> match v_go v with GAccept => True | GRet | GOver => v_ch v = true | _ => False end) /\
      (v_in v = true <-> v_sd v <> WNew) /\ (v_in v = true -> ch t = true) /\
      match v_go v with GRet | GOver => v_open v = false | _ => v_open v = false -> v_in v = true end
  end.
Definition pinv (s : pst) : Prop := forall i, vinv (sh s) i (srvs s i).
Lemma pinv_init : pinv pinit.
Proof. intros i. cbn. auto. Qed.
Lemma vinv_kept t t' i o : vinv t i o -> kept t t' (hid i) -> kept t t' (rid i) -> (ch t = true -> ch t' = true) -> vinv t' i o.
Proof.
  intros Hv (K1 & K2 & K3) (K4 & _ & _) Hc. destruct o as [v|]; cbn [vinv] in *.
  - destruct Hv as (A & H1 & H2 & H3 & H4 & H5). repeat (split; [tauto|]). split; [|tauto]. clear - A K1 K2 K3 K4.
    destruct (v_go v); rewrite ?K2, ?K3; try tauto; destruct K1 as [K1|(w & K1)], K4 as [K4|(w' & K4)]; destruct A as (A1 & A2 & A3);
      try congruence; rewrite ?K1, ?K4; tauto.
  - rewrite K3. destruct Hv as (A1 & A2 & A3). destruct K1 as [K1|(w & K1)], K4 as [K4|(w' & K4)]; try congruence; rewrite ?K1, ?K4; tauto.
Qed.
Ltac ok_inj H := match type of H with Ok ?a = Ok ?b => let E := fresh in assert (E : b = a) by congruence; clear H; subst b end.
Lemma set_inv s i v t : pinv s -> (forall j, j <> i -> kept (sh s) t (hid j) /\ kept (sh s) t (rid j)) -> (ch (sh s) = true -> ch t = true) ->
  vinv t i (Some v) -> pinv (set_srv (Pst t (srvs s)) i v).
Proof.
  intros Hp Hk Hc Hv j. cbn [sh srvs set_srv]. unfold fset. destruct (Nat.eqb_spec j i) as [->|Hj]; [exact Hv|].
  destruct (Hk j Hj). eapply vinv_kept; eauto.
Qed.
Lemma kept_refl s r : kept s s r.
Proof. unfold kept. tauto. Qed.
Lemma set_inv0 s i v : pinv s -> vinv (sh s) i (Some v) -> pinv (set_srv s i v).
Proof. intros Hp Hv. change (set_srv s i v) with (set_srv (Pst (sh s) (srvs s)) i v). apply set_inv; auto using kept_refl. Qed.
Lemma vinv_vstep t i v l : vinv t i (Some v) -> vinv t i (Some (vstep (ch t) v l)).
Proof.
  intros Hv. cbn [vinv] in Hv. destruct Hv as (A & H1 & H2 & H3 & H4 & H5).
  assert (N : vinv t i (Some v)) by (cbn [vinv]; auto 8).
  assert (C : forall x, vinv t i (Some (set_conns v x))) by (intros x; exact N).
  destruct l; cbn [vstep].
  - destruct (v_go v) eqn:G; try exact N. destruct (v_in v) eqn:Ei; cbn [vinv shut_ln go_to v_go v_ret v_ch v_in v_sd v_open]; rewrite ?Ei in *; tauto.
  - destruct (v_go v) eqn:G; try exact N. cbn [vinv v_go v_ret v_ch v_in v_sd v_open]. tauto.
  - destruct (v_go v) eqn:G; try exact N. destruct (v_open v) eqn:Ep; [apply C|exact N].
  - destruct (v_go v) eqn:G; try exact N. destruct (v_open v) eqn:Ep; [exact N|]. cbn [vinv go_to v_go v_ret v_ch v_in v_sd v_open]. rewrite Ep. tauto.
  - destruct (v_go v) eqn:G; try exact N. cbn [vinv shut_ln go_to v_go v_ret v_ch v_in v_sd v_open]. tauto.
  - destruct (v_ch v) eqn:Ec; [|exact N]. cbn [vinv v_go v_ret v_ch v_in v_sd v_open]. tauto.
  - destruct (v_sd v) eqn:Ew; try exact N. destruct (ch t) eqn:Ec; [|exact N]. cbn [vinv v_go v_ret v_ch v_in v_sd v_open].
    repeat (split; [tauto|]). split; [split; [intros _; discriminate|auto]|]. split; [auto|]. destruct (v_go v); tauto.
  - destruct (v_sd v) eqn:Ew; try exact N. assert (Hin : v_in v = true) by (apply H3; discriminate).
    destruct (v_go v) eqn:G; cbn [vinv shut_ln sd_to v_go v_ret v_ch v_in v_sd v_open]; rewrite ?G;
      (split; [exact A|]; split; [exact H1|]; split; [exact H2|]; split; [split; [intros _; discriminate|intros _; exact Hin]|]; split; [exact H4|]; auto).
  - destruct (v_go v) eqn:G, (v_sd v) eqn:Ew; try exact N; assert (Hin : v_in v = true) by (apply H3; discriminate);
      cbn [vinv sd_to v_go v_ret v_ch v_in v_sd v_open]; rewrite ?G;
      (split; [exact A|]; split; [exact H1|]; split; [exact H2|]; split; [split; [intros _; discriminate|intros _; exact Hin]|]; split; [exact H4|]; auto).
  - destruct (v_sd v) eqn:Ew; first [exact N|apply C].
  - destruct (v_sd v) eqn:Ew; try exact N. destruct (forallb _ _); [|exact N]. assert (Hin : v_in v = true) by (apply H3; discriminate).
    cbn [vinv sd_to v_go v_ret v_ch v_in v_sd v_open].
    split; [exact A|]; split; [exact H1|]; split; [exact H2|]; split; [split; [intros _; discriminate|intros _; exact Hin]|]; split; [exact H4|]; auto.
  - destruct (v_sd v) eqn:Ew; try exact N. assert (Hin : v_in v = true) by (apply H3; discriminate).
    cbn [vinv sd_to v_go v_ret v_ch v_in v_sd v_open].
    split; [exact A|]; split; [exact H1|]; split; [exact H2|]; split; [split; [intros _; discriminate|intros _; exact Hin]|]; split; [exact H4|]; auto.
  - destruct (nth_error (v_conns v) c) as [[]|]; first [exact N|apply C].
  - destruct (nth_error (v_conns v) c) as [[]|]; first [exact N|apply C].
Qed.
Lemma pinv_step s l s' : pinv s -> pstep s l = Ok s' -> pinv s'.
Proof.
  intros Hp H. unfold pstep in H. destruct (exited (sh s)) eqn:He; [ok_inj H; exact Hp|].
  destruct l as [l|i|i|i|i l].
  - destruct (outside l) eqn:Ho; [|ok_inj H; exact Hp]. destruct (step (sh s) l) as [t|] eqn:E; cbn in H; [|discriminate]. ok_inj H.
    intros i. cbn. eapply vinv_kept; [apply Hp| | |eapply ch_step; eauto]; eapply outside_kept; eauto using other_hid, other_rid.
  - destruct (srvs s i) as [v|] eqn:E; ok_inj H; [exact Hp|]. apply set_inv0; [exact Hp|]. specialize (Hp i). rewrite E in Hp. cbn in *.
    repeat split; try tauto; try discriminate; congruence.
  - destruct (srvs s i) as [v|] eqn:E; [|ok_inj H; exact Hp]. pose proof (Hp i) as Hv. rewrite E in Hv. cbn [vinv] in Hv.
    destruct (v_go v) eqn:G; try (ok_inj H; exact Hp).
    destruct (step (sh s) (LHold (hid i) false)) as [t|] eqn:Es; cbn [rbind] in H; [|discriminate]. ok_inj H.
    destruct Hv as ((A1 & A2 & A3) & B). destruct (hold_step _ _ _ He A1 Es) as (C1 & C2 & C3 & C4 & C5 & C6).
    apply set_inv; [exact Hp| | |].
    + intros j Hj. split; apply C6; [intros Q; apply hid_inj in Q; contradiction|intros Q; symmetry in Q; now apply hid_rid in Q].
    + congruence.
    + cbn [vinv go_to v_go v_ret v_ch v_in v_sd v_open]. rewrite C3, C4. destruct (C6 (rid i)) as ([K|(w & K)] & _); [intros Q; symmetry in Q; now apply hid_rid in Q| |congruence].
      rewrite K. tauto.
  - destruct (srvs s i) as [v|] eqn:E; [|ok_inj H; exact Hp]. pose proof (Hp i) as Hv. rewrite E in Hv. cbn [vinv] in Hv.
    destruct (v_go v) eqn:G; try (ok_inj H; exact Hp).
    destruct (step (sh s) (LRelease (rid i) (hid i))) as [t|] eqn:Es; cbn [rbind] in H; [|discriminate]. ok_inj H.
    destruct Hv as ((A1 & A2 & A3 & A4) & B). destruct (release_step _ _ _ _ He A2 A1 Es) as (C1 & C2 & C3 & C4 & C5).
    apply set_inv; [exact Hp| | |].
    + intros j Hj. split; apply C5; try (apply hid_rid); try (intros Q; apply hid_inj in Q; contradiction); try (intros Q; apply rid_inj in Q; contradiction).
      intros Q. symmetry in Q. now apply hid_rid in Q.
    + congruence.
    + cbn [vinv go_to v_go v_ret v_ch v_in v_sd v_open]. rewrite C3. tauto.
  - destruct (srvs s i) as [v|] eqn:E; ok_inj H; [|exact Hp]. apply set_inv0; [exact Hp|]. apply vinv_vstep. rewrite <- E. apply Hp.
Qed.
Lemma pinv_exec ls : forall s s', pinv s -> pexec s ls = Ok s' -> pinv s'.
Proof.
  induction ls as [|l ls IH]; intros s s' Hp H; cbn in H; [ok_inj H; exact Hp|].
  destruct (pstep s l) as [s1|] eqn:E; cbn in H; [|discriminate]. eapply IH; [|exact H]. eapply pinv_step; eauto.
Qed.
Lemma pinv_run ls s : pexec pinit ls = Ok s -> pinv s.
Proof. intros H. eapply pinv_exec; [apply pinv_init|exact H]. Qed.
(* the machine of shutdown in a run of the program *)
Lemma sh_step s l s' : pstep s l = Ok s' -> sh s' = sh s \/ exists l', step (sh s) l' = Ok (sh s').
Proof.
  unfold pstep. destruct (exited (sh s)); [intros H; ok_inj H; auto|].
  destruct l as [l|i|i|i|i l]; try (destruct (srvs s i) as [v|]; [|intros H; ok_inj H; auto]).
  - destruct (outside l); [|intros H; ok_inj H; auto]. destruct (step (sh s) l) eqn:E; cbn; intros H; [|discriminate]. ok_inj H. right. eauto.
  - intros H. ok_inj H. auto.
  - destruct (v_go v); try (intros H; ok_inj H; auto; fail). destruct (step (sh s) (LHold (hid i) false)) eqn:E; cbn [rbind]; intros H; [|discriminate].
    ok_inj H. right. eauto.
  - destruct (v_go v); try (intros H; ok_inj H; auto; fail). destruct (step (sh s) (LRelease (rid i) (hid i))) eqn:E; cbn [rbind]; intros H; [|discriminate].
    ok_inj H. right. eauto.
  - intros H. ok_inj H. auto.
Qed.
Lemma sh_exec ls : forall s s', pexec s ls = Ok s' -> exists ls', exec (sh s) ls' = Ok (sh s').
Proof.
  induction ls as [|l ls IH]; intros s s' H; cbn in H; [exists []; cbn; congruence|].
  destruct (pstep s l) as [s1|] eqn:E; cbn in H; [|discriminate]. destruct (IH _ _ H) as (ls' & E').
  destruct (sh_step _ _ _ E) as [Eq|(l' & El)]; [exists ls'; congruence|]. exists (l' :: ls'). cbn. rewrite El. exact E'.
Qed.
Lemma sh_run ls s : pexec pinit ls = Ok s -> exists ls', exec init ls' = Ok (sh s).
Proof. apply sh_exec. Qed.
Lemma pexec_app a : forall b s, pexec s (a ++ b) = rbind (pexec s a) (fun s1 => pexec s1 b).
Proof. induction a as [|l a IH]; intros b s; cbn; [reflexivity|]. destruct (pstep s l); cbn; auto. Qed.
(* what becomes of a server in a step *)
Lemma next_step s l s' i v : pstep s l = Ok s' -> srvs s i = Some v ->
  exists v', srvs s' i = Some v' /\
    (v' = v \/ (l = VHold i /\ v_go v = GStart /\ v' = go_to v GHeld) \/ (l = VRel i /\ v_go v = GRet /\ v' = go_to v GOver) \/
     exists x, l = V i x /\ v' = vstep (ch (sh s)) v x).
Proof.
  unfold pstep. intros H Hv. destruct (exited (sh s)); [ok_inj H; eauto|].
  destruct l as [l|j|j|j|j l]; try (destruct (Nat.eq_dec i j) as [<-|Hij]; [rewrite Hv in H|destruct (srvs s j) as [w|]; [|ok_inj H; eauto]]);
    try (ok_inj H; eauto; fail).
  - destruct (outside l); [|ok_inj H; eauto]. destruct (step (sh s) l); cbn in H; [|discriminate]. ok_inj H. eauto.
  - cbn. rewrite fset_ne by assumption. eauto.
  - destruct (v_go v) eqn:G; try (ok_inj H; eauto; fail). destruct (step (sh s) _); cbn [rbind] in H; [|discriminate]. ok_inj H. cbn. rewrite fset_eq. eauto 8.
  - destruct (v_go w) eqn:G; try (ok_inj H; eauto; fail). destruct (step (sh s) _); cbn [rbind] in H; [|discriminate]. ok_inj H. cbn. rewrite fset_ne by assumption. eauto.
  - destruct (v_go v) eqn:G; try (ok_inj H; eauto; fail). destruct (step (sh s) _); cbn [rbind] in H; [|discriminate]. ok_inj H. cbn. rewrite fset_eq. eauto 8.
  - destruct (v_go w) eqn:G; try (ok_inj H; eauto; fail). destruct (step (sh s) _); cbn [rbind] in H; [|discriminate]. ok_inj H. cbn. rewrite fset_ne by assumption. eauto.
  - ok_inj H. cbn. rewrite fset_eq. eauto 8.
  - ok_inj H. cbn. rewrite fset_ne by assumption. eauto.
Qed.
(* a property of a server that its steps keep, or those that are ok, holds in all later states *)
Lemma keeps (P : srv -> Prop) (ok : vlabel -> Prop) i : (forall b v x, ok x -> P v -> P (vstep b v x)) ->
  (forall v, v_go v = GStart -> P v -> P (go_to v GHeld)) -> (forall v, v_go v = GRet -> P v -> P (go_to v GOver)) ->
  forall ls s s' v, pexec s ls = Ok s' -> (forall x, In (V i x) ls -> ok x) -> srvs s i = Some v -> P v -> exists v', srvs s' i = Some v' /\ P v'.
Proof.
  intros H1 H2 H3. induction ls as [|l ls IH]; intros s s' v H Hk Hv Hp; cbn in H; [ok_inj H; eauto|].
  destruct (pstep s l) as [s1|] eqn:E; cbn in H; [|discriminate]. assert (Hk' : forall x, In (V i x) ls -> ok x) by (intros; apply Hk; right; assumption).
  destruct (next_step _ _ _ _ _ E Hv) as (v1 & Hv1 & [->|[(_ & G & ->)|[(_ & G & ->)|(x & -> & ->)]]]); eapply IH; eauto.
  apply H1; [|exact Hp]. apply Hk. left. reflexivity.
Qed.
Lemma fresh_step s l s' i v : pstep s l = Ok s' -> srvs s i = None -> srvs s' i = Some v -> v = Srv GStart WNew false false false true [].
Proof.
  unfold pstep. intros H Hn Hv. destruct (exited (sh s)); [ok_inj H; congruence|].
  destruct l as [l|j|j|j|j l]; try (destruct (Nat.eq_dec i j) as [<-|Hij]; [rewrite Hn in H; ok_inj H|]).
  - destruct (outside l); [|ok_inj H; congruence]. destruct (step (sh s) l); cbn in H; [|discriminate]. ok_inj H. cbn in Hv. congruence.
  - cbn in Hv. rewrite fset_eq in Hv. congruence.
  - destruct (srvs s j); ok_inj H; [congruence|]. cbn in Hv. rewrite fset_ne in Hv by assumption. congruence.
  - congruence.
  - destruct (srvs s j) as [w|]; [|ok_inj H; congruence]. destruct (v_go w); try (ok_inj H; congruence).
    destruct (step (sh s) _); cbn [rbind] in H; [|discriminate]. ok_inj H. cbn in Hv. rewrite fset_ne in Hv by assumption. congruence.
  - congruence.
  - destruct (srvs s j) as [w|]; [|ok_inj H; congruence]. destruct (v_go w); try (ok_inj H; congruence).
    destruct (step (sh s) _); cbn [rbind] in H; [|discriminate]. ok_inj H. cbn in Hv. rewrite fset_ne in Hv by assumption. congruence.
  - congruence.
  - destruct (srvs s j) as [w|]; [|ok_inj H; congruence]. ok_inj H. cbn in Hv. rewrite fset_ne in Hv by assumption. congruence.
Qed.
Lemma always (P : srv -> Prop) (ok : vlabel -> Prop) i : (forall b v x, ok x -> P v -> P (vstep b v x)) ->
  (forall v, v_go v = GStart -> P v -> P (go_to v GHeld)) -> (forall v, v_go v = GRet -> P v -> P (go_to v GOver)) ->
  P (Srv GStart WNew false false false true []) ->
  forall ls s s' v, srvs s i = None -> pexec s ls = Ok s' -> (forall x, In (V i x) ls -> ok x) -> srvs s' i = Some v -> P v.
Proof.
  intros H1 H2 H3 H0. induction ls as [|l ls IH]; intros s s' v Hn H Hk Hv; cbn in H; [ok_inj H; congruence|].
  destruct (pstep s l) as [s1|] eqn:E; cbn in H; [|discriminate]. assert (Hk' : forall x, In (V i x) ls -> ok x) by (intros; apply Hk; right; assumption).
  destruct (srvs s1 i) as [v1|] eqn:E1; [|eapply IH; eauto]. pose proof (fresh_step _ _ _ _ _ E Hn E1) as ->.
  destruct (keeps P ok i H1 H2 H3 _ _ _ _ H Hk' E1 H0) as (v' & Hv' & Hp). congruence.
Qed.

(* ---- one server ---- *)
Ltac vcase v l :=
  destruct v as [go0 sd0 ch0 ret0 in0 op0 cs0]; destruct l; cbn;
  repeat match goal with
  | |- context [match ?x with _ => _ end] => is_var x; destruct x; cbn
  | |- context [match nth_error ?a ?b with _ => _ end] => destruct (nth_error a b) as [[]|] eqn:?; cbn
  | |- context [if forallb ?f ?a then _ else _] => destruct (forallb f a); cbn
  end.
(* it has never been told to accept, and will not be *)
Definition stuck (v : srv) : Prop :=
  v_ch v = false /\ v_ret v = false /\ v_in v = true /\ match v_go v with GStart | GHeld | GRet | GOver => True | _ => False end.
Lemma stuck_step b v l : stuck v -> stuck (vstep b v l).
Proof. unfold stuck. vcase v l; intuition congruence. Qed.
(* what its two goroutines know of each other *)
Definition agree (v : srv) : Prop :=
  (v_in v = true <-> v_sd v <> WNew) /\
  match v_go v with
  | GLoop | GAccept => match v_sd v with WNew | WIn => True | _ => v_open v = false end
  | GRet | GOver => v_ch v = true \/ v_in v = true
  | _ => True
  end /\
  match v_go v with GAccept => v_ch v = true | _ => True end.
Lemma agree_step b v l : agree v -> agree (vstep b v l).
Proof. unfold agree. vcase v l; intuition (try congruence; try discriminate). Qed.
(* if Accept does not fail by itself, Serve ends only for the shutdown *)
Definition healthy (v : srv) : Prop :=
  (v_open v = false -> v_in v = true) /\ match v_go v with GRet | GOver => v_in v = true | _ => True end /\
  (v_sd v <> WNew -> v_in v = true).
Lemma healthy_step b v l : l <> VFailL -> healthy v -> healthy (vstep b v l).
Proof. unfold healthy. vcase v l; intuition (try congruence; try discriminate). Qed.
Lemma stuck_exec ls s s' i v : pexec s ls = Ok s' -> srvs s i = Some v -> stuck v -> exists v', srvs s' i = Some v' /\ stuck v'.
Proof.
  intros H. eapply (keeps stuck (fun _ => True)); eauto using stuck_step; unfold stuck; intros w G; rewrite G; cbn; tauto.
Qed.
Lemma agree_run ls s i v : pexec pinit ls = Ok s -> srvs s i = Some v -> agree v.
Proof.
  intros H. eapply (always agree (fun _ => True)); eauto using agree_step; unfold agree; try (intros w G; rewrite G; cbn; tauto); cbn; intuition congruence.
Qed.
Lemma healthy_run ls s i v : pexec pinit ls = Ok s -> sound_listener ls -> srvs s i = Some v -> healthy v.
Proof.
  intros H Hs. eapply (always healthy (fun x => x <> VFailL)); eauto using healthy_step; unfold healthy;
    try (intros w G; rewrite G; cbn; tauto); cbn; try (intuition congruence). intros x Hx ->. exact (Hs i Hx).
Qed.
Lemma ret_exec ls s s' i v : pexec s ls = Ok s' -> srvs s i = Some v -> v_ret v = true -> exists v', srvs s' i = Some v' /\ v_ret v' = true.
Proof.
  intros H. eapply (keeps (fun v => v_ret v = true) (fun _ => True)); eauto. intros b w x _. vcase w x; auto.
Qed.
Lemma open_exec ls s s' i v n : pexec s ls = Ok s' -> srvs s i = Some v -> v_open v = false /\ length (v_conns v) = n ->
  exists v', srvs s' i = Some v' /\ v_open v' = false /\ length (v_conns v') = n.
Proof.
  assert (Lu : forall c x l, length (upd c x l) = length l) by (induction c; intros x [|y l]; cbn; auto).
  assert (Li : forall old l k, length (close_idle k old l) = length l) by (induction l; intros k; cbn; auto).
  intros H. eapply (keeps (fun v => v_open v = false /\ length (v_conns v) = n) (fun _ => True)); eauto.
  intros b w x _. vcase w x; rewrite ?Lu, ?Li; intuition congruence.
Qed.
Lemma upd_other c d x l : c <> d -> nth_error (upd c x l) d = nth_error l d.
Proof. revert d l; induction c; intros [|d] [|y l] H; cbn; auto; congruence. Qed.
Lemma upd_active c d l : nth_error l d = Some CActive -> nth_error (upd c CActive l) d = Some CActive.
Proof. revert d l; induction c; intros [|d] [|y l] H; cbn in *; auto; try discriminate. Qed.
Lemma idle_active old l : forall k d, nth_error l d = Some CActive -> nth_error (close_idle k old l) d = Some CActive.
Proof. induction l; intros k [|d] H; cbn in *; try discriminate; auto. inversion H. reflexivity. Qed.
Lemma active_exec ls s s' i v c : pexec s ls = Ok s' -> ~ In (V i (VAnswer c)) ls -> srvs s i = Some v ->
  nth_error (v_conns v) c = Some CActive -> exists v', srvs s' i = Some v' /\ nth_error (v_conns v') c = Some CActive.
Proof.
  intros H Hn. eapply (keeps (fun v => nth_error (v_conns v) c = Some CActive) (fun x => x <> VAnswer c)); eauto; [|congruence].
  intros b w x Hx. vcase w x; intros Ha; auto using upd_active, idle_active; try (rewrite nth_error_app1; [exact Ha|apply nth_error_Some; congruence]).
  all: rewrite upd_other; [exact Ha|intros ->; apply Hx; reflexivity].
Qed.
(* ---- the end of Shutdown ---- *)
Lemma closed_upd c x l d : nth_error l d = Some CClosed -> nth_error l c <> Some CClosed -> nth_error (upd c x l) d = Some CClosed.
Proof. intros H Hc. destruct (Nat.eq_dec c d) as [->|E]; [contradiction|]. rewrite upd_other by exact E. exact H. Qed.
Lemma closed_idle old l : forall k d, nth_error l d = Some CClosed -> nth_error (close_idle k old l) d = Some CClosed.
Proof. induction l; intros k [|d] H; cbn in *; try discriminate; auto. inversion H. reflexivity. Qed.
Lemma gone_exec ls s s' i v c : pexec s ls = Ok s' -> srvs s i = Some v -> nth_error (v_conns v) c = Some CClosed ->
  exists v', srvs s' i = Some v' /\ nth_error (v_conns v') c = Some CClosed.
Proof.
  intros H. eapply (keeps (fun v => nth_error (v_conns v) c = Some CClosed) (fun _ => True)); eauto.
  intros b w x _. vcase w x; intros Ha; auto using closed_idle; try (rewrite nth_error_app1; [exact Ha|apply nth_error_Some; congruence]);
    apply closed_upd; congruence.
Qed.
Lemma forall_closed l : forallb (fun x => match x with CClosed => true | _ => false end) l = true -> Forall (eq CClosed) l.
Proof. induction l as [|x l IH]; cbn; intros H; constructor; apply andb_true_iff in H as [H1 H2]; auto. destruct x; auto; discriminate. Qed.
Lemma all_closed_nth l c x : Forall (eq CClosed) l -> nth_error l c = Some x -> x = CClosed.
Proof. intros F H. rewrite Forall_forall in F. symmetry. apply F. eapply nth_error_In; eauto. Qed.
Lemma all_closed_idle old l : forall k, Forall (eq CClosed) l -> Forall (eq CClosed) (close_idle k old l).
Proof. induction l; intros k F; cbn; [constructor|]. inversion F; subst. constructor; auto. Qed.
Definition ended (v : srv) : Prop :=
  (v_sd v <> WNew -> v_in v = true) /\
  (match v_go v with
   | GLoop | GAccept => match v_sd v with WNew | WIn => True | WWait => v_open v = false | _ => False end
   | _ => True
   end).
Lemma ended_step b v l : ended v -> ended (vstep b v l).
Proof. unfold ended. vcase v l; intuition (try congruence; try discriminate). Qed.
Lemma ended_run ls s i v : pexec pinit ls = Ok s -> srvs s i = Some v -> ended v.
Proof.
  intros H. eapply (always ended (fun _ => True)); eauto using ended_step; unfold ended; try (intros w G; rewrite G; cbn; tauto); cbn; intuition congruence.
Qed.
Definition swept (v : srv) : Prop := ended v /\ (v_sd v = WOver -> Forall (eq CClosed) (v_conns v)).
Lemma swept_step b v l : l <> VTimeout -> swept v -> swept (vstep b v l).
Proof.
  unfold swept. intros Hl (He & Hs). split; [apply ended_step, He|]. unfold ended in He.
  destruct v as [go0 sd0 ch0 ret0 in0 op0 cs0]; destruct l; cbn in *; try congruence.
  - destruct go0; [exact Hs| |exact Hs|exact Hs|exact Hs|exact Hs]. destruct in0; exact Hs.
  - destruct go0; exact Hs.
  - destruct go0; try exact Hs. destruct op0; [|exact Hs]. cbn. intros ->. destruct He as (_ & []).
  - destruct go0; try exact Hs. destruct op0; exact Hs.
  - destruct go0; exact Hs.
  - destruct ch0; exact Hs.
  - destruct sd0; try exact Hs. destruct b; [discriminate|exact Hs].
  - destruct sd0; try exact Hs. destruct go0; discriminate.
  - destruct go0, sd0; try exact Hs; discriminate.
  - destruct sd0; try exact Hs. discriminate.
  - destruct sd0; try exact Hs. destruct (forallb _ cs0) eqn:E; cbn; [|discriminate]. intros _. apply forall_closed, E.
  - destruct (nth_error cs0 c) as [[]|] eqn:E; try exact Hs; intros W; specialize (Hs W); pose proof (all_closed_nth _ _ _ Hs E); discriminate.
  - destruct (nth_error cs0 c) as [[]|] eqn:E; try exact Hs; intros W; specialize (Hs W); pose proof (all_closed_nth _ _ _ Hs E); discriminate.
Qed.
Lemma swept_run ls s i v : pexec pinit ls = Ok s -> in_time i ls -> srvs s i = Some v -> swept v.
Proof.
  intros H Hs. refine (always swept (fun x => x <> VTimeout) i swept_step _ _ _ ls pinit s v eq_refl H _).
  - unfold swept, ended. intros w G. rewrite G. cbn. tauto.
  - unfold swept, ended. intros w G. rewrite G. cbn. tauto.
  - unfold swept, ended. cbn. intuition congruence.
  - intros x Hx ->. exact (Hs Hx).
Qed.
Lemma upd_nth c x l y : nth_error l c = Some y -> nth_error (upd c x l) c = Some x.
Proof. revert l; induction c; intros [|z l] H; cbn in *; try discriminate; auto. Qed.
Lemma new_idle old l : forall k d, nth_error l d = Some CNew -> old (k + d) = false -> nth_error (close_idle k old l) d = Some CNew.
Proof.
  induction l; intros k [|d] H Ho; cbn in *; try discriminate.
  - inversion H; subst. rewrite Nat.add_0_r in Ho. rewrite Ho. reflexivity.
  - apply IHl; [exact H|]. rewrite <- Ho. f_equal. lia.
Qed.
Lemma new_exec ls s s' i v c : pexec s ls = Ok s' -> (forall x, In (V i x) ls -> x <> VRequest c /\ forall old, x = VPoll old -> old c = false) ->
  srvs s i = Some v -> nth_error (v_conns v) c = Some CNew -> exists v', srvs s' i = Some v' /\ nth_error (v_conns v') c = Some CNew.
Proof.
  intros H Hn. eapply (keeps (fun v => nth_error (v_conns v) c = Some CNew) (fun x => x <> VRequest c /\ forall old, x = VPoll old -> old c = false)); eauto.
  intros b w x (Hx & Hp). vcase w x; intros Ha; auto; try (rewrite nth_error_app1; [exact Ha|apply nth_error_Some; congruence]);
    try (rewrite upd_other; [exact Ha|]; congruence).
  apply new_idle; [exact Ha|]. apply Hp. reflexivity.
Qed.
Lemma idle_idle old l : forall k d, nth_error l d = Some CIdle -> nth_error (close_idle k old l) d = Some CClosed.
Proof. induction l; intros k [|d] H; cbn in *; try discriminate; auto. inversion H. reflexivity. Qed.
