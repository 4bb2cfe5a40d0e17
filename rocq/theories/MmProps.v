(* Theorems about MetricsMutex (C140). *)
From Coq Require Import Bool Arith NArith List Lia.
From Verif Require Import MmModel MmSpec.
Import ListNotations.

Definition owns (p : pc) : bool := match p with L3 _ _ | L4 _ _ | L5 _ _ | L6 | Held | U1 | U2 _ | U3 _ _ => true | _ => false end.
(* where g is fits what was observed of it and the fields *)
Definition fits (lk : N) (hd : nat) (nw : N) (p : pc) (h : list event) : Prop :=
  match p with
  | Idle => history Out h
  | L1 site => exists t0, history (Enter site t0) h /\ (t0 <= nw)%N
  | L2 site t | L3 site t => exists t0, history (Enter site t0) h /\ (t0 <= t <= nw)%N
  | L4 site t => exists t0, history (Enter site t0) h /\ (t0 <= t <= lk)%N /\ (lk <= nw)%N
  | L5 site t => hd = site /\ exists t0, history (Enter site t0) h /\ (t0 <= t <= lk)%N /\ (lk <= nw)%N
  | L6 => exists t0 w, history (Entered hd t0 w) h /\ (t0 + w <= lk <= nw)%N
  | Held => exists t0 w t1, history (Inside hd t0 w t1) h /\ (t0 + w <= lk <= t1)%N /\ (t1 <= nw)%N
  | U1 => exists t0 w t1 t2, history (Leave hd t0 w t1 t2) h /\ (t0 + w <= lk <= t1)%N /\ (t1 <= t2 <= nw)%N
  | U2 dt => exists t0 w t1 t2, history (Leave hd t0 w t1 t2) h /\ (t2 <= t1 + dt /\ t0 + w + dt <= nw)%N
  | U3 dt site | U4 dt site => exists t0 w t1 t2, history (Leave site t0 w t1 t2) h /\ (t2 <= t1 + dt /\ t0 + w + dt <= nw)%N
  | U5 => exists site t0 w t1 t2 dt, history (Left site t0 w t1 t2 dt) h /\ (t0 + w + dt <= nw)%N
  end.
(* others may change the fields only if they own the mutex *)
Lemma fits_other lk hd lk' hd' nw p h : owns p = false -> fits lk hd nw p h -> fits lk' hd' nw p h.
Proof. destruct p; cbn; intros; try discriminate; auto. Qed.
Lemma fits_time lk hd nw nw' p h : (nw <= nw')%N -> fits lk hd nw p h -> fits lk hd nw' p h.
Proof.
  intros Hn. destruct p; cbn; intros H; auto; repeat match goal with H : exists _, _ |- _ => destruct H | H : _ /\ _ |- _ => destruct H end; repeat (split; auto); repeat eexists; eauto; lia.
Qed.
Record good (s : st) : Prop := {
  g_fits : forall g, fits (lock s) (holder s) (now s) (loc s g) (own g (tr s));
  g_one : forall g g', owns (loc s g) = true -> owns (loc s g') = true -> g = g';
  g_locked : locked s = true <-> exists g, owns (loc s g) = true }.
Lemma own_cons g x e tr : own g ((x, e) :: tr) = if Nat.eqb x g then e :: own g tr else own g tr.
Proof. unfold own. cbn [filter fst]. destruct (Nat.eqb x g); reflexivity. Qed.
Lemma goto_same l g p : goto l g p g = p.
Proof. unfold goto. now rewrite Nat.eqb_refl. Qed.
Lemma goto_other l g p x : x <> g -> goto l g p x = l x.
Proof. intros H. unfold goto. apply Nat.eqb_neq in H. now rewrite H. Qed.
(* a step of g that keeps who owns the mutex *)
Lemma good_move s g p lk hd e : good s -> owns p = owns (loc s g) -> (owns p = false -> lk = lock s /\ hd = holder s) ->
  fits lk hd (now s) p (own g (match e with Some e => (g, e) :: tr s | None => tr s end)) ->
  good (St (locked s) lk hd (now s) (goto (loc s) g p) (match e with Some e => (g, e) :: tr s | None => tr s end)).
Proof.
  intros [F O L] Ho Hk Hf.
  assert (E : forall x, owns (goto (loc s) g p x) = owns (loc s x)) by (intros x; destruct (Nat.eq_dec x g) as [->|N]; [now rewrite goto_same|now rewrite goto_other]).
  split; cbn [locked lock holder now loc tr].
  - intros x. destruct (Nat.eq_dec x g) as [->|N]; [now rewrite goto_same|]. rewrite goto_other by auto.
    assert (Et : own x (match e with Some e => (g, e) :: tr s | None => tr s end) = own x (tr s)) by (destruct e; auto; rewrite own_cons; apply Nat.neq_sym, Nat.eqb_neq in N; now rewrite N).
    rewrite Et. destruct (owns p) eqn:Ep.
    + apply (fits_other (lock s) (holder s)); auto. destruct (owns (loc s x)) eqn:Ex; auto. destruct N. apply O; congruence.
    + destruct Hk as (-> & ->); auto.
  - intros x y. rewrite !E. apply O.
  - rewrite L. split; intros (x & Hx); exists x; rewrite E in *; auto.
Qed.
Lemma good_step s s' : good s -> step s s' -> good s'.
Proof.
  intros G H. pose proof G as [F O L]. destruct H as [s t Ht|g site s E|g h s E|g h t0 s E El|g h t0 s E|g h t0 s E|g h t0 s E|g s E|g s E|g s E|g dt s E|g dt h s E|g dt h s E|g s E].
  - split; cbn [locked lock holder now loc tr]; auto. intros g. eapply fits_time; eauto.
  - apply (good_move s g (L1 site) (lock s) (holder s) (Some (ECall site (now s))) G); [rewrite E; reflexivity|auto|]. rewrite own_cons, Nat.eqb_refl. specialize (F g). rewrite E in F. exists (now s). split; [now constructor|lia].
  - apply (good_move s g (L2 h (now s)) (lock s) (holder s) None G); [rewrite E; reflexivity|auto|]. specialize (F g). rewrite E in F. destruct F as (t0 & F & Ft). exists t0. split; auto. lia.
  - assert (No : forall x, owns (loc s x) = false) by (intros x; destruct (owns (loc s x)) eqn:Ex; auto; assert (Q : locked s = true) by (apply L; eauto); congruence).
    split; cbn [locked lock holder now loc tr].
    + intros x. destruct (Nat.eq_dec x g) as [->|N]; [rewrite goto_same; specialize (F g); rewrite E in F; exact F|rewrite goto_other; auto].
    + intros x y Hx Hy. destruct (Nat.eq_dec x g) as [->|N]; [|rewrite goto_other, No in Hx by auto; discriminate]. destruct (Nat.eq_dec y g) as [->|N]; [auto|rewrite goto_other, No in Hy by auto; discriminate].
    + split; auto. intros _. exists g. now rewrite goto_same.
  - apply (good_move s g (L4 h t0) (now s) (holder s) None G); [rewrite E; reflexivity|discriminate|]. specialize (F g). rewrite E in F. destruct F as (t & F & Ft). exists t. repeat split; auto; lia.
  - apply (good_move s g (L5 h t0) (lock s) h None G); [rewrite E; reflexivity|discriminate|]. specialize (F g). rewrite E in F. destruct F as (t & F & Ft). split; auto. exists t. repeat split; auto; lia.
  - apply (good_move s g L6 (lock s) (holder s) (Some (ELogL (lock s - t0) h)) G); [rewrite E; reflexivity|auto|]. rewrite own_cons, Nat.eqb_refl. specialize (F g). rewrite E in F. destruct F as (-> & t & F & Ft). exists t, (lock s - t0)%N. split; [now constructor|lia].
  - apply (good_move s g Held (lock s) (holder s) (Some (ERet (now s))) G); [rewrite E; reflexivity|auto|]. rewrite own_cons, Nat.eqb_refl. specialize (F g). rewrite E in F. destruct F as (t & w & F & Ft). exists t, w, (now s). split; [constructor; auto; lia|lia].
  - apply (good_move s g U1 (lock s) (holder s) (Some (EUCall (now s))) G); [rewrite E; reflexivity|auto|]. rewrite own_cons, Nat.eqb_refl. specialize (F g). rewrite E in F. destruct F as (t & w & t1 & F & Ft & Ft'). exists t, w, t1, (now s). split; [constructor; auto; lia|lia].
  - apply (good_move s g (U2 (now s - lock s)) (lock s) (holder s) None G); [rewrite E; reflexivity|auto|]. specialize (F g). rewrite E in F. destruct F as (t & w & t1 & t2 & F & Ft & Ft'). exists t, w, t1, t2. split; auto. lia.
  - apply (good_move s g (U3 dt (holder s)) (lock s) (holder s) None G); [rewrite E; reflexivity|auto|]. specialize (F g). rewrite E in F. exact F.
  - assert (No : forall x, x <> g -> owns (loc s x) = false) by (intros x N; destruct (owns (loc s x)) eqn:Ex; auto; destruct N; apply O; auto; now rewrite E).
    split; cbn [locked lock holder now loc tr].
    + intros x. destruct (Nat.eq_dec x g) as [->|N]; [rewrite goto_same; specialize (F g); rewrite E in F; exact F|rewrite goto_other; auto].
    + intros x y Hx. destruct (Nat.eq_dec x g) as [->|N]; [rewrite goto_same in Hx; discriminate|rewrite goto_other, No in Hx by auto; discriminate].
    + split; [discriminate|]. intros (x & Hx). destruct (Nat.eq_dec x g) as [->|N]; [rewrite goto_same in Hx; discriminate|rewrite goto_other, No in Hx by auto; discriminate].
  - apply (good_move s g U5 (lock s) (holder s) (Some (ELogU dt h)) G); [rewrite E; reflexivity|auto|]. rewrite own_cons, Nat.eqb_refl. specialize (F g). rewrite E in F. destruct F as (t & w & t1 & t2 & F & Ft). exists h, t, w, t1, t2, dt. split; [constructor; auto; lia|lia].
  - apply (good_move s g Idle (lock s) (holder s) (Some (EURet (now s))) G); [rewrite E; reflexivity|auto|]. rewrite own_cons, Nat.eqb_refl. specialize (F g). rewrite E in F. destruct F as (h & t & w & t1 & t2 & dt & F & Ft). econstructor; eauto.
Qed.
Lemma good_start : good start.
Proof. split; cbn; [constructor|discriminate|]. split; [discriminate|]. intros (g & [=]). Qed.
Lemma good_all s s' : good s -> steps s s' -> good s'.
Proof. intros G H. induction H as [|s s1 s2 H IH Hs]; auto. apply (good_step s1 s2); auto. Qed.
Lemma inside_held s g : good s -> inside g (tr s) <-> loc s g = Held.
Proof.
  intros [F _ _]. specialize (F g). split.
  - intros (t & h & E). rewrite E in F. destruct (loc s g); cbn in F; auto; repeat match goal with H : exists _, _ |- _ => destruct H | H : _ /\ _ |- _ => destruct H end; match goal with H : history _ (ERet _ :: _) |- _ => inversion H end.
  - intros E. rewrite E in F. destruct F as (t0 & w & t1 & F & _). inversion F. unfold inside. eauto.
Qed.

(* At most one goroutine is between its Lock and its Unlock. *)
Theorem C140_exclusive : forall s g g', steps start s -> inside g (tr s) -> inside g' (tr s) -> g = g'.
Proof.
  intros s g g' H Hi Hi'. pose proof (good_all _ _ good_start H) as G. apply (inside_held s g G) in Hi. apply (inside_held s g' G) in Hi'. apply G; [now rewrite Hi|now rewrite Hi'].
Qed.
(* Every line that is logged is about the call that logs it: its site, its wait, the time for which it had the lock. *)
Theorem C140_logged : forall s g, steps start s -> exists p, history p (own g (tr s)).
Proof.
  intros s g H. pose proof (good_all _ _ good_start H) as [F _ _]. specialize (F g). destruct (loc s g); cbn in F; repeat match goal with H : exists _, _ |- _ => destruct H | H : _ /\ _ |- _ => destruct H end; eauto.
Qed.

Lemma steps_trans a b c : steps a b -> steps b c -> steps a c.
Proof. intros H H'. induction H' as [|s s1 s2 H' IH Hs]; auto. apply (steps_more a s1 s2); auto. Qed.
Lemma one a b : step a b -> steps a b.
Proof. intros H. econstructor; [constructor|exact H]. Qed.
(* the next step of g *)
Definition run (g : nat) (s : st) : st :=
  let go p := St (locked s) (lock s) (holder s) (now s) (goto (loc s) g p) (tr s) in
  match loc s g with
  | Idle => St (locked s) (lock s) (holder s) (now s) (goto (loc s) g (L1 g)) ((g, ECall g (now s)) :: tr s)
  | L1 h => go (L2 h (now s))
  | L2 h t0 => if locked s then s else St true (lock s) (holder s) (now s) (goto (loc s) g (L3 h t0)) (tr s)
  | L3 h t0 => St (locked s) (now s) (holder s) (now s) (goto (loc s) g (L4 h t0)) (tr s)
  | L4 h t0 => St (locked s) (lock s) h (now s) (goto (loc s) g (L5 h t0)) (tr s)
  | L5 h t0 => St (locked s) (lock s) (holder s) (now s) (goto (loc s) g L6) ((g, ELogL (lock s - t0) h) :: tr s)
  | L6 => St (locked s) (lock s) (holder s) (now s) (goto (loc s) g Held) ((g, ERet (now s)) :: tr s)
  | Held => St (locked s) (lock s) (holder s) (now s) (goto (loc s) g U1) ((g, EUCall (now s)) :: tr s)
  | U1 => go (U2 (now s - lock s))
  | U2 dt => go (U3 dt (holder s))
  | U3 dt h => St false (lock s) (holder s) (now s) (goto (loc s) g (U4 dt h)) (tr s)
  | U4 dt h => St (locked s) (lock s) (holder s) (now s) (goto (loc s) g U5) ((g, ELogU dt h) :: tr s)
  | U5 => St (locked s) (lock s) (holder s) (now s) (goto (loc s) g Idle) ((g, EURet (now s)) :: tr s)
  end.
Lemma run_steps g s : steps s (run g s).
Proof.
  unfold run. destruct (loc s g) eqn:E; try (apply one; econstructor; eassumption). destruct (locked s) eqn:El; [constructor|apply one; econstructor; eassumption].
Qed.
Lemma run_other g s x : x <> g -> loc (run g s) x = loc s x.
Proof. intros H. unfold run. destruct (loc s g); try (cbn; now apply goto_other). destruct (locked s); [reflexivity|cbn; now apply goto_other]. Qed.
Lemma steps_run g s s' : steps s s' -> steps s (run g s').
Proof. intros H. eapply steps_trans; [exact H|apply run_steps]. Qed.
Definition enters (p : pc) : bool := match p with L3 _ _ | L4 _ _ | L5 _ _ | L6 | Held => true | _ => false end.
Lemma at_l6 s g : loc s g = L6 -> loc (run g s) g = Held.
Proof. intros E. unfold run. rewrite E. apply goto_same. Qed.
Lemma at_l5 s g h t0 : loc s g = L5 h t0 -> loc (run g s) g = L6.
Proof. intros E. unfold run. rewrite E. apply goto_same. Qed.
Lemma at_l4 s g h t0 : loc s g = L4 h t0 -> loc (run g s) g = L5 h t0.
Proof. intros E. unfold run. rewrite E. apply goto_same. Qed.
Lemma at_l3 s g h t0 : loc s g = L3 h t0 -> loc (run g s) g = L4 h t0.
Proof. intros E. unfold run. rewrite E. apply goto_same. Qed.
Lemma run_enter s g : enters (loc s g) = true -> exists s', steps s s' /\ loc s' g = Held.
Proof.
  intros H. destruct (loc s g) as [|h|h t0|h t0|h t0|h t0| | | |dt|dt h|dt h|] eqn:E; try discriminate.
  - exists (run g (run g (run g (run g s)))). split; [repeat apply steps_run; constructor|]. eauto using at_l3, at_l4, at_l5, at_l6.
  - exists (run g (run g (run g s))). split; [repeat apply steps_run; constructor|]. eauto using at_l3, at_l4, at_l5, at_l6.
  - exists (run g (run g s)). split; [repeat apply steps_run; constructor|]. eauto using at_l3, at_l4, at_l5, at_l6.
  - exists (run g s). split; [repeat apply steps_run; constructor|]. eauto using at_l3, at_l4, at_l5, at_l6.
  - exists s. split; [constructor|auto].
Qed.
Lemma run_l2 s g h t0 : loc s g = L2 h t0 -> locked s = false -> exists s', steps s s' /\ loc s' g = Held.
Proof.
  intros E El. destruct (run_enter (run g s) g) as (s' & H & H'); [unfold run; rewrite E, El; cbn [loc]; now rewrite goto_same|]. exists s'. split; auto. eapply steps_trans; [apply run_steps|exact H].
Qed.
Lemma at_u3 s g dt h : loc s g = U3 dt h -> locked (run g s) = false.
Proof. intros E. unfold run. now rewrite E. Qed.
Lemma at_u2 s g dt : loc s g = U2 dt -> loc (run g s) g = U3 dt (holder s).
Proof. intros E. unfold run. rewrite E. apply goto_same. Qed.
Lemma at_u1 s g : loc s g = U1 -> loc (run g s) g = U2 (now s - lock s).
Proof. intros E. unfold run. rewrite E. apply goto_same. Qed.
Lemma run_leave s g : owns (loc s g) = true -> enters (loc s g) = false -> exists s', steps s s' /\ locked s' = false /\ forall x, x <> g -> loc s' x = loc s x.
Proof.
  intros H H'. destruct (loc s g) as [|h|h t0|h t0|h t0|h t0| | | |dt|dt h|dt h|] eqn:E; try discriminate.
  - exists (run g (run g (run g s))). split; [repeat apply steps_run; constructor|]. split; [eauto using at_u1, at_u2, at_u3|]. intros x Hx. now rewrite !run_other by auto.
  - exists (run g (run g s)). split; [repeat apply steps_run; constructor|]. split; [eauto using at_u1, at_u2, at_u3|]. intros x Hx. now rewrite !run_other by auto.
  - exists (run g s). split; [repeat apply steps_run; constructor|]. split; [eauto using at_u1, at_u2, at_u3|]. intros x Hx. now rewrite !run_other by auto.
Qed.
(* While a goroutine waits in Lock, one of them has the lock or gets it by the steps of Lock and Unlock alone: without a call of Unlock
   by who is inside. *)
Theorem C140_progress : forall s g, steps start s -> waiting g (tr s) -> exists g' s', steps s s' /\ inside g' (tr s').
Proof.
  intros s g H (site & t & h & Hw). pose proof (good_all _ _ good_start H) as G.
  assert (Fin : forall g' s', steps s s' -> loc s' g' = Held -> exists g' s', steps s s' /\ inside g' (tr s')).
  { intros g' s' Hs Hh. exists g', s'. split; auto. apply inside_held; auto. eapply good_all; eauto. }
  assert (Hl : exists s0, steps s s0 /\ (enters (loc s0 g) = true \/ exists site t0, loc s0 g = L2 site t0)).
  { pose proof (g_fits s G g) as F. rewrite Hw in F. destruct (loc s g) as [|x|x t0|x t0|x t0|x t0| | | |dt|dt x|dt x|] eqn:E; cbn in F; repeat match goal with H : exists _, _ |- _ => destruct H | H : _ /\ _ |- _ => destruct H end;
      try match goal with H : history _ (ECall _ _ :: _) |- _ => now inversion H end.
    - eexists. split; [apply one, (read_t0 g x s E)|]. right. exists x, (now s). apply goto_same.
    - exists s. split; [constructor|]. right. eauto.
    - exists s. split; [constructor|]. left. now rewrite E.
    - exists s. split; [constructor|]. left. now rewrite E.
    - exists s. split; [constructor|]. left. now rewrite E. }
  destruct Hl as (s0 & H0 & [Hl|(x & t0 & Hl)]); [destruct (run_enter s0 g Hl) as (s1 & H1 & E1); eapply Fin; [eapply steps_trans; eauto|eauto]|].
  pose proof (good_all _ _ G H0) as G0. destruct (locked s0) eqn:El; [|destruct (run_l2 s0 g x t0 Hl El) as (s1 & H1 & E1); eapply Fin; [eapply steps_trans; eauto|eauto]].
  apply (g_locked s0 G0) in El as (o & Ho). destruct (enters (loc s0 o)) eqn:Ee; [destruct (run_enter s0 o Ee) as (s1 & H1 & E1); eapply Fin; [eapply steps_trans; eauto|eauto]|].
  destruct (run_leave s0 o Ho Ee) as (s1 & H1 & E1 & Ex). assert (Ne : g <> o) by (intros ->; rewrite Hl in Ho; discriminate). rewrite <- (Ex g Ne) in Hl.
  destruct (run_l2 s1 g x t0 Hl E1) as (s2 & H2 & E2). eapply Fin; [eapply steps_trans; [exact H0|eapply steps_trans; eauto]|eauto].
Qed.

(* Goroutine 1 has the lock from 3 on and unlocks it at 7 while 2 waits; 2 gets it then. *)
Definition wait_for (d : N) (s : st) : st := St (locked s) (lock s) (holder s) (now s + d) (loc s) (tr s).
Definition script : list (st -> st) := [run 1; run 1; run 1; wait_for 3; run 1; run 1; run 1; run 1; run 2; run 2; run 2; wait_for 4; run 1; run 1; run 1; run 1; run 2; run 2; run 2; run 2; run 2; run 1; run 1].
Definition all (l : list (st -> st)) (s : st) : st := fold_left (fun s f => f s) l s.
Lemma all_steps l : Forall (fun f => forall s, steps s (f s)) l -> forall s, steps s (all l s).
Proof. intros H. induction H as [|f l Hf _ IH]; intros s; [constructor|]. eapply steps_trans; [apply Hf|apply IH]. Qed.
Definition an_end : st := all script start.
Example C140_ex : steps start an_end /\ own 1 (tr an_end) = [EURet 7; ELogU 4 1; EUCall 7; ERet 3; ELogL 3 1; ECall 1 0] /\ own 2 (tr an_end) = [ERet 7; ELogL 4 2; ECall 2 3] /\ inside 2 (tr an_end).
Proof.
  assert (W : forall d s, steps s (wait_for d s)) by (intros d s; apply one, tick; lia).
  split; [|split; [vm_compute; reflexivity|split; [vm_compute; reflexivity|]]].
  - apply all_steps. unfold script. repeat apply Forall_cons; try apply Forall_nil; first [exact (run_steps 1)|exact (run_steps 2)|apply W].
  - exists 7%N, [ELogL 4 2; ECall 2 3]. vm_compute. reflexivity.
Qed.
Print Assumptions C140_exclusive.
Print Assumptions C140_logged.
Print Assumptions C140_progress.
