(* C154: slow clients. *)
From Coq Require Import Bool Arith Lia List.
From Verif Require Import SwModel SwSpec.
Import ListNotations.

Section Sw.
  Context (cap frame : nat).
  Notation steps := (steps cap frame).
  Notation step := (step cap frame).
  (* who has a lock is writing, and the other way round *)
  Definition locks (w : world) : Prop := forall c,
    (forall h, locked (conns w c) = Some h <-> exists n, ph (gos w h) = Put c n) /\ (forall h, closing (conns w c) = Some h <-> exists n, ph (gos w h) = CPut c n).
  Ltac eqs := cbn [conns gos with_conn with_go goes returns cancelled ph todo results locked closing unread closed].
  Ltac eqs_in H := cbn [conns gos with_conn with_go goes returns cancelled ph todo results locked closing unread closed] in H.
  Lemma locks_step x w w' : locks w -> step x w w' -> locks w'.
  Proof.
    intros L S0 c. destruct (L c) as [L1 L2].
    destruct S0 as [i w k n r Hp Ht|i w k n Hp Hl|i w k n Hp Hc Hu|i w k n Hp Hc|i w k Hp|i w k r Hp Ht|i w k Hp Hl|i w k n Hp Hc Hu|i w k n Hp Hc|i w k Hp|w k n Hu|w]; eqs;
      try (assert (Hk : forall h m, ph (gos w h) = Put k m -> locked (conns w k) = Some h) by (intros h m H; apply (proj1 (L k)); eauto));
      try (assert (Hk2 : forall h m, ph (gos w h) = CPut k m -> closing (conns w k) = Some h) by (intros h m H; apply (proj2 (L k)); eauto)).
    all: split; intros h; [specialize (L1 h)|specialize (L2 h)].
    all: try (destruct (Nat.eqb_spec h i) as [->|Hi]); try (destruct (Nat.eqb_spec c k) as [->|Hc0]); eqs; try tauto.
    all: try (rewrite Hp in * ).
    all: try solve [split; [intros E|intros [m E]]; try congruence; try (injection E as <-; congruence); eauto; try (apply L1 in E as [m E]; congruence); try (apply L2 in E as [m E]; congruence)].
    all: split; [intros E|intros [m E]]; try discriminate E; try (injection E; intros; subst); eauto; try congruence.
    all: first [pose proof (Hk _ _ E) as Q1; congruence | pose proof (Hk2 _ _ E) as Q1; congruence | pose proof (Hk _ _ E) as Q1; pose proof (Hk _ _ Hp) as Q2; congruence | pose proof (Hk2 _ _ E) as Q1; pose proof (Hk2 _ _ Hp) as Q2; congruence].
  Qed.
  Lemma locks_steps may w w' : locks w -> steps may w w' -> locks w'.
  Proof. intros L A. induction A as [w|w1 w2 w3 x A IH M S0]; [exact L|]. exact (locks_step _ _ _ (IH L) S0). Qed.
  Lemma locks_start acts : locks (start acts).
  Proof. intros c. split; intros h; split; [discriminate|intros [n E]; discriminate E|discriminate|intros [n E]; discriminate E]. Qed.

  (* ---- a client that does not read ---- *)
  Definition waits (c j : nat) (w : world) : Prop := sending (ph (gos w j)) c \/ ending (ph (gos w j)) c.
  Lemma stuck_step c i x w w' : 0 < frame -> locks w -> full cap w c -> locked (conns w c) = Some i -> sending (ph (gos w i)) c -> but_client c x -> step x w w' ->
    full cap w' c /\ locked (conns w' c) = Some i /\ ph (gos w' i) = ph (gos w i) /\
    forall j, (sending (ph (gos w j)) c -> gos w' j = gos w j) /\ (ending (ph (gos w j)) c -> ending (ph (gos w' j)) c /\ results (gos w' j) = results (gos w j)).
  Proof.
    intros Hf L (F1 & F2 & F3) Hl Hs Hx S0. destruct (L c) as [L1 L2]. unfold full. assert (P : exists n0, ph (gos w i) = Put c (S n0)).
    { destruct (proj1 (L1 i) Hl) as [n0 E]. rewrite E in Hs. destruct n0 as [|n0]; [destruct Hs|eauto]. }
    destruct P as [n0 P].
    destruct S0 as [k w d n r Hp Ht|k w d n Hp Hd|k w d n Hp Hc Hu|k w d n Hp Hc|k w d Hp|k w d r Hp Ht|k w d Hp Hd|k w d n Hp Hc Hu|k w d n Hp Hc|k w d Hp|w d n Hu|w]; eqs.
    all: try (assert (Hki : i <> k) by (intros ->; congruence)).
    all: try (destruct (Nat.eqb_spec c d) as [->|Hcd]; eqs); try (exfalso; lia); try congruence.
    all: try (destruct (Nat.eqb_spec i k) as [->|Hik]; [try congruence|]; eqs).
    all: try (exfalso; apply (F3 k); congruence).
    all: try (exfalso; apply Hki; assert (Q : locked (conns w d) = Some k) by (apply L1; eauto); congruence).
    all: try (exfalso; apply Hx; reflexivity).
    all: split; [split; [|split]|split; [|split]]; eqs; auto.
    all: try solve [intros j; destruct (Nat.eqb_spec j k) as [->|Hj]; eqs; [discriminate|apply F3]].
    all: try solve [intros j; destruct (Nat.eqb_spec j k) as [->|Hj]; eqs; [|split; auto]; rewrite Hp; cbn; split; try tauto; intros; subst; try congruence; split; auto; try congruence].
    all: destruct frame as [|fr]; [lia|].
    all: intros j; destruct (Nat.eqb_spec j k) as [->|Hj]; eqs; try congruence; try apply F3; try (split; auto; fail).
    rewrite Hp. cbn. split; [tauto|auto].
  Qed.
  Lemma stuck c i (may : who -> Prop) w w' : 0 < frame -> (forall x, may x -> but_client c x) -> locks w -> full cap w c -> locked (conns w c) = Some i -> sending (ph (gos w i)) c -> steps may w w' ->
    full cap w' c /\ locked (conns w' c) = Some i /\ ph (gos w' i) = ph (gos w i) /\
    forall j, (sending (ph (gos w j)) c -> gos w' j = gos w j) /\ (ending (ph (gos w j)) c -> ending (ph (gos w' j)) c /\ results (gos w' j) = results (gos w j)).
  Proof.
    intros Hf Hm L F Hl Hs A. induction A as [w|w1 w2 w3 x A IH M S0]; [auto 6|]. destruct (IH L F Hl Hs) as (I1 & I2 & I3 & I4). assert (Hs2 : sending (ph (gos w2 i)) c) by (rewrite I3; exact Hs).
    destruct (stuck_step c i x w2 w3 Hf (locks_steps _ _ _ L A) I1 I2 Hs2 (Hm x M) S0) as (J1 & J2 & J3 & J4). split; [exact J1|]. split; [exact J2|]. split; [congruence|]. intros j. destruct (I4 j) as [K1 K2]. destruct (J4 j) as [M1 M2]. split.
    - intros H. specialize (K1 H). rewrite <- K1. apply M1. now rewrite K1.
    - intros H. destruct (K2 H) as [K3 K4]. destruct (M2 K3) as [M3 M4]. split; [exact M3|congruence].
  Qed.

  (* ---- clients that read ---- *)
  Lemma steps_trans may a b c : steps may a b -> steps may b c -> steps may a c.
  Proof. intros A1 A2. revert A1. induction A2 as [w|w1 w2 w3 x A IH M S0]; intros A1; [exact A1|]. exact (more _ _ _ _ _ _ x (IH A1) M S0). Qed.
  Lemma one (may : who -> Prop) x a b : may x -> step x a b -> steps may a b.
  Proof. intros M S0. exact (more _ _ _ _ _ _ x (none _ _ _ _) M S0). Qed.
  Definition elsewhere (c i : nat) (w w' : world) : Prop := (forall k, k <> c -> conns w' k = conns w k) /\ forall k, k <> i -> gos w' k = gos w k.
  Lemma room (may : who -> Prop) c : may (ByClient c) -> forall u w, unread (conns w c) = u -> exists w', steps may w w' /\ gos w' = gos w /\ (forall k, k <> c -> conns w' k = conns w k) /\
    conns w' c = Conn 0 (locked (conns w c)) (closing (conns w c)) (closed (conns w c)).
  Proof.
    intros M. induction u as [|u IH]; intros w Hu.
    - exists w. split; [apply none|]. split; [reflexivity|]. split; [reflexivity|]. destruct (conns w c); cbn in *. now subst.
    - set (w1 := with_conn w c (Conn u (locked (conns w c)) (closing (conns w c)) (closed (conns w c)))).
      assert (A1 : steps may w w1) by (apply (one _ _ _ _ M), s_read, Hu). destruct (IH w1) as (w' & B1 & B2 & B3 & B4); [unfold w1; eqs; now rewrite Nat.eqb_refl|].
      exists w'. split; [exact (steps_trans _ _ _ _ A1 B1)|]. split; [exact B2|]. split.
      + intros k Hk. rewrite B3 by exact Hk. unfold w1. eqs. destruct (Nat.eqb_spec k c); [contradiction|reflexivity].
      + rewrite B4. unfold w1. eqs. now rewrite Nat.eqb_refl.
  Qed.
  Lemma finish_send (may : who -> Prop) c i : 0 < cap -> may (ByClient c) -> may (ByGo i) -> forall n w, ph (gos w i) = Put c n ->
    exists w' b, steps may w w' /\ elsewhere c i w w' /\ gos w' i = Go Idle (todo (gos w i)) (results (gos w i) ++ [b]) /\ locked (conns w' c) = None /\ closed (conns w' c) = closed (conns w c) /\
      (closed (conns w c) = false -> b = true).
  Proof.
    intros Hcap M1 M2. induction n as [|n IH]; intros w Hp.
    - set (w1 := returns (with_conn w c (Conn (unread (conns w c)) None (closing (conns w c)) (closed (conns w c)))) i true). exists w1, true. split; [apply (one _ _ _ _ M2), s_sent, Hp|]. unfold w1, elsewhere. eqs. rewrite !Nat.eqb_refl. split; [split; intros k Hk; destruct (Nat.eqb_spec k c); destruct (Nat.eqb_spec k i); congruence|]. auto.
    - destruct (closed (conns w c)) eqn:Ec.
      + set (w1 := returns (with_conn w c (Conn (unread (conns w c)) None (closing (conns w c)) true)) i false). exists w1, false. split; [apply (one _ _ _ _ M2), (s_fail _ _ _ _ _ n); assumption|]. unfold w1, elsewhere. eqs. rewrite !Nat.eqb_refl. split; [split; intros k Hk; destruct (Nat.eqb_spec k c); destruct (Nat.eqb_spec k i); congruence|]. repeat split; auto; discriminate.
      + destruct (room may c M1 _ w eq_refl) as (w0 & A0 & G0 & C0 & C1).
        set (w1 := goes (with_conn w0 c (Conn (S (unread (conns w0 c))) (locked (conns w0 c)) (closing (conns w0 c)) false)) i (Put c n)).
        assert (A1 : steps may w w1). { apply (steps_trans _ _ _ _ A0), (one _ _ _ _ M2), s_put; rewrite ?G0, ?C1; cbn [unread closed]; auto. }
        destruct (IH w1) as (w' & b & B1 & B2 & B3 & B4 & B5 & B6); [unfold w1; eqs; now rewrite Nat.eqb_refl|]. exists w', b. split; [exact (steps_trans _ _ _ _ A1 B1)|]. destruct B2 as [B2 B2']. split; [|split; [|split; [|split]]].
        * split; intros k Hk; [rewrite B2 by exact Hk; unfold w1; eqs; destruct (Nat.eqb_spec k c); [contradiction|now apply C0]|rewrite B2' by exact Hk; unfold w1; eqs; destruct (Nat.eqb_spec k i); [contradiction|now rewrite G0]].
        * rewrite B3. unfold w1. eqs. rewrite Nat.eqb_refl. eqs. now rewrite G0.
        * exact B4.
        * rewrite B5. unfold w1. eqs. now rewrite Nat.eqb_refl.
        * intros _. apply B6. unfold w1. eqs. now rewrite Nat.eqb_refl.
  Qed.
  Lemma finish_close (may : who -> Prop) c i : 0 < cap -> may (ByClient c) -> may (ByGo i) -> forall n w, ph (gos w i) = CPut c n ->
    exists w' b, steps may w w' /\ elsewhere c i w w' /\ gos w' i = Go Idle (todo (gos w i)) (results (gos w i) ++ [b]) /\ closing (conns w' c) = None /\ closed (conns w' c) = true.
  Proof.
    intros Hcap M1 M2. induction n as [|n IH]; intros w Hp.
    - set (w1 := returns (with_conn w c (Conn (unread (conns w c)) (locked (conns w c)) None true)) i true). exists w1, true. split; [apply (one _ _ _ _ M2), s_closed, Hp|]. unfold w1, elsewhere. eqs. rewrite !Nat.eqb_refl. split; [split; intros k Hk; destruct (Nat.eqb_spec k c); destruct (Nat.eqb_spec k i); congruence|]. auto.
    - destruct (closed (conns w c)) eqn:Ec.
      + set (w1 := returns (with_conn w c (Conn (unread (conns w c)) (locked (conns w c)) None true)) i false). exists w1, false. split; [apply (one _ _ _ _ M2), (s_cfail _ _ _ _ _ n); assumption|]. unfold w1, elsewhere. eqs. rewrite !Nat.eqb_refl. split; [split; intros k Hk; destruct (Nat.eqb_spec k c); destruct (Nat.eqb_spec k i); congruence|]. auto.
      + destruct (room may c M1 _ w eq_refl) as (w0 & A0 & G0 & C0 & C1).
        set (w1 := goes (with_conn w0 c (Conn (S (unread (conns w0 c))) (locked (conns w0 c)) (closing (conns w0 c)) false)) i (CPut c n)).
        assert (A1 : steps may w w1). { apply (steps_trans _ _ _ _ A0), (one _ _ _ _ M2), s_cput; rewrite ?G0, ?C1; cbn [unread closed]; auto. }
        destruct (IH w1) as (w' & b & B1 & B2 & B3 & B4 & B5); [unfold w1; eqs; now rewrite Nat.eqb_refl|]. exists w', b. split; [exact (steps_trans _ _ _ _ A1 B1)|]. destruct B2 as [B2 B2']. split; [|split; [|split]].
        * split; intros k Hk; [rewrite B2 by exact Hk; unfold w1; eqs; destruct (Nat.eqb_spec k c); [contradiction|now apply C0]|rewrite B2' by exact Hk; unfold w1; eqs; destruct (Nat.eqb_spec k i); [contradiction|now rewrite G0]].
        * rewrite B3. unfold w1. eqs. rewrite Nat.eqb_refl. eqs. now rewrite G0.
        * exact B4.
        * exact B5.
  Qed.
End Sw.

(* While a client does not read and its way is full, no Send to it that is under way returns, nor does any Close of its connection,
   whatever else happens, also when the context is done. *)
Theorem C154_refuted : forall (cap frame : nat) (acts : nat -> list act) (w w' : world) (c i n : nat), 0 < frame ->
  steps cap frame anybody (start acts) w -> full cap w c -> ph (gos w i) = Put c (S n) -> steps cap frame (but_client c) w w' ->
  ph (gos w' i) = Put c (S n) /\ forall j, sending (ph (gos w j)) c \/ ending (ph (gos w j)) c -> results (gos w' j) = results (gos w j) /\ ph (gos w' j) <> Idle.
Proof.
  intros cap frame acts w w' c i n Hf R F Hp A. pose proof (locks_steps cap frame _ _ _ (locks_start acts) R) as L.
  assert (Hl : locked (conns w c) = Some i) by (apply (proj1 (L c)); eauto). assert (Hs : sending (ph (gos w i)) c) by now rewrite Hp.
  destruct (stuck cap frame c i (but_client c) w w' Hf (fun x H => H) L F Hl Hs A) as (_ & _ & J3 & J4). split; [congruence|]. intros j [H|H].
  - rewrite (proj1 (J4 j) H). split; [reflexivity|]. intros E. rewrite E in H. destruct H.
  - destruct (proj2 (J4 j) H) as [E1 E2]. split; [exact E2|]. intros E. rewrite E in E1. destruct E1.
Qed.
(* That comes about with every message that is longer than what fits on the way, without anything else. *)
Lemma fill_up cap frame : forall k n w, ph (gos w 0) = Put 0 (k + n) -> closed (conns w 0) = false -> unread (conns w 0) + k <= cap ->
  exists w', steps cap frame (fun x => x = ByGo 0) w w' /\ ph (gos w' 0) = Put 0 n /\ unread (conns w' 0) = unread (conns w 0) + k /\ closed (conns w' 0) = false /\ (forall j, j <> 0 -> gos w' j = gos w j).
Proof.
  induction k as [|k IH]; intros n w Hp Hc Hu.
  - exists w. split; [apply none|]. rewrite Nat.add_0_r. auto.
  - set (w1 := goes (with_conn w 0 (Conn (S (unread (conns w 0))) (locked (conns w 0)) (closing (conns w 0)) false)) 0 (Put 0 (k + n))).
    assert (A1 : steps cap frame (fun x => x = ByGo 0) w w1) by (apply (one cap frame _ (ByGo 0)); [reflexivity|]; apply s_put; [exact Hp|exact Hc|lia]).
    destruct (IH n w1) as (w' & B1 & B2 & B3 & B4 & B5); [reflexivity|reflexivity|cbn; lia|]. exists w'. split; [exact (steps_trans cap frame _ _ _ _ A1 B1)|]. split; [exact B2|]. split; [rewrite B3; cbn; lia|]. split; [exact B4|]. intros j Hj. rewrite B5 by exact Hj. cbn. destruct (Nat.eqb_spec j 0); [contradiction|reflexivity].
Qed.
Theorem C154_full : forall (cap frame n : nat) (acts : nat -> list act) (r : list act), cap < n -> acts 0 = Send 0 n :: r ->
  exists w m, steps cap frame (fun x => x = ByGo 0) (start acts) w /\ full cap w 0 /\ ph (gos w 0) = Put 0 (S m).
Proof.
  intros cap frame n acts r Hn Ha. set (w0 := start acts). set (w1 := with_go w0 0 (Go (Wait 0 n) r (results (gos w0 0)))).
  assert (A1 : steps cap frame (fun x => x = ByGo 0) w0 w1) by (apply (one cap frame _ (ByGo 0)); [reflexivity|]; apply s_send; [reflexivity|exact Ha]).
  set (w2 := goes (with_conn w1 0 (Conn (unread (conns w1 0)) (Some 0) (closing (conns w1 0)) (closed (conns w1 0)))) 0 (Put 0 n)).
  assert (A2 : steps cap frame (fun x => x = ByGo 0) w1 w2) by (apply (one cap frame _ (ByGo 0)); [reflexivity|]; apply s_lock; reflexivity).
  destruct (fill_up cap frame cap (S (n - cap - 1)) w2) as (w' & B1 & B2 & B3 & B4 & B5); [cbn; f_equal; lia|reflexivity|cbn; lia|].
  exists w', (n - cap - 1). split; [exact (steps_trans cap frame _ _ _ _ A1 (steps_trans cap frame _ _ _ _ A2 B1))|]. split; [|exact B2]. split; [rewrite B3; reflexivity|]. split; [exact B4|]. intros j. destruct (Nat.eq_dec j 0) as [->|Hj]; [congruence|]. rewrite B5 by exact Hj. cbn. destruct (Nat.eqb_spec j 0); [contradiction|]. cbn. discriminate.
Qed.

(* If the client reads on, a Send that is under way can return, with nil unless the connection was closed; a Close can return, and the connection is closed then.
   That takes no step of anybody but that client, the caller, and the one who has the lock; whatever other clients do. *)
Theorem C154_partial : forall (cap frame : nat) (acts : nat -> list act) (w : world) (c i : nat), 0 < cap -> steps cap frame anybody (start acts) w ->
  (sending (ph (gos w i)) c -> exists w' b, steps cap frame (these c i (locked (conns w c))) w w' /\ results (gos w' i) = results (gos w i) ++ [b] /\ ph (gos w' i) = Idle /\
     (closed (conns w c) = false -> b = true) /\ forall k, k <> c -> conns w' k = conns w k) /\
  (ending (ph (gos w i)) c -> exists w' b, steps cap frame (these c i (closing (conns w c))) w w' /\ results (gos w' i) = results (gos w i) ++ [b] /\ ph (gos w' i) = Idle /\
     closed (conns w' c) = true /\ forall k, k <> c -> conns w' k = conns w k).
Proof.
  intros cap frame acts w c i Hcap R. pose proof (locks_steps cap frame _ _ _ (locks_start acts) R) as L. split.
  - intros Hs. set (may := these c i (locked (conns w c))). assert (M1 : may (ByClient c)) by (left; reflexivity). assert (M2 : may (ByGo i)) by (right; left; reflexivity).
    destruct (ph (gos w i)) as [|d n|d n|d|d n] eqn:Hp; cbn in Hs; try contradiction.
    + subst d.
      assert (Free : exists w0, steps cap frame may w w0 /\ gos w0 i = gos w i /\ locked (conns w0 c) = None /\ closed (conns w0 c) = closed (conns w c) /\ forall k, k <> c -> conns w0 k = conns w k).
      { destruct (locked (conns w c)) as [h|] eqn:El; [|exists w; split; [apply none|auto]]. destruct (proj1 (proj1 (L c) h) El) as [m Hh]. assert (M3 : may (ByGo h)) by (right; right; exists h; unfold may; auto).
        destruct (finish_send cap frame may c h Hcap M1 M3 m w Hh) as (w0 & b & B1 & (B2 & B2') & B3 & B4 & B5 & _). exists w0. split; [exact B1|]. split; [apply B2'; intros ->; congruence|auto]. }
      destruct Free as (w0 & A0 & G0 & Hl & Hc & Ho).
      set (w1 := goes (with_conn w0 c (Conn (unread (conns w0 c)) (Some i) (closing (conns w0 c)) (closed (conns w0 c)))) i (Put c n)).
      assert (A1 : steps cap frame may w0 w1) by (apply (one cap frame may (ByGo i) _ _ M2); apply s_lock; [now rewrite G0|exact Hl]).
      destruct (finish_send cap frame may c i Hcap M1 M2 n w1) as (w' & b & B1 & (B2 & B2') & B3 & B4 & B5 & B6); [cbn; now rewrite Nat.eqb_refl|].
      exists w', b. split; [exact (steps_trans _ _ _ _ _ _ A0 (steps_trans _ _ _ _ _ _ A1 B1))|]. rewrite B3. cbn. rewrite Nat.eqb_refl. cbn. rewrite G0. split; [reflexivity|]. split; [reflexivity|]. split.
      * intros E. apply B6. cbn. rewrite Nat.eqb_refl. cbn. congruence.
      * intros k Hk. rewrite B2 by exact Hk. cbn. destruct (Nat.eqb_spec k c); [contradiction|now apply Ho].
    + destruct n as [|n]; [contradiction|]. subst d. destruct (finish_send cap frame may c i Hcap M1 M2 (S n) w Hp) as (w' & b & B1 & (B2 & B2') & B3 & B4 & B5 & B6). exists w', b. rewrite B3. auto.
  - intros Hs. set (may := these c i (closing (conns w c))). assert (M1 : may (ByClient c)) by (left; reflexivity). assert (M2 : may (ByGo i)) by (right; left; reflexivity).
    destruct (ph (gos w i)) as [|d n|d n|d|d n] eqn:Hp; cbn in Hs; try contradiction.
    + subst d.
      assert (Free : exists w0, steps cap frame may w w0 /\ gos w0 i = gos w i /\ closing (conns w0 c) = None /\ forall k, k <> c -> conns w0 k = conns w k).
      { destruct (closing (conns w c)) as [h|] eqn:El; [|exists w; split; [apply none|auto]]. destruct (proj1 (proj2 (L c) h) El) as [m Hh]. assert (M3 : may (ByGo h)) by (right; right; exists h; unfold may; auto).
        destruct (finish_close cap frame may c h Hcap M1 M3 m w Hh) as (w0 & b & B1 & (B2 & B2') & B3 & B4 & B5). exists w0. split; [exact B1|]. split; [apply B2'; intros ->; congruence|auto]. }
      destruct Free as (w0 & A0 & G0 & Hl & Ho).
      set (w1 := goes (with_conn w0 c (Conn (unread (conns w0 c)) (locked (conns w0 c)) (Some i) (closed (conns w0 c)))) i (CPut c frame)).
      assert (A1 : steps cap frame may w0 w1) by (apply (one cap frame may (ByGo i) _ _ M2); apply s_clock; [now rewrite G0|exact Hl]).
      destruct (finish_close cap frame may c i Hcap M1 M2 frame w1) as (w' & b & B1 & (B2 & B2') & B3 & B4 & B5); [cbn; now rewrite Nat.eqb_refl|].
      exists w', b. split; [exact (steps_trans _ _ _ _ _ _ A0 (steps_trans _ _ _ _ _ _ A1 B1))|]. rewrite B3. cbn. rewrite Nat.eqb_refl. cbn. rewrite G0. split; [reflexivity|]. split; [reflexivity|]. split; [exact B5|].
      intros k Hk. rewrite B2 by exact Hk. cbn. destruct (Nat.eqb_spec k c); [contradiction|now apply Ho].
    + destruct n as [|n]; [contradiction|]. subst d. destruct (finish_close cap frame may c i Hcap M1 M2 (S n) w Hp) as (w' & b & B1 & (B2 & B2') & B3 & B4 & B5). exists w', b. rewrite B3. auto.
Qed.

(* A message of 5 bytes to a client that reads nothing, with 3 on the way: the goroutine that sends it, and then closes the connection, stands. *)
Definition ex_acts (i : nat) : list act := match i with 0 => [Send 0 5; Close 0] | 1 => [Send 0 1] | _ => [] end.
Example C154_ex : 3 < 5 /\ ex_acts 0 = Send 0 5 :: [Close 0] /\
  exists w m, steps 3 4 anybody (start ex_acts) w /\ full 3 w 0 /\ ph (gos w 0) = Put 0 (S m) /\ sending (ph (gos w 0)) 0.
Proof.
  split; [lia|]. split; [reflexivity|]. destruct (C154_full 3 4 5 ex_acts [Close 0] ltac:(lia) eq_refl) as (w & m & A & F & P). exists w, m. split; [|split; [exact F|split; [exact P|now rewrite P]]].
  clear -A. induction A as [w|w1 w2 w3 x A IH M S0]; [apply none|]. exact (more _ _ _ _ _ _ x IH Logic.I S0).
Qed.

Print Assumptions C154_refuted.
Print Assumptions C154_full.
Print Assumptions C154_partial.
Print Assumptions C154_ex.
