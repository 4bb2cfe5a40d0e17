(* Proofs about TryLock. *)
From Coq Require Import Bool Arith Lia List.
From Verif Require Import Prelude ReqModel LockModel LockSpec.
Import ListNotations.

Lemma fset_eq {A} (f : nat -> A) i x : fset f i x i = x.
Proof. unfold fset. rewrite Nat.eqb_refl. reflexivity. Qed.
Lemma fset_ne {A} (f : nat -> A) i x j : j <> i -> fset f i x j = f j.
Proof. intros H. unfold fset. apply Nat.eqb_neq in H. rewrite H. reflexivity. Qed.

Inductive who := WC (p : nat) | WH (k : nat).
Definition has (s : st) (w : who) : Prop :=
  match w with WC p => caller s p = CHold | WH k => helper s k = HHave \/ helper s k = HDrop end.

Record inv (s : st) : Prop := {
  i_free : locked s = false -> forall w, ~ has s w;
  i_held : locked s = true -> exists w, has s w /\ forall w', has s w' -> w' = w;
  i_try : forall p k, caller s p = CTry k -> closed s k = false /\ (helper s k = HWant \/ helper s k = HHave);
  i_inj : forall p q k, caller s p = CTry k -> caller s q = CTry k -> p = q;
  i_own : forall k, helper s k = HWant \/ helper s k = HHave -> closed s k = true \/ exists p, caller s p = CTry k;
  i_drop : forall k, helper s k = HDrop -> closed s k = true;
  i_none : forall k, helper s k = HNone -> closed s k = false;
  i_log : forall p, owner (log s) = Some p <-> caller s p = CHold;
  i_excl : exclusive (log s) }.

Lemma inv_init : inv init.
Proof.
  constructor; cbn; try tauto; try discriminate; try (intros; intuition discriminate).
  intros _ [p|k]; cbn; intuition discriminate.
Qed.

Ltac fc := repeat match goal with
  | |- context [fset ?f ?i ?x ?j] =>
      let H := fresh "n" in destruct (Nat.eq_dec j i) as [->|H]; [rewrite ?fset_eq in *|rewrite ?(fset_ne _ _ _ _ H) in *]
  | H0 : context [fset ?f ?i ?x ?j] |- _ =>
      let H := fresh "n" in destruct (Nat.eq_dec j i) as [->|H]; [rewrite ?fset_eq in *|rewrite ?(fset_ne _ _ _ _ H) in *]
  end.
Lemma inv_step s l s' : inv s -> step s l = Ok s' -> inv s'.
Proof.
  intros I H. pose proof I as I0. destruct I as [F Hd T J O D N L E]. destruct l; cbn in H.
  - destruct (caller s p) eqn:Cp; try (injection H as <-; assumption).
    destruct (locked s) eqn:Lk; injection H as <-; [assumption|]. specialize (F eq_refl).
    constructor; cbn; auto; try discriminate.
    + intros _. exists (WC p). split; [cbn; apply fset_eq|]. intros [q|k]; cbn; intros Hh.
      * fc; [reflexivity|]. destruct (F (WC q)); exact Hh.
      * destruct (F (WH k)); exact Hh.
    + intros q k Hq. fc; [discriminate|]. eauto.
    + intros q r k Hq Hr. fc; try discriminate. eauto.
    + intros k Hk. destruct (O k Hk) as [|[q Hq]]; [auto|]. right. exists q. fc; congruence.
    + intros q. fc; [tauto|]. split; [congruence|]. intros Hq. destruct (F (WC q)). exact Hq.
    + split; [|exact E]. destruct (owner (log s)) as [q|] eqn:Ow; [|reflexivity]. destruct (F (WC q)). apply L. reflexivity.
  - destruct (caller s p) eqn:Cp; try (injection H as <-; assumption).
    destruct (locked s) eqn:Lk; [|discriminate]; injection H as <-.
    destruct (Hd eq_refl) as (w & Hw & U). pose proof (U (WC p) Cp) as <-.
    constructor; cbn; auto; try discriminate.
    + intros _ [q|k]; cbn; intros Hh.
      * fc; [discriminate|]. pose proof (U (WC q) Hh) as E1. congruence.
      * pose proof (U (WH k) Hh). discriminate.
    + intros q k Hq. fc; [discriminate|]. eauto.
    + intros q r k Hq Hr. fc; try discriminate. eauto.
    + intros k Hk. destruct (O k Hk) as [|[q Hq]]; [auto|]. right. exists q. fc; congruence.
    + intros q. fc; [split; discriminate|]. split; [discriminate|]. intros Hq. pose proof (U (WC q) Hq). congruence.
    + split; [|exact E]. apply L. exact Cp.
  - destruct (caller s p) eqn:Cp; try (injection H as <-; assumption).
    destruct (helper s k) eqn:Hk; injection H as <-; try assumption.
    constructor; cbn; auto.
    + intros Lk [q|j]; cbn; intros Hh.
      * fc; [discriminate|]. exact (F Lk (WC q) Hh).
      * fc; [intuition discriminate|]. exact (F Lk (WH j) Hh).
    + intros Lk. destruct (Hd Lk) as (w & Hw & U). exists w. split.
      * destruct w; cbn in *; fc; try congruence. intuition congruence.
      * intros [q|j]; cbn; intros Hh; fc; try discriminate; try (intuition discriminate); apply U; exact Hh.
    + intros q j Hq. destruct (Nat.eq_dec q p) as [->|n].
      * rewrite fset_eq in Hq. injection Hq as <-. rewrite fset_eq. auto.
      * rewrite fset_ne in Hq by exact n. destruct (T _ _ Hq) as [Hc Hh]. fc; [rewrite Hk in Hh; intuition discriminate|auto].
    + intros q r j Hq Hr. destruct (Nat.eq_dec q p) as [->|n]; destruct (Nat.eq_dec r p) as [->|m]; try reflexivity.
      * rewrite fset_eq in Hq. rewrite fset_ne in Hr by exact m. injection Hq as <-. destruct (T _ _ Hr) as [_ Hh].
        rewrite Hk in Hh. intuition discriminate.
      * rewrite fset_eq in Hr. rewrite fset_ne in Hq by exact n. injection Hr as <-. destruct (T _ _ Hq) as [_ Hh].
        rewrite Hk in Hh. intuition discriminate.
      * rewrite fset_ne in Hq, Hr by assumption. eauto.
    + intros j Hj. destruct (Nat.eq_dec j k) as [->|n].
      * right. exists p. apply fset_eq.
      * rewrite fset_ne in Hj by exact n. destruct (O j Hj) as [|[q Hq]]; [auto|]. right. exists q.
        rewrite fset_ne; [exact Hq|]. congruence.
    + intros j Hj. fc; [discriminate|auto].
    + intros j Hj. fc; [discriminate|auto].
    + intros q. rewrite L. fc; [split; [congruence|discriminate]|tauto].
  - destruct (helper s k) eqn:Hk; try (injection H as <-; assumption).
    destruct (locked s) eqn:Lk; injection H as <-; [assumption|]. specialize (F eq_refl).
    constructor; cbn; auto; try discriminate.
    + intros _. exists (WH k). split; [cbn; rewrite fset_eq; auto|]. intros [q|j]; cbn; intros Hh.
      * destruct (F (WC q)); exact Hh.
      * fc; [reflexivity|]. destruct (F (WH j)); exact Hh.
    + intros q j Hq. destruct (T _ _ Hq) as [Hc Hh]. split; [exact Hc|]. fc; auto.
    + intros j Hj. apply O. fc; auto.
    + intros j Hj. fc; [discriminate|auto].
    + intros j Hj. fc; [discriminate|auto].
  - destruct (caller s p) eqn:Cp; try (injection H as <-; assumption).
    destruct (helper s k) eqn:Hk; injection H as <-; try assumption.
    assert (Lk : locked s = true).
    { destruct (locked s); [reflexivity|]. destruct (F eq_refl (WH k)). left. exact Hk. }
    destruct (Hd Lk) as (w & Hw & U). pose proof (U (WH k) (or_introl Hk)) as <-.
    constructor; cbn; auto.
    + congruence.
    + intros _. exists (WC p). split; [cbn; apply fset_eq|]. intros [q|j]; cbn; intros Hh.
      * fc; [reflexivity|]. pose proof (U (WC q) Hh). discriminate.
      * fc; [intuition discriminate|]. pose proof (U (WH j) Hh). congruence.
    + intros q j Hq. destruct (Nat.eq_dec q p) as [->|n]; [rewrite fset_eq in Hq; discriminate|].
      rewrite fset_ne in Hq by exact n. destruct (Nat.eq_dec j k) as [->|m]; [exfalso; apply n; eauto|].
      rewrite !fset_ne by assumption. eauto.
    + intros q r j Hq Hr. fc; try discriminate. eauto.
    + intros j Hj. destruct (Nat.eq_dec j k) as [->|n]; [rewrite fset_eq; auto|]. rewrite fset_ne in Hj by exact n.
      rewrite fset_ne by exact n. destruct (O j Hj) as [|[q Hq]]; [auto|]. right. exists q. fc; congruence.
    + intros j Hj. fc; try discriminate; auto.
    + intros j Hj. fc; try discriminate; auto.
    + intros q. fc; [tauto|]. split; [congruence|]. intros Hq. pose proof (U (WC q) Hq). discriminate.
    + split; [|exact E]. destruct (owner (log s)) as [q|] eqn:Ow; [|reflexivity].
      assert (Hq : caller s q = CHold) by (apply L; reflexivity). pose proof (U (WC q) Hq). discriminate.
  - destruct (caller s p) eqn:Cp; injection H as <-; try assumption.
    constructor; cbn; auto.
    + intros Lk [q|j]; cbn; intros Hh; [fc; [discriminate|]|]; [exact (F Lk (WC q) Hh)|exact (F Lk (WH j) Hh)].
    + intros Lk. destruct (Hd Lk) as (w & Hw & U). exists w. split.
      * destruct w; cbn in *; fc; congruence.
      * intros [q|j]; cbn; intros Hh; fc; try discriminate; apply U; exact Hh.
    + intros q j Hq. destruct (Nat.eq_dec q p) as [->|n]; [rewrite fset_eq in Hq; discriminate|].
      rewrite fset_ne in Hq by exact n. destruct (Nat.eq_dec j k) as [->|m]; [exfalso; apply n; eauto|].
      rewrite !fset_ne by assumption. eauto.
    + intros q r j Hq Hr. fc; try discriminate. eauto.
    + intros j Hj. destruct (Nat.eq_dec j k) as [->|n]; [rewrite fset_eq; auto|]. rewrite fset_ne by exact n.
      destruct (O j Hj) as [|[q Hq]]; [auto|]. right. exists q. fc; congruence.
    + intros j Hj. fc; auto.
    + intros j Hj. destruct (Nat.eq_dec j k) as [->|n]; [|rewrite fset_ne by exact n; auto].
      destruct (T _ _ Cp) as [_ Hh]. rewrite Hj in Hh. intuition discriminate.
    + intros q. rewrite L. fc; [split; [congruence|discriminate]|tauto].
    + split; [|exact E]. rewrite L. congruence.
  - destruct (helper s k) eqn:Hk; try (injection H as <-; assumption).
    destruct (closed s k) eqn:Ck; injection H as <-; [|assumption].
    constructor; cbn; auto.
    + intros Lk [q|j]; cbn; intros Hh; [exact (F Lk (WC q) Hh)|]. fc; [apply (F Lk (WH k)); left; exact Hk|exact (F Lk (WH j) Hh)].
    + intros Lk. destruct (Hd Lk) as (w & Hw & U). pose proof (U (WH k) (or_introl Hk)) as <-. exists (WH k). split.
      * cbn. rewrite fset_eq. auto.
      * intros [q|j]; cbn; intros Hh; fc; try reflexivity; [exact (U (WC q) Hh)|exact (U (WH j) Hh)].
    + intros q j Hq. destruct (T _ _ Hq) as [Hc Hh]. split; [exact Hc|]. fc; [congruence|auto].
    + intros j Hj. fc; [intuition discriminate|auto].
    + intros j Hj. fc; auto.
    + intros j Hj. fc; [discriminate|auto].
  - destruct (helper s k) eqn:Hk; try (injection H as <-; assumption).
    destruct (locked s) eqn:Lk; [|discriminate]; injection H as <-.
    destruct (Hd eq_refl) as (w & Hw & U). pose proof (U (WH k) (or_intror Hk)) as <-.
    constructor; cbn; auto; try discriminate.
    + intros _ [q|j]; cbn; intros Hh; [pose proof (U (WC q) Hh); discriminate|].
      fc; [intuition discriminate|]. pose proof (U (WH j) Hh). congruence.
    + intros q j Hq. destruct (T _ _ Hq) as [Hc Hh]. split; [exact Hc|]. fc; [intuition congruence|auto].
    + intros j Hj. fc; [intuition discriminate|auto].
    + intros j Hj. fc; [discriminate|auto].
    + intros j Hj. fc; [discriminate|auto].
Qed.

Lemma exec_app s l1 l2 : exec s (l1 ++ l2) = rbind (exec s l1) (fun s1 => exec s1 l2).
Proof. revert s. induction l1 as [|l l1 IH]; intros s; [reflexivity|]. cbn. destruct (step s l); cbn; auto. Qed.
Lemma inv_exec ls : forall s s', inv s -> exec s ls = Ok s' -> inv s'.
Proof.
  induction ls as [|l ls IH]; intros s s' I H; cbn in H; [injection H as <-; assumption|].
  destruct (step s l) as [s1|] eqn:E; [|discriminate]. exact (IH s1 s' (inv_step s l s1 I E) H).
Qed.
Lemma reach_inv ls s : exec init ls = Ok s -> inv s.
Proof. apply inv_exec, inv_init. Qed.

Lemma step_ok s l : inv s -> exists s', step s l = Ok s'.
Proof.
  intros [F Hd T J O D N L E]. destruct l; cbn; eauto;
  repeat match goal with |- context [match ?x with _ => _ end] => destruct x eqn:? end; eauto; exfalso.
  - apply (F eq_refl (WC p)). assumption.
  - apply (F eq_refl (WH k)). right. assumption.
Qed.
Lemma exec_ok ls : forall s, inv s -> exists s', exec s ls = Ok s'.
Proof.
  induction ls as [|l ls IH]; intros s I; cbn; [eauto|].
  destruct (step_ok s l I) as [s1 E]. rewrite E. cbn. apply IH. exact (inv_step s l s1 I E).
Qed.

Lemma never_lost ls s q : exec init ls = Ok s -> owner (log s) = None -> caller s q = CIdle ->
  exists is s', Forall internal is /\ exec s (is ++ [LLock q]) = Ok s' /\ owner (log s') = Some q.
Proof.
  intros R Ow Cq. pose proof (reach_inv _ _ R) as I. pose proof I as [F Hd T J O D N L E].
  destruct (locked s) eqn:Lk.
  2: { exists [], (St true (fset (caller s) q CHold) (helper s) (closed s) (ELock q :: log s)).
       split; [constructor|]. cbn. rewrite Cq, Lk. split; reflexivity. }
  destruct (Hd eq_refl) as (w & Hw & U). destruct w as [p|k]; [apply L in Hw; congruence|]. cbn in Hw.
  destruct Hw as [Hw|Hw].
  - destruct (closed s k) eqn:Ck.
    + eexists [LHClosed k; LHUnlock k], _. split; [repeat constructor|]. cbn. rewrite Hw, Ck. cbn.
      rewrite fset_eq. cbn. rewrite Lk. cbn. rewrite Cq. cbn. split; reflexivity.
    + destruct (O k (or_intror Hw)) as [|[p Hp]]; [congruence|].
      assert (n : q <> p) by congruence.
      eexists [LTimeout p; LHClosed k; LHUnlock k], _. split; [repeat constructor|]. cbn. rewrite Hp. cbn. rewrite Hw, fset_eq. cbn.
      rewrite fset_eq. cbn. rewrite Lk. cbn. rewrite (fset_ne _ _ _ _ n), Cq. cbn. split; reflexivity.
  - eexists [LHUnlock k], _. split; [repeat constructor|]. cbn. rewrite Hw, Lk. cbn. rewrite Cq. cbn. split; reflexivity.
Qed.

Definition rank (h : hpc) : nat := match h with HNone => 0 | HWant => 1 | HHave => 2 | HDrop => 3 | HOver => 4 end.
Lemma step_mono s l s' k : step s l = Ok s' ->
  rank (helper s k) <= rank (helper s' k) /\ (closed s k = true -> closed s' k = true).
Proof.
  intros H. destruct l; cbn in H;
  repeat match type of H with context [match ?x with _ => _ end] => destruct x eqn:? end;
  try discriminate; injection H as <-; cbn; try (split; auto; fail);
  (split; [|intros; fc; auto]); fc; auto; repeat match goal with h : helper _ _ = _ |- _ => rewrite h end; cbn; lia.
Qed.
Lemma exec_mono ls k : forall s s', exec s ls = Ok s' ->
  rank (helper s k) <= rank (helper s' k) /\ (closed s k = true -> closed s' k = true).
Proof.
  induction ls as [|l ls IH]; intros s s' H; cbn in H; [injection H as <-; auto|].
  destruct (step s l) as [s1|] eqn:E; [|discriminate]. destruct (step_mono s l s1 k E), (IH s1 s' H). split; [lia|auto].
Qed.

Lemma abandoned s k l1 l2 l3 s' : closed s k = true -> helper s k = HHave ->
  exec s (l1 ++ LHClosed k :: l2 ++ LHUnlock k :: l3) = Ok s' -> helper s' k = HOver.
Proof.
  intros C Hk H. rewrite exec_app in H. destruct (exec s l1) as [s1|] eqn:E1; [|discriminate]. cbn [rbind] in H.
  cbn [exec] in H. destruct (step s1 (LHClosed k)) as [s2|] eqn:E2; [|discriminate]. cbn [rbind] in H.
  rewrite exec_app in H. destruct (exec s2 l2) as [s3|] eqn:E3; [|discriminate]. cbn [rbind exec] in H.
  destruct (step s3 (LHUnlock k)) as [s4|] eqn:E4; [|discriminate]. cbn [rbind] in H.
  destruct (exec_mono _ k _ _ E1) as [R1 C1]. specialize (C1 C). rewrite Hk in R1. cbn in R1.
  assert (R2 : 3 <= rank (helper s2 k)).
  { cbn in E2. destruct (helper s1 k) eqn:h; cbn in R1; try lia.
    - rewrite C1 in E2. injection E2 as <-. cbn. rewrite fset_eq. cbn. lia.
    - injection E2 as <-. rewrite h. cbn. lia.
    - injection E2 as <-. rewrite h. cbn. lia. }
  destruct (exec_mono _ k _ _ E3) as [R3 _].
  assert (R4 : 4 <= rank (helper s4 k)).
  { cbn in E4. destruct (helper s3 k) eqn:h; cbn in R3; try lia.
    - destruct (locked s3); [|discriminate]. injection E4 as <-. cbn. rewrite fset_eq. cbn. lia.
    - injection E4 as <-. rewrite h. cbn. lia. }
  destruct (exec_mono _ k _ _ H) as [R5 _]. destruct (helper s' k); cbn in *; try lia. reflexivity.
Qed.

Lemma can_succeed ls s p k : exec init ls = Ok s -> caller s p = CTry k -> locked s = false ->
  exists s', exec s [LHLock k; LSend p] = Ok s' /\ log s' = ETrue p :: log s.
Proof.
  intros R Cp Lk. pose proof (reach_inv _ _ R) as I. destruct (i_try s I p k Cp) as [_ [Hk|Hk]].
  - eexists. cbn. rewrite Hk, Lk. cbn. rewrite Cp. cbn. rewrite fset_eq. cbn. split; reflexivity.
  - exfalso. apply (i_free s I Lk (WH k)). left. exact Hk.
Qed.
