(* C145: requests and the reading of metrics. *)
From Coq Require Import Bool Arith List Lia.
From Verif Require Import Prelude PbModel PbSpec.
Import ListNotations.

Section All.
  Context {K : Type} (dec : forall x y : K, {x = y} + {x <> y}).
  Notation st := (@st K).
  Lemma setr_same (s : st) i r : reqs (setr s i r) i = r.
  Proof. cbn. now rewrite Nat.eqb_refl. Qed.
  Lemma setr_other (s : st) i r x : x <> i -> reqs (setr s i r) x = reqs s x.
  Proof. intros H. cbn. apply Nat.eqb_neq in H. now rewrite H. Qed.
  Lemma sets_same (s : st) i r : scrs (sets s i r) i = r.
  Proof. cbn. now rewrite Nat.eqb_refl. Qed.
  Lemma sets_other (s : st) i r x : x <> i -> scrs (sets s i r) x = scrs s x.
  Proof. intros H. cbn. apply Nat.eqb_neq in H. now rewrite H. Qed.
  Lemma steps_app P (a b c : st) : steps P a b -> steps P b c -> steps P a c.
  Proof. induction 1; intros; [auto|]. econstructor; eauto. Qed.

  (* two readers do not have the same lock *)
  Definition exclusive (s : st) : Prop := forall j j' k n n' t t', scrs s j = Within k n t -> scrs s j' = Within k n' t' -> j = j'.
  Lemma exclusive_step w (s s' : st) : exclusive s -> step w s s' -> exclusive s'.
  Proof.
    intros E H. destruct H; try exact E; intros a a' x n1 n2 t1 t2; (destruct (Nat.eq_dec a j) as [->|Na]; [rewrite sets_same|rewrite sets_other by auto]);
      (destruct (Nat.eq_dec a' j) as [->|Na']; [rewrite ?sets_same; auto|rewrite ?sets_other by auto]); intros Q1 Q2; try discriminate; eauto;
      try (injection Q1 as <- <- <-); try (injection Q2 as <- <- <-); try (exfalso; eapply H0; eassumption); eauto.
  Qed.
  Lemma exclusive_all P (s s' : st) : exclusive s -> steps P s s' -> exclusive s'.
  Proof. intros E H. induction H as [|w s s1 s2 _ Hs _ IH]; auto. apply IH. eapply exclusive_step; eauto. Qed.

  (* a request can be answered by its own steps when nobody reads one of its series *)
  Lemma serve_all i ks : forall s : st, reqs s i = Served ks -> (forall k, In k ks -> free s k) -> exists s', steps (alone i) s s' /\ reqs s' i = Answered.
  Proof.
    induction ks as [|k ks IH]; intros s E F.
    - exists (setr s i Answered). split; [|apply setr_same]. eapply more; [reflexivity|apply answer, E|constructor].
    - destruct (IH (setr s i (Served ks))) as (s' & H1 & H2); [apply setr_same|intros k' H'; apply (F k'); now right|].
      exists s'. split; [|exact H2]. eapply more; [reflexivity|apply (observe i k ks s E), F; now left|exact H1].
  Qed.
End All.

(* A request whose series nobody is reading is answered without waiting for anyone. *)
Theorem C145_others : forall (K : Type) (s : @st K) i, steps anyone start s -> present (reqs s i) -> (forall k, In k (wants (reqs s i)) -> free s k) ->
  exists s', steps (alone i) s s' /\ reqs s' i = Answered.
Proof.
  intros K s i _ Hp Hf. destruct (reqs s i) as [|ks|ks|] eqn:E; cbn in Hp, Hf; [contradiction| | |].
  - destruct (serve_all i ks (setr s i (Served ks))) as (s' & H1 & H2); [apply setr_same|exact Hf|].
    exists s'. split; [|exact H2]. eapply more; [reflexivity|apply (serve i ks s E)|exact H1].
  - exact (serve_all i ks s E Hf).
  - exists s. split; [constructor|exact E].
Qed.
Print Assumptions C145_others.

(* C145 is false of the code: a client that reads the metrics and stops reading in the middle of a series keeps every request that is counted in
   it from being answered, also those that come later, for as long as it likes. *)
Theorem C145_refuted : forall (K : Type) (s : @st K) j k n t, scrs s j = Within k n t ->
  forall i s1, steps (but j) s s1 -> In k (wants (reqs s1 i)) -> forall s2, steps (but j) s1 s2 -> In k (wants (reqs s2 i)) /\ reqs s2 i <> Answered.
Proof.
  intros K s j k n t E i s1 H1 W s2 H2.
  assert (Keep : forall a b : @st K, steps (but j) a b -> scrs a j = Within k n t -> scrs b j = Within k n t).
  { clear. intros a b H. induction H as [|w a a1 a2 Hw Hs _ IH]; auto. intros E. apply IH. destruct Hs; try exact E; (rewrite sets_other; [exact E|]; intros ->; now apply Hw). }
  apply (Keep _ _ H1) in E. clear s H1. induction H2 as [s1|w s1 s2 s3 Hw Hs H2 IH].
  - split; [exact W|]. intros Q. rewrite Q in W. destruct W.
  - apply IH.
    + eapply Keep; [|exact E]. eapply more; [exact Hw|exact Hs|constructor].
    + clear IH H2. destruct Hs as [i' ks s Ea|i' ks s Ea|i' k' ks s Ea Hf|i' s Ea| | | | | |]; try exact W;
        (destruct (Nat.eq_dec i i') as [->|N]; [rewrite setr_same|rewrite setr_other by auto; exact W]); rewrite Ea in W; cbn in *; auto; try contradiction.
      destruct W as [->|W]; auto. exfalso. exact (Hf _ _ _ E).
Qed.
Print Assumptions C145_refuted.
(* and any client can do so, to any series *)
Theorem C145_reach : forall (K : Type) (k : K) n, exists s : @st K, steps anyone start s /\ scrs s 0 = Within k n [] /\ wants (reqs s 0) = [k].
Proof.
  intros K k n. exists (sets (sets (setr start 0 (Serving [k])) 0 (Between [k])) 0 (Within k n [])). split; [|split; reflexivity].
  eapply more; [exact Logic.I|apply (arrive 0 [k]); reflexivity|]. eapply more; [exact Logic.I|apply (begin 0 [k]); reflexivity|].
  eapply more; [exact Logic.I|apply (lock 0 k [] n); [reflexivity|]|constructor]. intros j m t. cbn. destruct (Nat.eqb j 0); discriminate.
Qed.
Print Assumptions C145_reach.

Section Progress.
  Context {K : Type} (dec : forall x y : K, {x = y} + {x <> y}).
  Notation st := (@st K).
  Lemma finite P (s : st) : steps P start s -> exists N, forall j, N <= j -> scrs s j = NoScrape.
  Proof.
    assert (G : forall a b : st, steps P a b -> (exists N, forall j, N <= j -> scrs a j = NoScrape) -> exists N, forall j, N <= j -> scrs b j = NoScrape).
    { intros a b H. induction H as [|w s0 s1 s2 _ Hs _ IH]; auto. intros (N & HN). apply IH.
      destruct Hs; try (exists N; exact HN); exists (Nat.max N (Datatypes.S j)); intros x Hx; rewrite sets_other by lia; apply HN; lia. }
    intros H. apply (G _ _ H). exists 0. reflexivity.
  Qed.
  Lemma reader (s : st) k : (exists N, forall j, N <= j -> scrs s j = NoScrape) -> (exists j n t, scrs s j = Within k n t) \/ free s k.
  Proof.
    intros (N & HN). assert (G : forall m, (exists j n t, scrs s j = Within k n t) \/ forall j, j < m -> forall n t, scrs s j <> Within k n t).
    { induction m as [|m [IH|IH]]; [right; lia|auto|]. destruct (scrs s m) as [|todo|k' n t] eqn:E.
      - right. intros j Hj n t. destruct (Nat.eq_dec j m) as [->|]; [congruence|apply IH; lia].
      - right. intros j Hj n t. destruct (Nat.eq_dec j m) as [->|]; [congruence|apply IH; lia].
      - destruct (dec k' k) as [->|D]; [left; eauto|]. right. intros j Hj n0 t0. destruct (Nat.eq_dec j m) as [->|]; [congruence|apply IH; lia]. }
    destruct (G N) as [?|F]; auto. right. intros j n t. destruct (Nat.lt_ge_cases j N) as [L|L]; [now apply F|]. rewrite (HN j L). discriminate.
  Qed.
  (* the reader reads on to the end of the series *)
  Lemma release j k t : forall n (s : st), scrs s j = Within k n t -> exists s', steps (fun w => w = Scrape j) s s' /\ scrs s' j = Between t /\
    (forall x, x <> j -> scrs s' x = scrs s x) /\ reqs s' = reqs s.
  Proof.
    induction n as [|n IH]; intros s E.
    - exists (sets s j (Between t)). split; [eapply more; [reflexivity|apply (unlock j k t s E)|constructor]|]. split; [apply sets_same|]. split; [|reflexivity].
      intros x Hx. now apply sets_other.
    - destruct (IH (sets s j (Within k n t)) (sets_same _ _ _)) as (s' & H1 & H2 & H3 & H4). exists s'. split; [eapply more; [reflexivity|apply (write j k n t s E)|exact H1]|].
      split; [exact H2|]. split; [|exact H4]. intros x Hx. rewrite H3 by auto. now apply sets_other.
  Qed.
  Lemma steps_weaken (P Q : who -> Prop) (a b : st) : (forall w, P w -> Q w) -> steps P a b -> steps Q a b.
  Proof. intros PQ. induction 1; [constructor|]. econstructor; eauto. Qed.
  Lemma clear_all ks : forall (s : st), (exists N, forall j, N <= j -> scrs s j = NoScrape) -> exclusive s ->
    exists s', steps (fun w => exists j k n t, w = Scrape j /\ scrs s j = Within k n t /\ In k ks) s s' /\ reqs s' = reqs s /\
      (forall x, scrs s' x = scrs s x \/ exists k n t, scrs s x = Within k n t /\ scrs s' x = Between t) /\ (forall k, In k ks -> free s' k).
  Proof.
    induction ks as [|k ks IH]; intros s F X; [exists s; split; [constructor|]; split; [reflexivity|split; [auto|intros k []]]|].
    destruct (IH s F X) as (s1 & H1 & R1 & C1 & F1).
    assert (W : steps (fun w => exists j k0 n t, w = Scrape j /\ scrs s j = Within k0 n t /\ In k0 (k :: ks)) s s1).
    { eapply steps_weaken; [|exact H1]. intros w (j & k0 & n & t & -> & E & I0). exists j, k0, n, t. split; [reflexivity|]. split; [exact E|now right]. }
    assert (Fin : exists N, forall j, N <= j -> scrs s1 j = NoScrape).
    { destruct F as (N & HN). exists N. intros j Hj. destruct (C1 j) as [->|(k0 & n & t & E & _)]; [auto|]. rewrite (HN j Hj) in E. discriminate. }
    assert (X1 : exclusive s1) by (eapply exclusive_all; eauto).
    destruct (reader s1 k Fin) as [(j & n & t & E)|Fk].
    - assert (E0 : scrs s j = Within k n t) by (destruct (C1 j) as [Q|(k0 & n0 & t0 & _ & Q)]; congruence).
      destruct (release j k t n s1 E) as (s2 & H2 & B2 & O2 & R2). exists s2. split; [|split; [congruence|split]].
      + eapply steps_app; [exact W|]. eapply steps_weaken; [|exact H2]. intros w ->. exists j, k, n, t. split; [reflexivity|]. split; [exact E0|now left].
      + intros x. destruct (Nat.eq_dec x j) as [->|Nx]; [right; exists k, n, t; auto|]. rewrite (O2 x Nx). apply C1.
      + intros k0 I0 x m u Q. destruct (Nat.eq_dec x j) as [->|Nx]; [congruence|]. rewrite (O2 x Nx) in Q. destruct I0 as [<-|I0]; [apply Nx; eapply X1; eauto|exact (F1 k0 I0 x m u Q)].
    - exists s1. split; [exact W|]. split; [exact R1|]. split; [exact C1|]. intros k0 [<-|I0]; auto.
  Qed.
End Progress.

(* Only clients that are reading one of its series can delay a request: when they have read that series, it is answered. *)
Theorem C145_partial : forall (K : Type) (dec : forall x y : K, {x = y} + {x <> y}) (s : @st K) i, steps anyone start s -> present (reqs s i) ->
  exists s', steps (reading s i (wants (reqs s i))) s s' /\ reqs s' i = Answered.
Proof.
  intros K dec s i H Hp. assert (X : exclusive s) by (eapply exclusive_all; [|exact H]; intros j j' k n n' t t'; cbn; discriminate).
  destruct (clear_all dec (wants (reqs s i)) s (finite _ s H) X) as (s1 & H1 & R1 & _ & F1).
  assert (H' : steps anyone start s1) by (eapply steps_app; [exact H|]; eapply steps_weaken; [|exact H1]; intros; exact Logic.I).
  destruct (C145_others K s1 i H') as (s2 & H2 & A2); [now rewrite R1|rewrite R1; exact F1|]. exists s2. split; [|exact A2].
  eapply steps_app; [eapply steps_weaken; [|exact H1]|eapply steps_weaken; [|exact H2]]; cbn.
  - intros w Hw. right. exact Hw.
  - intros w ->. now left.
Qed.
Print Assumptions C145_partial.

(* a reader stops in the middle of series 7; one request of it waits, a request of series 8 is answered *)
Example C145_ex : exists s : @st nat, steps anyone start s /\ scrs s 0 = Within 7 3 [8] /\ reqs s 0 = Served [7] /\ reqs s 1 = Answered.
Proof.
  set (s1 := sets (sets (@start nat) 0 (Between [7; 8])) 0 (Within 7 4 [8])).
  set (s2 := setr (setr (sets s1 0 (Within 7 3 [8])) 0 (Serving [7])) 0 (Served [7])).
  exists (setr (setr (setr (setr s2 1 (Serving [8])) 1 (Served [8])) 1 (Served [])) 1 Answered).
  split; [|repeat split; reflexivity]. unfold s2, s1.
  eapply more; [exact Logic.I|apply (begin 0 [7; 8]); reflexivity|].
  eapply more; [exact Logic.I|apply (lock 0 7 [8] 4); [reflexivity|intros j n t; cbn; destruct (Nat.eqb j 0); discriminate]|].
  eapply more; [exact Logic.I|apply (write 0 7 3 [8]); reflexivity|].
  eapply more; [exact Logic.I|apply (arrive 0 [7]); reflexivity|]. eapply more; [exact Logic.I|apply (serve 0 [7]); reflexivity|].
  eapply more; [exact Logic.I|apply (arrive 1 [8]); reflexivity|]. eapply more; [exact Logic.I|apply (serve 1 [8]); reflexivity|].
  eapply more; [exact Logic.I|apply (observe 1 8 []); [reflexivity|intros j n t; cbn; destruct (Nat.eqb j 0); discriminate]|].
  eapply more; [exact Logic.I|apply (answer 1); reflexivity|]. constructor.
Qed.
