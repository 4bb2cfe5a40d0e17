(* C155: the time a CallHandler takes. *)
From Coq Require Import ZArith Bool Ascii List Lia.
From Verif Require Import CallTModel CallTSpec.
Import ListNotations.
Open Scope Z_scope.

Lemma allowed_is h t : allowed h t -> readTimeout h = t.
Proof.
  unfold allowed, readTimeout, Second. intros [A1 A2]. destruct (Z.gtb_spec (ReadTimeout h) 0) as [H|H].
  - symmetry. now apply A1.
  - symmetry. now apply A2.
Qed.
Section CallT.
  Context (h : CallHandler) (spent : Z).
  Notation step := (step h spent).
  Notation steps := (steps h spent).
  Lemma steps_trans may a b c : steps may a b -> steps may b c -> steps may a c.
  Proof. intros A1 A2. revert A1. induction A2 as [s|s1 s2 s3 x A IH M S0]; intros A1; [exact A1|]. exact (more _ _ _ _ _ _ x (IH A1) M S0). Qed.
  Lemma one (may : who -> Prop) x a b : may x -> step x a b -> steps may a b.
  Proof. intros M S0. exact (more _ _ _ _ _ _ x (none _ _ _ _) M S0). Qed.
  Lemma wider (may may' : who -> Prop) a b : (forall x, may x -> may' x) -> steps may a b -> steps may' a b.
  Proof. intros M A. induction A as [s|s1 s2 s3 x A IH Mx S0]; [apply none|]. exact (more _ _ _ _ _ _ x IH (M _ Mx) S0). Qed.

  Definition excuse (s : st) : Prop := broken s = true \/ gone s = true \/ readTimeout h <= now s \/ serverTimeout - spent <= now s.
  Definition inv (s : st) : Prop :=
    (g s = Put REof -> fin s = true) /\ (forall t, called s t -> fin s = true) /\
    (main s = Select \/ (exists t, main s = Handling t) -> ended s = true -> gone s = true \/ readTimeout h <= now s) /\
    (main s = Select -> g s = Put RErr -> excuse s) /\ (main s = Refused -> excuse s) /\ (main s = Select -> g s = Left -> ended s = true).
  Lemma inv_start b f : inv (start b f).
  Proof. unfold inv, called, start. cbn. repeat split; try discriminate; try (intros t [E|E]; discriminate E); try (intros [E|[t E]]; discriminate E). Qed.
  Lemma inv_step x s s' : inv s -> step x s s' -> inv s'.
  Proof.
    intros (I1 & I2 & I3 & I4 & I5 & I6) S0. unfold inv, called, excuse in *.
    destruct S0 as [s d Hd|s b Hf|s|s|s|s Ht|s Hg|s a b Hg Hw Ha Hl|s Hg Hf Hl|s Hg Hb|s Hm He|s Hm Hg|s Hm Hg|s t Hm]; cbn [now body wire fin broken gone ended out g main].
    all: split; [|split; [|split; [|split; [|split]]]].
    all: try assumption.
    all: try solve [intros; intuition (try congruence; try lia)].
    all: try solve [intros [E|[t0 E]] H; [|]; intuition (try congruence; try lia)].
    all: try solve [destruct (ended s); intuition congruence].
    all: try solve [intros t0 H; pose proof (I2 t0 H); congruence].
    all: try solve [intros [E1|[t0 E1]] E; discriminate E1].
    all: try solve [intros _; destruct (I3 (or_introl Hm) He); auto].
    all: try solve [intros _ H; apply I3; [left; exact Hm|exact H]].
    intros _ _. exact (I2 t (or_introl Hm)).
  Qed.
  Lemma inv_steps may s s' : inv s -> steps may s s' -> inv s'.
  Proof. intros H A. induction A as [s|s1 s2 s3 x A IH M S0]; [exact H|]. exact (inv_step _ _ _ (IH H) S0). Qed.

  (* reading what was sent *)
  Lemma drain : forall n s, (length (wire s) <= n)%nat -> fin s = true -> ended s = false -> main s = Select -> g s = Check \/ g s = Reading ->
    exists s', steps server s s' /\ main s' = Handling (now s) /\ body s' = body s /\ now s' = now s /\ ended s' = false.
  Proof.
    induction n as [|n IH]; intros s Hn Hf He Hm Hg.
    all: set (s0 := St (now s) (body s) (wire s) (fin s) (broken s) (gone s) (ended s) (out s) Reading (main s)).
    all: assert (A0 : steps server s s0) by (destruct Hg as [Hg|Hg];
      [apply (one _ Server); [reflexivity|]; pose proof (g_check h spent s Hg) as K; rewrite He in K; unfold s0; rewrite He; exact K|
       assert (s0 = s) as -> by (unfold s0; destruct s; cbn in *; now subst); apply none]).
    all: destruct (Z_le_gt_dec (Z.of_nat (length (wire s))) 8192) as [Hl|Hl].
    1, 3: set (s1 := St (now s) (body s) [] true (broken s) (gone s) (ended s) (out s) (Put REof) (main s));
      assert (A1 : step Server s0 s1) by (apply (g_last h spent s0); [reflexivity|exact Hf|exact Hl]);
      set (s2 := St (now s) (body s) [] true (broken s) (gone s) (ended s) (out s) Left (Handling (now s)));
      assert (A2 : step Server s1 s2) by (apply (m_eof h spent s1); [exact Hm|reflexivity]);
      exists s2; split; [exact (steps_trans _ _ _ _ A0 (steps_trans _ _ _ _ (one server _ _ _ eq_refl A1) (one server _ _ _ eq_refl A2)))|]; repeat split; exact He.
    - lia.
    - destruct (wire s) as [|a r] eqn:Ew; [cbn in Hl; lia|].
      set (s1 := St (now s) (body s) r (fin s) (broken s) (gone s) (ended s) (out s ++ [a]) Check (main s)).
      assert (A1 : step Server s0 s1) by (apply (g_read h spent s0 [a] r); [reflexivity|unfold s0; cbn [wire]; reflexivity|discriminate|cbn; lia]).
      destruct (IH s1) as (s' & B1 & B2 & B3 & B4 & B5); [unfold s1; cbn in *; lia|exact Hf|exact He|exact Hm|left; reflexivity|].
      exists s'. split; [exact (steps_trans _ _ _ _ A0 (steps_trans _ _ _ _ (one server _ _ _ eq_refl A1) B1))|]. auto.
  Qed.
End CallT.

(* Handler is called only when the client has sent all of the body.  A request is answered with 400 without Handler only if the connection broke, the context
   of the request ended, or the time that is allowed is over, by ReadTimeout or by the 30 seconds of the server.  The context of Handler does not end before
   ReadTimeout is over, unless that of the request does. *)
Theorem C155_partial : forall (h : CallHandler) (spent T : Z) (b : list ascii) (f : bool) (s : st), allowed h T -> steps h spent anybody (start b f) s ->
  (forall t, called s t -> fin s = true) /\
  (main s = Refused -> broken s = true \/ gone s = true \/ T <= now s \/ 30000000000 - spent <= now s) /\
  (forall t, main s = Handling t -> ended s = true -> gone s = true \/ T <= now s).
Proof.
  intros h spent T b f s HT A. destruct (inv_steps h spent _ _ _ (inv_start h spent b f) A) as (I1 & I2 & I3 & I4 & I5 & _). rewrite <- (allowed_is _ _ HT).
  split; [exact I2|]. split; [exact I5|]. intros t E H. apply I3; [right; exists t; exact E|exact H].
Qed.
(* If the body is not complete when this time is over, the request can be answered with 400 at once, without the client; Handler is not called unless the
   client does send the rest. *)
Theorem C155_late : forall (h : CallHandler) (spent T : Z) (b : list ascii) (f : bool) (s : st), allowed h T -> steps h spent anybody (start b f) s ->
  fin s = false -> T <= now s ->
  (main s = Select -> exists s', steps h spent server s s' /\ main s' = Refused) /\
  (forall s' t, steps h spent (fun x => x <> Client) s s' -> ~ called s' t).
Proof.
  intros h spent T b f s HT A Hf Hn. pose proof (inv_steps h spent _ _ _ (inv_start h spent b f) A) as I0. split.
  - intros Hm. set (s1 := St (now s) (body s) (wire s) (fin s) (broken s) (gone s) true (out s) (g s) (main s)).
    assert (A1 : step h spent Server s s1) by (apply t_fire; rewrite (allowed_is _ _ HT); exact Hn).
    set (s2 := St (now s) (body s) (wire s) (fin s) (broken s) (gone s) true (out s) (g s) Refused).
    assert (A2 : step h spent Server s1 s2) by (apply (m_done h spent s1); [exact Hm|reflexivity]).
    exists s2. split; [|reflexivity]. exact (steps_trans h spent _ _ _ _ (one h spent server _ _ _ eq_refl A1) (one h spent server _ _ _ eq_refl A2)).
  - intros s' t B. assert (F : fin s' = false).
    { clear - B Hf. induction B as [s|s1 s2 s3 x B IH M S0]; [exact Hf|]. specialize (IH Hf). destruct S0; cbn [fin]; try assumption; try congruence; try reflexivity. }
    intros C. pose proof (inv_steps h spent _ _ _ I0 B) as (_ & I2 & _). rewrite (I2 t C) in F. discriminate F.
Qed.
(* If the body is complete before that, and nothing has failed, Handler can be called at once, without the client. *)
Theorem C155_handled : forall (h : CallHandler) (spent : Z) (b : list ascii) (f : bool) (s : st), steps h spent anybody (start b f) s ->
  main s = Select -> fin s = true -> ended s = false -> g s <> Put RErr ->
  exists s', steps h spent server s s' /\ main s' = Handling (now s) /\ ended s' = false.
Proof.
  intros h spent b f s A Hm Hf He Hg. pose proof (inv_steps h spent _ _ _ (inv_start h spent b f) A) as (_ & _ & _ & _ & _ & I6). destruct (g s) as [| |[|]|] eqn:Eg.
  - destruct (drain h spent _ s (le_n _) Hf He Hm (or_introl Eg)) as (s' & B1 & B2 & _ & _ & B5). eauto.
  - destruct (drain h spent _ s (le_n _) Hf He Hm (or_intror Eg)) as (s' & B1 & B2 & _ & _ & B5). eauto.
  - eexists. split; [exact (one h spent server _ _ _ eq_refl (m_eof h spent s Hm Eg))|]. auto.
  - now destruct Hg.
  - rewrite (I6 Hm eq_refl) in He. discriminate He.
Qed.
(* The body sent at time t, at once *)
Lemma sent_at (h : CallHandler) (spent t : Z) (b : list ascii) : 0 <= t ->
  exists s, steps h spent smooth (start [] false) s /\ body s = b /\ main s = Handling t /\ ended s = false /\ now s = t.
Proof.
  intros Ht. set (s1 := St t [] [] false false false false [] Check Select).
  assert (A1 : steps h spent smooth (start [] false) s1).
  { destruct (Z.eq_dec t 0) as [->|Hn]; [apply none|]. apply (one h spent _ Time); [discriminate|]. assert (P : 0 < t) by lia. exact (t_tick h spent (start [] false) t P). }
  set (s2 := St t b b false false false false [] Check Select). assert (A2 : step h spent Client s1 s2) by exact (c_send h spent s1 b eq_refl).
  set (s3 := St t b b true false false false [] Check Select). assert (A3 : step h spent Client s2 s3) by exact (c_fin h spent s2).
  destruct (drain h spent _ s3 (le_n _) eq_refl eq_refl eq_refl (or_introl eq_refl)) as (s' & B1 & B2 & B3 & B4 & B5).
  exists s'. split; [|auto]. assert (C : Client <> Outside) by discriminate.
  apply (steps_trans h spent _ _ _ _ A1), (steps_trans h spent _ _ _ _ (one h spent smooth _ _ _ C A2)), (steps_trans h spent _ _ _ _ (one h spent smooth _ _ _ C A3)).
  apply (wider h spent server); [intros x ->; discriminate|exact B1].
Qed.
(* MaxLength is not looked at: a body of any length is read, and Handler is called. *)
Theorem C155_length_refuted : forall (h : CallHandler) (spent : Z) (b : list ascii), exists s, steps h spent smooth (start [] false) s /\ body s = b /\ called s 0.
Proof. intros h spent b. destruct (sent_at h spent 0 b (Z.le_refl 0)) as (s & A & B & C & _). exists s. unfold called. auto. Qed.
(* The time of Handler is not its own: its context ends when ReadTimeout is over since the beginning of the request, so that a client that takes its time for
   the body leaves any rest of it, however small. *)
Theorem C155_context_refuted : forall (h : CallHandler) (spent T : Z), allowed h T ->
  (forall (b : list ascii) (t : Z), 0 <= t -> exists s, steps h spent smooth (start [] false) s /\ body s = b /\ main s = Handling t /\ now s = t) /\
  (forall (s : st) (t : Z), main s = Handling t -> exists s', steps h spent alone s s' /\ main s' = Handling t /\ ended s' = true /\ now s' = Z.max (now s) T).
Proof.
  intros h spent T HT. split.
  - intros b t Ht. destruct (sent_at h spent t b Ht) as (s & A & B & C & _ & D). exists s. auto.
  - intros s t Hm. set (s1 := St (Z.max (now s) T) (body s) (wire s) (fin s) (broken s) (gone s) (ended s) (out s) (g s) (main s)).
    assert (A1 : steps h spent alone s s1).
    { destruct (Z_le_gt_dec T (now s)) as [H|H].
      - assert (s1 = s) as -> by (unfold s1; rewrite Z.max_l by exact H; now destruct s). apply none.
      - apply (one h spent _ Time); [left; reflexivity|]. assert (P : 0 < T - now s) by lia. pose proof (t_tick h spent s _ P) as K. unfold s1. rewrite Z.max_r by lia. replace T with (now s + (T - now s)) at 1 by lia. exact K. }
    set (s2 := St (Z.max (now s) T) (body s) (wire s) (fin s) (broken s) (gone s) true (out s) (g s) (main s)).
    assert (A2 : step h spent Server s1 s2) by (apply (t_fire h spent s1); rewrite (allowed_is _ _ HT); cbn [now s1]; lia).
    exists s2. split; [|auto]. exact (steps_trans h spent _ _ _ _ A1 (one h spent alone _ _ _ (or_intror eq_refl) A2)).
Qed.
(* A ReadTimeout of more than 30 seconds is not waited for: the server gives up reading before. *)
Theorem C155_longer_refuted : forall (h : CallHandler) (spent T : Z), allowed h T -> 0 <= spent <= 30000000000 -> 30000000000 - spent < T ->
  exists s, steps h spent smooth (start [] false) s /\ main s = Refused /\ now s < T /\ broken s = false /\ gone s = false.
Proof.
  intros h spent T HT Hs Hl. set (t := 30000000000 - spent). set (s1 := St t [] [] false false false false [] Check Select).
  assert (A1 : steps h spent smooth (start [] false) s1).
  { destruct (Z.eq_dec t 0) as [E|Hn]; [unfold s1; rewrite E; apply none|]. apply (one h spent _ Time); [discriminate|]. assert (P : 0 < t) by lia. exact (t_tick h spent (start [] false) t P). }
  set (s2 := St t [] [] false false false false [] Reading Select). assert (A2 : step h spent Server s1 s2) by exact (g_check h spent s1 eq_refl).
  set (s3 := St t [] [] false false false false [] (Put RErr) Select).
  assert (A3 : step h spent Server s2 s3) by (apply (g_fail h spent s2); [reflexivity|right; left; unfold serverTimeout, Second; cbn [now s2]; lia]).
  set (s4 := St t [] [] false false false true [] Left Refused). assert (A4 : step h spent Server s3 s4) by exact (m_err h spent s3 eq_refl eq_refl).
  assert (C : Server <> Outside) by discriminate.
  exists s4. split; [|repeat split; exact Hl].
  exact (steps_trans h spent _ _ _ _ A1 (steps_trans h spent _ _ _ _ (one h spent smooth _ _ _ C A2) (steps_trans h spent _ _ _ _ (one h spent smooth _ _ _ C A3) (one h spent smooth _ _ _ C A4)))).
Qed.
(* ReadTimeout of one second; a client that stops in the middle, seen after two. *)
Example C155_ex : let h := CH 0 1000000000 in let s := St 2000000000 ["a"%char] ["a"%char] false false false false [] Check Select in
  allowed h 1000000000 /\ steps h 0 anybody (start ["a"%char] false) s /\ fin s = false /\ main s = Select /\ 1000000000 <= now s.
Proof.
  cbn zeta. split; [split; cbn; [reflexivity|lia]|]. split; [|repeat split; cbn; lia].
  apply (one (CH 0 1000000000) 0 anybody Time); [exact Logic.I|]. exact (t_tick (CH 0 1000000000) 0 (start ["a"%char] false) 2000000000 eq_refl).
Qed.
(* The body is complete, and its time is not over. *)
Example C155_ex2 : let h := CH 10 60000000000 in let s := start ["a"%char] true in
  steps h 1000000000 anybody s s /\ main s = Select /\ fin s = true /\ ended s = false /\ g s <> Put RErr /\ allowed h 60000000000 /\ 30000000000 - 1000000000 < 60000000000.
Proof. cbn zeta. split; [apply none|]. repeat split; cbn; try discriminate; lia. Qed.
Print Assumptions C155_partial. Print Assumptions C155_late. Print Assumptions C155_handled.
Print Assumptions C155_length_refuted. Print Assumptions C155_context_refuted. Print Assumptions C155_longer_refuted.
