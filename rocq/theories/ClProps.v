(* C116: a call of http.Client that has returned occupies no connection.  C117: what it returns. *)
From Coq Require Import String Bool Arith ZArith List Lia.
From Verif Require Import Prelude ClModel ClSpec ClProofs.
Import ListNotations.

(* C116, weaker than stated: under every schedule, a call that has returned occupies a connection exactly if the answer had another
   status than 200 and 204 and content, and the context of the call is not done.  Missing: those. *)
Theorem C116_partial : forall use n ls s i k c r, exec use (init n) ls = Some s -> began ls i k c -> returned s i r ->
  (occupies s i <-> exists z b w, answered ls i (Answer z b w) /\ ~ success z /\ has_content z b w /\ ~ cancelled ls c).
Proof.
  intros use n ls s i k c r E B (x & X & R). pose proof (inv_exec use n ls s E) as V.
  pose proof (i_began _ _ _ _ V i x X) as B'. unfold began in *. rewrite B in B'. injection B' as Bk Bc. 
  pose proof (i_fine _ _ _ _ V i x X) as F. unfold fine in F. rewrite R in F. unfold occupies. rewrite Bc.
  destruct r as [b'|z|].
  - destruct F as (Fh & z & b & w & F1 & F2 & _). split.
    + intros (y & Y & H). rewrite X in Y. injection Y as <-. congruence.
    + intros (z1 & b1 & w1 & A & NS & _). apply F1 in A. injection A as -> -> ->. destruct (NS F2).
  - destruct F as (b & w & F1 & F2 & F3). split.
    + intros (y & Y & H). rewrite X in Y. injection Y as <-. apply F3 in H. exists z, b, w. split; [apply F1; reflexivity|tauto].
    + intros (z1 & b1 & w1 & A & NS & H). apply F1 in A. injection A as -> -> ->. exists x. split; [exact X|]. apply F3. exact H.
  - destruct F as (Fh & F). split.
    + intros (y & Y & H). rewrite X in Y. injection Y as <-. congruence.
    + intros (z1 & b1 & w1 & A & NS & _). destruct F as [F|[F|(z & b & w & F1 & F2 & _)]].
      * destruct (F _ A).
      * apply F in A. discriminate A.
      * apply F1 in A. injection A as -> -> ->. destruct (NS F2).
Qed.
Print Assumptions C116_partial.

(* C116, refuted for every such answer: whatever happens after it, short of the context becoming done, the connection is not given back. *)
Theorem C116_refuted : forall use n ls s i k c z b w ls' s', exec use (init n) ls = Some s -> began ls i k c -> answered ls i (Answer z b w) ->
  ~ success z -> has_content z b w -> exec use s ls' = Some s' -> ~ cancelled (ls ++ ls') c -> returned s' i (RStatus z) /\ occupies s' i.
Proof.
  intros use n ls s i k c z b w ls' s' E B A NS HC E' NC.
  assert (E2 : exec use (init n) (ls ++ ls') = Some s') by (rewrite exec_app, E; exact E').
  assert (A2 : answered (ls ++ ls') i (Answer z b w)) by (unfold answered in *; rewrite in_app_iff; auto).
  assert (B2 : began (ls ++ ls') i k c) by (unfold began in *; rewrite begun_app, nth_error_app1; [exact B|apply nth_error_Some; rewrite B; discriminate]).
  pose proof (inv_exec use n _ s' E2) as V. pose proof (i_ans _ _ _ _ V i _ A2) as L.
  destruct (nth_error (calls s') i) as [x|] eqn:X; [|apply nth_error_None in X; lia].
  pose proof (i_began _ _ _ _ V i x X) as B'. unfold began in *. rewrite B2 in B'. injection B' as Bk Bc.
  pose proof (i_fine _ _ _ _ V i x X) as F. unfold fine in F. rewrite <- Bc in F.
  assert (O : forall a, only (ls ++ ls') i a -> a = Answer z b w) by (intros a O; symmetry; apply O; exact A2).
  assert (N : none (ls ++ ls') i -> False) by (intros N; exact (N _ A2)).
  destruct (c_stage x) as [| |z1 b1 w1|r|[b'|z1|]] eqn:R.
  - destruct F as [F _]. destruct (N F).
  - destruct F as [F _]. destruct (N F).
  - destruct F as (F1 & F2 & _). pose proof (O _ F1) as Q. injection Q as -> -> ->. destruct (NS F2).
  - destruct F as (_ & z1 & b1 & w1 & F1 & F2 & _). pose proof (O _ F1) as Q. injection Q as -> -> ->. destruct (NS F2).
  - destruct F as (_ & z1 & b1 & w1 & F1 & F2 & _). pose proof (O _ F1) as Q. injection Q as -> -> ->. destruct (NS F2).
  - destruct F as (b1 & w1 & F1 & F2 & F3). pose proof (O _ F1) as Q. injection Q as -> -> ->. split; [exists x; auto|]. exists x. split; [exact X|]. apply F3. auto.
  - destruct F as (_ & [F|[F|(z1 & b1 & w1 & F1 & F2 & _)]]); [destruct (N F)|discriminate (O _ F)|]. pose proof (O _ F1) as Q. injection Q as -> -> ->. destruct (NS F2).
Qed.
Print Assumptions C116_refuted.

(* n failures one after the other *)
Fixpoint failing (a : answer) (n : nat) : list label :=
  match n with 0 => [] | S m => failing a m ++ [LCall KGet 0; LDial m; LAnswer m a] end.
Lemma failing_runs : forall use l z b w n, ~ success z -> (200 <= z)%Z -> has_content z b w -> n <= l ->
  exec use (init l) (failing (Answer z b w) n) = Some (St l (repeat (Call KGet 0 (Over (RStatus z)) true) n) []).
Proof.
  intros use l z b w n NS Z2 HC. induction n as [|m IH]; intros L; [reflexivity|]. cbn [failing]. rewrite exec_app, IH by lia.
  assert (G : good z = false) by (destruct (good z) eqn:G; [apply good_iff in G; destruct (NS G)|reflexivity]).
  assert (NB : nobody z b w = false) by (apply nobody_false; exact HC).
  assert (Z3 : (z <? 200)%Z = false) by (apply Z.ltb_ge; exact Z2).
  set (d := Call KGet 0 (Over (RStatus z)) true).
  assert (LEN : length (repeat d m) = m) by apply repeat_length.
  assert (NTH : forall y, nth_error (repeat d m ++ [y]) m = Some y) by (intros y; rewrite nth_error_app2 by lia; rewrite LEN, Nat.sub_diag; reflexivity).
  assert (SET : forall y y', firstn m (repeat d m ++ [y]) ++ y' :: skipn (S m) (repeat d m ++ [y]) = repeat d m ++ [y']).
  { intros y y'. rewrite <- LEN at 1. rewrite firstn_app, firstn_all, LEN, Nat.sub_diag. cbn [firstn]. rewrite app_nil_r. f_equal. f_equal.
    apply skipn_all2. rewrite app_length. cbn. lia. }
  assert (TK : taken (St l (repeat d m ++ [Call KGet 0 Ready false]) []) = m).
  { unfold taken. cbn. rewrite filter_app, app_length. cbn. rewrite Nat.add_0_r. clear - LEN. assert (Q : forall k, length (filter c_held (repeat d k)) = k).
    { induction k as [|k IH]; [reflexivity|]. cbn. rewrite IH. reflexivity. } apply Q. }
  cbn [exec]. cbn [step calls limit dones]. cbn [step calls]. rewrite NTH.
  change (is_done (St l (repeat d m ++ [Call KGet 0 Ready false]) []) 0) with false. rewrite TK. cbn [limit orb].
  replace (l <=? m) with false by (symmetry; apply Nat.leb_gt; lia). unfold set. cbn [calls limit dones]. rewrite SET.
  cbn [exec step calls]. rewrite NTH, Z3, G, NB. cbn [negb andb]. unfold set. cbn [calls limit dones]. rewrite SET.
  f_equal. f_equal. change (S m) with (1 + m). rewrite Nat.add_comm, repeat_app. reflexivity.
Qed.

(* C116, refuted in its effect: with as many such answers as there can be connections, each of the calls having returned, every further
   call fails, until a context of theirs is done. *)
Theorem C116_exhausted_refuted : forall use n z b w, ~ success z -> (200 <= z)%Z -> has_content z b w ->
  exists ls s, exec use (init n) ls = Some s /\ length (begun ls) = n /\ (forall i, i < n -> returned s i (RStatus z)) /\
    forall ls' s' i r, (forall c, ~ cancelled ls' c) -> exec use s ls' = Some s' -> n <= i -> returned s' i r -> r = RFail.
Proof.
  intros use n z b w NS Z2 HC. pose proof (failing_runs use n z b w n NS Z2 HC (Nat.le_refl n)) as E.
  exists (failing (Answer z b w) n), (St n (repeat (Call KGet 0 (Over (RStatus z)) true) n) []). split; [exact E|]. split; [|split].
  - pose proof (i_len _ _ _ _ (inv_exec _ _ _ _ E)) as L. rewrite <- L. apply repeat_length.
  - intros i L. exists (Call KGet 0 (Over (RStatus z)) true). split; [|reflexivity]. cbn. rewrite nth_error_repeat by exact L. reflexivity.
  - intros ls' s' i r NC E' L (x & X & R).
    assert (C : cold x).
    { refine (cold_exec use ls' _ s' n NC _ E' _ _ i x L X).
      - unfold nstuck. cbn. assert (Q : forall k, length (filter stuck (repeat (Call KGet 0 (Over (RStatus z)) true) k)) = k) by (induction k as [|k IH]; [reflexivity|cbn; rewrite IH; reflexivity]). rewrite Q. lia.
      - cbn. rewrite repeat_length. lia.
      - cbn. intros j y Lj Y. assert (j < n). { rewrite <- (repeat_length (Call KGet 0 (Over (RStatus z)) true) n). apply nth_error_Some. rewrite Y. discriminate. } lia. }
    destruct C as [C|C]; rewrite R in C; [discriminate|injection C; auto].
Qed.
Print Assumptions C116_exhausted_refuted.

(* C117: under every schedule, a call has at most one answer; with another status than 200 and 204 it returns that status; with 200 or 204
   it returns the whole content and nothing else, or, if the connection breaks or the context is done, an error; API fails also for content that
   it cannot use; no answer is an error. *)
Theorem C117_result : forall use n ls s i k c r, exec use (init n) ls = Some s -> began ls i k c -> returned s i r ->
  (forall z, r = RStatus z <-> ~ success z /\ exists b w, answered ls i (Answer z b w)) /\
  (forall b', r = ROk b' -> exists z b w, answered ls i (Answer z b w) /\ success z /\ content z b w b' /\ (k = KApi -> z = 204%Z \/ use b' = true)) /\
  (forall z b w b', answered ls i (Answer z b w) -> success z -> content z b w b' -> (k = KApi -> z = 204%Z \/ use b' = true) -> r = ROk b' \/ (r = RFail /\ cancelled ls c)) /\
  (answered ls i NoAnswer -> r = RFail) /\
  (forall a a', answered ls i a -> answered ls i a' -> a = a').
Proof.
  intros use n ls s i k c r E B (x & X & R). pose proof (inv_exec use n ls s E) as V.
  pose proof (i_began _ _ _ _ V i x X) as B'. unfold began in *. rewrite B in B'. injection B' as Bk Bc.
  pose proof (i_fine _ _ _ _ V i x X) as F. unfold fine in F. rewrite R in F. rewrite <- Bk, <- Bc in F. 
  assert (CU : forall z b w b1 b2, content z b w b1 -> content z b w b2 -> b1 = b2).
  { intros z b w b1 b2 [[P ->]|(P & _ & ->)] [[Q ->]|(Q & _ & ->)]; tauto. }
  destruct r as [b'|z|].
  - destruct F as (Fh & z & b & w & F1 & F2 & F3 & F4). split; [|split; [|split; [|split]]].
    + intros z'. split; [discriminate|]. intros (NS & b1 & w1 & A). apply F1 in A. injection A as -> -> ->. destruct (NS F2).
    + intros b1 Q. injection Q as <-. exists z, b, w. split; [apply F1; reflexivity|auto].
    + intros z1 b1 w1 b2 A _ C _. apply F1 in A. injection A as -> -> ->. left. f_equal. exact (CU _ _ _ _ _ F3 C).
    + intros A. apply F1 in A. discriminate A.
    + intros a a' A A'. apply F1 in A. apply F1 in A'. congruence.
  - destruct F as (b & w & F1 & F2 & F3). split; [|split; [|split; [|split]]].
    + intros z'. split.
      * intros Q. injection Q as <-. split; [exact F2|]. exists b, w. apply F1. reflexivity.
      * intros (NS & b1 & w1 & A). apply F1 in A. injection A as -> -> ->. reflexivity.
    + discriminate.
    + intros z1 b1 w1 b2 A S1 _ _. apply F1 in A. injection A as -> -> ->. destruct (F2 S1).
    + intros A. apply F1 in A. discriminate A.
    + intros a a' A A'. apply F1 in A. apply F1 in A'. congruence.
  - destruct F as (Fh & F). split; [|split; [|split; [|split]]].
    + intros z'. split; [discriminate|]. intros (NS & b1 & w1 & A). destruct F as [F|[F|(z & b & w & F1 & F2 & _)]].
      * destruct (F _ A).
      * apply F in A. discriminate A.
      * apply F1 in A. injection A as -> -> ->. destruct (NS F2).
    + discriminate.
    + intros z1 b1 w1 b2 A S1 C U. right. split; [reflexivity|]. destruct F as [F|[F|(z & b & w & F1 & F2 & F3)]].
      * destruct (F _ A).
      * apply F in A. discriminate A.
      * apply F1 in A. injection A as -> -> ->. destruct F3 as [[HC [W|W]]|(K & Z2 & b' & C' & U')].
        -- destruct C as [[C _]|(_ & C & _)]; [destruct HC; tauto|congruence].
        -- exact W.
        -- rewrite (CU _ _ _ _ _ C C') in U. destruct (U K) as [Q|Q]; [subst z; discriminate Q|congruence].
    + reflexivity.
    + intros a a' A A'. destruct F as [F|[F|(z & b & w & F1 & F2 & _)]].
      * destruct (F _ A).
      * apply F in A. apply F in A'. congruence.
      * apply F1 in A. apply F1 in A'. congruence.
Qed.
Print Assumptions C117_result.

(* C117: it can always go on until it has returned, once the answer is there (or none). *)
Theorem C117_returns : forall use n ls s i a, exec use (init n) ls = Some s -> answered ls i a ->
  exists ls' s' r, exec use s ls' = Some s' /\ returned s' i r.
Proof.
  intros use n ls s i a E A. pose proof (inv_exec use n ls s E) as V. pose proof (i_ans _ _ _ _ V i a A) as L.
  destruct (nth_error (calls s) i) as [[k c g h]|] eqn:X; [|apply nth_error_None in X; lia].
  assert (CL : forall s1 x r, nth_error (calls s1) i = Some x -> c_stage x = Read r -> exists s2 r2, step use s1 (LClose i) = Some s2 /\ returned s2 i r2).
  { intros s1 [k1 c1 g1 h1] r X1 G. cbn in G. subst g1. cbn [step]. rewrite X1.
    destruct k1, r as [b|]; try destruct (use b); eexists; eexists; (split; [reflexivity|]); unfold returned; rewrite (nth_set s1 i _ _ i X1), Nat.eqb_refl; eexists; (split; [reflexivity|]); reflexivity. }
  pose proof (i_fine _ _ _ _ V i _ X) as F. unfold fine in F. cbn in F. destruct g as [| |z b w|r|r].
  - destruct F as [F _]. destruct (F _ A).
  - destruct F as [F _]. destruct (F _ A).
  - assert (RD : exists ok s1 x r, step use s (LRead i ok) = Some s1 /\ nth_error (calls s1) i = Some x /\ c_stage x = Read r).
    { destruct (nobody z b w) eqn:NB; [|destruct w].
      - exists true. eexists. eexists. eexists. cbn [step]. rewrite X, NB. split; [reflexivity|]. rewrite (nth_set s i _ _ i X), Nat.eqb_refl. split; reflexivity.
      - exists true. eexists. eexists. eexists. cbn [step]. rewrite X, NB. split; [reflexivity|]. rewrite (nth_set s i _ _ i X), Nat.eqb_refl. split; reflexivity.
      - exists false. eexists. eexists. eexists. cbn [step]. rewrite X, NB. split; [reflexivity|]. rewrite (nth_set s i _ _ i X), Nat.eqb_refl. split; reflexivity. }
    destruct RD as (ok & s1 & x & r & S1 & X1 & G1). destruct (CL s1 x r X1 G1) as (s2 & r2 & S2 & R2).
    exists [LRead i ok; LClose i], s2, r2. cbn [exec]. rewrite S1. cbn [exec]. rewrite S2. auto.
  - destruct (CL s _ r X eq_refl) as (s2 & r2 & S2 & R2). exists [LClose i], s2, r2. cbn [exec]. rewrite S2. auto.
  - exists [], s, r. split; [reflexivity|]. eexists. split; [exact X|reflexivity].
Qed.
Print Assumptions C117_returns.

(* C116, C117: three calls at once, with one refused for lack of a connection, one answered with 404, one read, one used by API *)
Example C116_ex : let ls := [LCall KGet 1; LCall KPost 2; LCall KApi 2; LDial 0; LDial 1; LDial 2; LAnswer 1 (Answer 200 (B "ok"%string) true); LAnswer 0 (Answer 404 (B "x"%string) true);
    LRead 1 true; LClose 1; LCall KApi 3; LDial 3; LAnswer 3 (Answer 200 (B "{}"%string) true); LRead 3 true; LClose 3; LCancel 2] in
  exists s, exec (fun _ => true) (init 2) ls = Some s /\ began ls 0 KGet 1 /\ returned s 0 (RStatus 404) /\ returned s 1 (ROk (B "ok"%string)) /\ returned s 2 RFail /\
    returned s 3 (ROk (B "{}"%string)) /\ occupies s 0 /\ answered ls 0 (Answer 404 (B "x"%string) true) /\ has_content 404 (B "x"%string) true /\ ~ success 404 /\ ~ cancelled ls 1 /\ cancelled ls 2.
Proof.
  eexists. split; [vm_compute; reflexivity|]. split; [reflexivity|]. repeat (split; [eexists; split; reflexivity|]).
  split; [unfold answered; cbn; tauto|]. split; [split; [intros [H|H]; discriminate H|left; discriminate]|]. split; [intros [H|H]; discriminate H|].
  split; [unfold cancelled; cbn; intuition discriminate|unfold cancelled; cbn; tauto].
Qed.
