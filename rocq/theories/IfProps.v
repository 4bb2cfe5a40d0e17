(* C118: values can be decoded by several goroutines at once. *)
From Coq Require Import String Bool Arith List Lia.
From Verif Require Import Prelude IfModel IfSpec IfProofs.
Import ListNotations.

(* C118, weaker than stated: once every type that is decoded through JSON has been decoded before, by calls that have returned, any number of
   calls at once, under every schedule, leave the program alone and log nothing.  Missing: types that are decoded for the first time. *)
Theorem C118_known_partial : forall ls s ls' s', exec init ls = Some s -> fatal s = false -> (forall i, i < length (gos s) -> finished s i) ->
  (forall v m, In v (variables ls') -> warned_about v m -> exists v', In v' (variables ls) /\ warned_about v' m) ->
  exec s ls' = Some s' -> fatal s' = false /\ logged s' = logged s.
Proof.
  intros ls s ls' s' E F D K E'. assert (C : calm s).
  { split; [exact F|]. intros i p P. assert (L : i < length (gos s)) by (apply nth_error_Some; rewrite P; discriminate).
    specialize (D i L). unfold finished in D. rewrite P in D. injection D as ->. exists []. split; [reflexivity|intros m []]. }
  destruct (calm_exec ls' s s' C) with (2 := E') as [[F' _] L'].
  - intros v m V W. destruct (K v m V W) as (v' & V' & W'). exact (all_known ls s E D v' m V' W').
  - auto.
Qed.
Print Assumptions C118_known_partial.

(* C118, weaker than stated: with one call at a time the program goes on, each warning is logged at most once, and, when the calls have
   returned, exactly those for the types decoded.  Missing: calls at once. *)
Theorem C118_single_partial : forall ls s, exec init ls = Some s -> one_by_one init ls ->
  fatal s = false /\ NoDup (logged s) /\
  ((forall i, i < length (gos s) -> finished s i) -> forall m, In m (logged s) <-> exists v, In v (variables ls) /\ warned_about v m).
Proof.
  intros ls s E O. pose proof (single_exec ls init s single_init O E) as G. split; [exact (g_fatal _ G)|]. split; [exact (g_logged _ G)|].
  intros D m. destruct (base_exec ls s E) as [_ [F1 _]]. split; [intros M; apply F1; auto|]. intros (v & V & W).
  pose proof (all_known ls s E D v m V W) as K. destruct (g_all _ G m K) as [Q|(i & r & P)]; [exact Q|].
  assert (L : i < length (gos s)) by (apply nth_error_Some; rewrite P; discriminate). specialize (D i L). unfold finished in D. rewrite P in D. discriminate D.
Qed.
Print Assumptions C118_single_partial.

(* C118: a call can always return, if no other goroutine is writing the map *)
Theorem C118_returns : forall ls s vs, exec init ls = Some s -> fatal s = false -> (forall j m r, nth_error (gos s) j <> Some (Writing m r)) ->
  exists ls' s', exec s (Begin vs :: ls') = Some s' /\ variables ls' = [] /\ fatal s' = false /\ finished s' (length (gos s)).
Proof.
  intros ls s vs _ F NW. set (s1 := St (known s) (gos s ++ [Going vs]) (logged s) false).
  destruct (alone_ends vs s1 (length (gos s)) eq_refl) as (ls' & s' & E & V & F' & D).
  - intros j p P W. cbn in P. apply nth_snoc in P. destruct P as [P|[-> _]]; [|reflexivity]. destruct p; try discriminate W. destruct (NW _ _ _ P).
  - cbn. rewrite nth_error_app2, Nat.sub_diag by lia. reflexivity.
  - exists ls', s'. split; [cbn [exec]; unfold step; rewrite F; exact E|]. split; [exact V|]. split; [exact F'|exact D].
Qed.
Print Assumptions C118_returns.

(* C118, refuted for every such type, whatever was decoded before: when it is decoded for the first time, a second call at the same
   time, for any type with a warning (also one given already), can stop the whole program. *)
Theorem C118_refuted : forall ls s v v' m m', exec init ls = Some s -> fatal s = false -> (forall i, i < length (gos s) -> finished s i) ->
  warned_about v m -> warned_about v' m' -> (forall u, In u (variables ls) -> ~ warned_about u m) ->
  exists ls' s', variables ls' = [v; v'] /\ exec s ls' = Some s' /\ fatal s' = true.
Proof.
  intros ls s v v' m m' E F D W W' NK. destruct (base_exec ls s E) as [_ [F1 _]].
  assert (MN : mem m (known s) = false).
  { destruct (mem m (known s)) eqn:M; [|reflexivity]. apply mem_in in M. destruct (F1 m (or_introl M)) as (u & U & WU). destruct (NK u U WU). }
  assert (NW : existsb writes (gos s) = false).
  { destruct (existsb writes (gos s)) eqn:X; [|reflexivity]. apply existsb_exists in X. destruct X as (q & Q & WQ). apply In_nth_error in Q. destruct Q as (j & Q).
    assert (L : j < length (gos s)) by (apply nth_error_Some; rewrite Q; discriminate). specialize (D j L). unfold finished in D. rewrite Q in D. injection D as ->. discriminate WQ. }
  assert (WV : warning v = [m]) by (apply warning_iff in W; destruct v; cbn in *; try contradiction; destruct W as [->|[]]; reflexivity).
  assert (WV' : warning v' = [m']) by (apply warning_iff in W'; destruct v'; cbn in *; try contradiction; destruct W' as [->|[]]; reflexivity).
  set (k := length (gos s)).
  exists [Begin [v]; Begin [v']; Run k; Run k; Run (S k)].
  set (g0 := (gos s ++ [Going [v]]) ++ [Going [v']]). 
  assert (X0 : nth_error g0 k = Some (Going [v])).
  { unfold g0. rewrite nth_error_app1 by (rewrite app_length; cbn; lia). rewrite nth_error_app2 by (unfold k; lia). unfold k. rewrite Nat.sub_diag. reflexivity. }
  assert (Y0 : nth_error g0 (S k) = Some (Going [v'])).
  { unfold g0. rewrite nth_error_app2 by (rewrite app_length; cbn; unfold k; lia). replace (S k - length (gos s ++ [Going [v]])) with 0 by (rewrite app_length; unfold k; cbn [length]; lia). reflexivity. }
  assert (SK : Nat.eqb (S k) k = false) by (apply Nat.eqb_neq; lia).
  set (g1 := put k (Absent m []) g0). set (g2 := put k (Writing m []) g1).
  assert (X1 : nth_error g1 k = Some (Absent m [])) by (unfold g1; rewrite (nth_put _ _ _ _ _ X0), Nat.eqb_refl; reflexivity).
  assert (X2 : nth_error g2 k = Some (Writing m [])) by (unfold g2; rewrite (nth_put _ _ _ _ _ X1), Nat.eqb_refl; reflexivity).
  assert (Y2 : nth_error g2 (S k) = Some (Going [v'])) by (unfold g2; rewrite (nth_put _ _ _ _ _ X1), SK; unfold g1; rewrite (nth_put _ _ _ _ _ X0), SK; exact Y0).
  assert (N0 : existsb writes g0 = false) by (unfold g0; rewrite !existsb_app, NW; reflexivity).
  assert (N1 : existsb writes g1 = false).
  { destruct (existsb writes g1) eqn:X; [|reflexivity]. apply existsb_exists in X. destruct X as (q & Q & WQ). apply In_nth_error in Q. destruct Q as (j & Q). unfold g1 in Q.
    rewrite (nth_put _ _ _ _ _ X0) in Q. destruct (Nat.eqb j k); [injection Q as <-; discriminate WQ|]. apply nth_error_In in Q.
    assert (X : existsb writes g0 = true) by (apply existsb_exists; eauto). congruence. }
  assert (N2 : existsb writes g2 = true) by (apply existsb_exists; exists (Writing m []); split; [exact (nth_error_In _ _ X2)|reflexivity]).
  exists (St (known s) g2 (logged s) true). split; [reflexivity|]. split; [|reflexivity].
  cbn [exec]. unfold step at 1. rewrite F. cbn [exec]. unfold step at 1. cbn [fatal gos known logged]. fold g0.
  cbn [exec]. unfold step at 1. cbn [fatal gos known logged]. rewrite X0, WV. unfold writing. cbn [gos]. rewrite N0, MN. fold g1.
  cbn [exec]. unfold step at 1. cbn [fatal gos known logged]. rewrite X1. unfold writing. cbn [gos]. rewrite N1. fold g2.
  cbn [exec]. unfold step at 1. cbn [fatal gos known logged]. rewrite Y2, WV'. unfold writing. cbn [gos]. rewrite N2. reflexivity.
Qed.
Print Assumptions C118_refuted.

(* C118, refuted: also if the program goes on, a warning can be logged more than once. *)
Theorem C118_twice_refuted : forall v m, warned_about v m ->
  exists ls s, exec init ls = Some s /\ variables ls = [v; v] /\ fatal s = false /\ logged s = [m; m].
Proof.
  intros v m W. apply warning_iff in W.
  exists [Begin [v]; Begin [v]; Run 0; Run 1; Run 0; Run 0; Run 0; Run 1; Run 1; Run 1].
  destruct v; cbn in W; try contradiction; destruct W as [<-|[]]; eexists; (split; [cbn; try destruct (list_eq_dec Ascii.ascii_dec name name); reflexivity|auto]).
Qed.
Print Assumptions C118_twice_refuted.

(* three calls one after the other, of two types; then two at once *)
Example C118_ex : let ls := [Begin [LfOther; LfJson (B "T"%string); LfRaw]; Run 0; Run 0; Run 0; Run 0; Run 0; Run 0; Run 0; Run 0; Run 0; Begin [LfRaw]; Run 1; Begin [LfTime]; Run 2] in
  let ls' := [Begin [LfRaw; LfNode]; Begin [LfJson (B "T"%string)]; Run 4; Run 3; Run 3] in
  exists s s', exec init ls = Some s /\ one_by_one init ls /\ fatal s = false /\ (forall i, i < length (gos s) -> finished s i) /\ logged s = [MRaw; MJson (B "T"%string)] /\
    (forall j m r, nth_error (gos s) j <> Some (Writing m r)) /\ exec s ls' = Some s' /\
    (forall v m, In v (variables ls') -> warned_about v m -> exists v', In v' (variables ls) /\ warned_about v' m) /\
    (forall u, In u (variables ls) -> ~ warned_about u (MJson (B "U"%string))) /\ warned_about (LfJson (B "U"%string)) (MJson (B "U"%string)).
Proof.
  eexists. eexists. split; [vm_compute; reflexivity|]. split; [|split; [reflexivity|split; [|split; [reflexivity|split; [|split; [vm_compute; reflexivity|split; [|split]]]]]]].
  - vm_compute. repeat split; intros i L; unfold finished; destruct i as [|[|[|i]]]; try reflexivity; exfalso; lia.
  - intros i L. cbn in L. unfold finished. destruct i as [|[|[|i]]]; try reflexivity. lia.
  - intros [|[|[|j]]] m r; try discriminate. destruct j; discriminate.
  - cbn. intros v m V W. exists v. split; [|exact W]. destruct V as [<-|[<-|[<-|[]]]]; auto. destruct W as [[W _]|(n & W & _)]; discriminate W.
  - cbn. intros u U [[_ W]|(n & -> & W)]; [discriminate W|]. injection W as <-. destruct U as [U|[U|[U|[U|[U|[]]]]]]; discriminate U.
  - right. eauto.
Qed.
