(* Properties of the typed sync.Map. *)
From Coq Require Import Bool Arith List Permutation.
From Verif Require Import Prelude PreludeFacts SMapModel SMapSpec SMapProofs.
Import ListNotations.

(* C54: in every history, for every key and value type (interface values that are nil included), no operation panics, and
   each answers what a partial function would: the stored value, or the zero value and false. *)
Theorem C54_point_ops : forall (K V : Type) (eqb : K -> K -> bool) (nilv : V -> bool) (zero : V),
  eqb_ok eqb -> (forall v, nilv v = true -> v = zero) ->
  forall os, exists m l, srun eqb nilv zero [] os = (m, map Ok l) /\ spec_run eqb zero (fun _ => None) os (mget eqb m) l.
Proof.
  intros K V eqb nilv zero Heq Hnil os.
  destruct (srun_ok eqb Heq nilv zero Hnil [] os ltac:(constructor)) as (m & l & E & _ & R). exists m, l. split; [exact E|exact R].
Qed.
Print Assumptions C54_point_ops.

(* C54 as stated is false for Range, RangeErr and Map: they panic on a stored nil, here of type any. *)
Theorem C54_range_refuted :
  ~ (forall (nilv : option nat -> bool) (order : list (nat * option nat)), (forall v, nilv v = true -> v = None) ->
     NoDup (map fst order) -> sMap Nat.eqb (fun _ => false) nilv order <> Panic).
Proof.
  intros H. apply (H (fun v => match v with None => true | _ => false end) [(1, Some 2); (3, None)]).
  - intros [v|]; [discriminate|reflexivity].
  - repeat constructor; cbn; intuition discriminate.
  - reflexivity.
Qed.
Print Assumptions C54_range_refuted.
(* a nil interface as key is enough *)
Theorem C54_range_key_refuted :
  ~ (forall (nilk : option nat -> bool) (order : list (option nat * nat)),
     (forall v, nilk v = true -> v = None) -> NoDup (map fst order) ->
     forall f, sRange nilk (fun _ => false) order f 0 <> Panic).
Proof.
  intros H. apply (H (fun v => match v with None => true | _ => false end) [(Some 1, 2); (None, 3)]) with (f := fun s _ _ => (s, true)).
  - intros [v|]; [discriminate|reflexivity].
  - repeat constructor; cbn; intuition discriminate.
  - reflexivity.
Qed.
Print Assumptions C54_range_key_refuted.

(* What holds: when no stored key or value is a nil interface, Range calls the callback on the entries in the order of the
   sync.Map, each once, until it says stop. *)
Theorem C54_range_partial : forall (K V S : Type) (nilk : K -> bool) (nilv : V -> bool) (f : S -> K -> V -> S * bool) order s,
  Forall (fun e => nilk (fst e) = false /\ nilv (snd e) = false) order ->
  exists s', sRange nilk nilv order f s = Ok s' /\ visits f order s s'.
Proof. exact (fun K V S nilk nilv f order s H => range_visits nilk nilv f order s H). Qed.
Print Assumptions C54_range_partial.

(* RangeErr likewise, up to the first error, which it returns *)
Theorem C54_range_err_partial : forall (K V S E : Type) (nilk : K -> bool) (nilv : V -> bool) (f : S -> K -> V -> S * option E) order s,
  Forall (fun e => nilk (fst e) = false /\ nilv (snd e) = false) order ->
  exists s' e, sRangeErr nilk nilv order f s = Ok (s', e) /\
    visits (fun p k v => let (s1, e1) := f (fst p) k v in ((s1, e1), match e1 with None => true | _ => false end)) order
      (s, None) (s', e).
Proof. exact (fun K V S E nilk nilv f order s H => range_err_visits nilk nilv f order s None H). Qed.
Print Assumptions C54_range_err_partial.

(* Map gives exactly the entries, whatever the order of iteration. *)
Theorem C54_map_partial : forall (K V : Type) (eqb : K -> K -> bool) (nilk : K -> bool) (nilv : V -> bool) (m order : list (K * V)),
  eqb_ok eqb -> NoDup (map fst m) -> Permutation order m ->
  Forall (fun e => nilk (fst e) = false /\ nilv (snd e) = false) m ->
  exists r, sMap eqb nilk nilv order = Ok r /\ forall k, mget eqb r k = mget eqb m k.
Proof.
  intros K V eqb nilk nilv m order Heq N P F.
  assert (No : NoDup (map fst order)) by (eapply Permutation_NoDup; [apply Permutation_map, Permutation_sym, P|exact N]).
  assert (Fo : typed nilk nilv order) by (eapply Permutation_Forall; [apply Permutation_sym, P|exact F]).
  exists order. split.
  - unfold sMap, sRangeErr. rewrite (map_all nilk nilv eqb order [] Fo No Heq); [reflexivity|]. intros k _ [].
  - intros k. destruct (mget eqb m k) as [v|] eqn:E.
    + apply (mget_in eqb Heq) in E; [|exact N]. apply (mget_in eqb Heq); [exact No|].
      eapply Permutation_in; [apply Permutation_sym, P|exact E].
    + apply (mget_none eqb Heq) in E. apply (mget_none eqb Heq). intros Hx. apply E.
      eapply Permutation_in; [apply Permutation_map, P|exact Hx].
Qed.
Print Assumptions C54_map_partial.

Example C54_ex :
  let nilv := fun v : option nat => match v with None => true | _ => false end in
  srun Nat.eqb nilv None [] [OStore 1 (Some 5); OLoad 1; OStore 2 None; OLoad 2; OLoad 3; OLoadOrStore 1 (Some 6);
                             OLoadAndDelete 1; OGet 1; OIsEmpty]
  = ([(2, None)], map Ok [ANone; AVB (Some 5) true; ANone; AVB None true; AVB None false; AVB (Some 5) true;
                          AVB (Some 5) true; AV None; AB false]) /\
  sRange (fun _ => false) (fun _ => false) [(1, 10); (2, 20); (3, 30)] (fun s k v => (s + v, k <? 2)) 0 = Ok 30 /\
  sMap Nat.eqb (fun _ => false) (fun _ => false) [(2, 20); (1, 10)] = Ok [(2, 20); (1, 10)].
Proof. repeat split. Qed.
