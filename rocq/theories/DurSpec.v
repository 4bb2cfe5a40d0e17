(* What the duration theorems assume of floating point arithmetic. *)
From Coq Require Import NArith.
Local Open Scope N_scope.

(* IEEE 754: a division and a product whose exact results are integers below 2^53 are exact *)
Definition float_exact (fracval : N -> N -> nat -> N) : Prop :=
  forall f unit k, unit mod 10 ^ N.of_nat k = 0 -> f * (unit / 10 ^ N.of_nat k) < 2 ^ 53 ->
    fracval f unit k = f * (unit / 10 ^ N.of_nat k).
