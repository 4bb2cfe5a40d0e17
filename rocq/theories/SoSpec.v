(* Vocabulary of the statements about lists.Sort. *)
From Coq Require Import Bool Arith List.
Import ListNotations.

(* less is a strict weak order (what sort.Slice asks for): nothing is less than itself, less is transitive, and so is being equivalent *)
Definition strict_weak {A} (lt : A -> A -> bool) : Prop :=
  (forall x, lt x x = false) /\ (forall x y z, lt x y = true -> lt y z = true -> lt x z = true) /\
  forall x y z, lt x y = false -> lt y x = false -> lt y z = false -> lt z y = false -> lt x z = false /\ lt z x = false.
(* no element is less than one before it *)
Definition in_order {A} (lt : A -> A -> bool) (l : list A) : Prop :=
  forall i j x y, i < j -> nth_error l i = Some x -> nth_error l j = Some y -> lt y x = false.
