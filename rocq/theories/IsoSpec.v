(* Vocabulary of the statements about the memory of requests. *)
From Coq Require Import Bool Arith ZArith List.
From Verif Require Import Prelude IsoModel.
Import ListNotations.

(* request k can get at the memory a *)
Definition sees (s : st) (k a : nat) : Prop := exists rs, nth_error (vars s) k = Some rs /\ reachable (mem s) rs a.
(* What is public: what the registered object refers to, at any time, and what a request itself writes into public memory, with
   all that this refers to. *)
Inductive public (s0 : st) : list label -> nat -> Prop :=
| pub_reg : forall ls s a, steps s0 ls s -> reach (mem s) (reg s) a -> public s0 ls a
| pub_old : forall ls l a, public s0 ls a -> public s0 (ls ++ [l]) a
| pub_write : forall ls s k a i b c, steps s0 ls s -> public s0 ls a -> reach (mem s) b c -> public s0 (ls ++ [Store k a i (Ref b)]) c.
(* who makes a step *)
Definition by_request (l : label) (k : nat) : Prop := match l with New j _ => j = k | Store j _ _ _ => j = k | _ => False end.
(* the request that begins with this step *)
Definition newest (s : st) (k : nat) : Prop := k = length (vars s).
