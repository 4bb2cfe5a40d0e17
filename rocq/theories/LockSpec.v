(* Vocabulary of the statements about TryLock.  Histories are lists of events, newest first. *)
From Coq Require Import Bool Arith List.
From Verif Require Import Prelude LockModel.
Import ListNotations.

(* who has the lock according to what the calls returned *)
Fixpoint owner (l : list event) : option nat :=
  match l with
  | [] => None
  | ELock p :: _ | ETrue p :: _ => Some p
  | EUnlock _ :: _ => None
  | EFalse _ :: t => owner t
  end.
(* every Lock and every TryLock that gives true happens while nobody has the lock; every Unlock is by the one who has it *)
Fixpoint exclusive (l : list event) : Prop :=
  match l with
  | [] => True
  | (ELock p | ETrue p) :: t => owner t = None /\ exclusive t
  | EUnlock p :: t => owner t = Some p /\ exclusive t
  | EFalse p :: t => owner t <> Some p /\ exclusive t
  end.

(* what happens without anybody calling the mutex: timers fire, goroutines of TryLock move on *)
Definition internal (l : label) : Prop :=
  match l with LTimeout _ | LHClosed _ | LHUnlock _ => True | _ => False end.
