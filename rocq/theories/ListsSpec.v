(* Specification vocabulary for lists.Set: membership as a function of the history
   of calls, newest call first. *)
From Coq Require Import Bool List.
From Verif Require Import ListsModel.
Import ListNotations.

Section S.
  Context {T : Type} (dec : forall x y : T, {x = y} + {x <> y}).

  (* x is in the set iff the most recent Add or Remove of x is an Add. *)
  Fixpoint present (x : T) (newest_first : list (@set_op T)) : bool :=
    match newest_first with
    | [] => false
    | SAdd t :: older => if dec t x then true else present x older
    | SRemove t :: older => if dec t x then false else present x older
    | SHas _ :: older => present x older
    end.

  (* what the call must answer after that history *)
  Definition answer (newest_first : list (@set_op T)) (o : @set_op T) : bool :=
    match o with
    | SAdd t => negb (present t newest_first)
    | SHas t => present t newest_first
    | SRemove t => present t newest_first
    end.

  (* the answers of a whole sequence of calls *)
  Fixpoint answers (newest_first : list (@set_op T)) (ops : list (@set_op T)) : list bool :=
    match ops with
    | [] => []
    | o :: rest => answer newest_first o :: answers (o :: newest_first) rest
    end.
End S.
