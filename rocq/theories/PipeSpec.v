(* Vocabulary of the statements about Pipe: functions of the history (events newest first) only. *)
From Coq Require Import Bool Arith List.
From Verif Require Import Prelude PipeModel.
Import ListNotations.

Section Spec.
  Context {V : Type}.
  (* the nodes of the successful writes, of the successful reads, oldest first *)
  Fixpoint sent (l : list (event V)) : list V :=
    match l with [] => [] | EOk _ v :: t => sent t ++ [v] | _ :: t => sent t end.
  Fixpoint received (l : list (event V)) : list V :=
    match l with [] => [] | ERead _ v :: t => received t ++ [v] | _ :: t => received t end.
  (* the call of Write that w is in *)
  Fixpoint writes (w : nat) (l : list (event V)) : option V :=
    match l with
    | [] => None
    | ECall u v :: t => if u =? w then Some v else writes w t
    | (EOk u _ | EClosed u | ECancelW u) :: t => if u =? w then None else writes w t
    | _ :: t => writes w t
    end.
  (* every return of Write answers a call of the same writer; the node sent is the one given *)
  Fixpoint matched (l : list (event V)) : Prop :=
    match l with
    | [] => True
    | EOk w v :: t => writes w t = Some v /\ matched t
    | (EClosed w | ECancelW w) :: t => writes w t <> None /\ matched t
    | _ :: t => matched t
    end.
  (* the call of Write or Read, by the given caller, returned *)
  Definition w_returns (w : nat) (e : event V) : Prop :=
    match e with EOk u _ | EClosed u | ECancelW u => u = w | _ => False end.
End Spec.
