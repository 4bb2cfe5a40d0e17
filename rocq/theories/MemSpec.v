(* Specification vocabulary for Mem: the cached value is read off the history. *)
From Coq Require Import List.
From Verif Require Import LruModel MemModel.
Import ListNotations.

Section Spec.
  Context {K V E : Type} (dec : forall x y : K, {x = y} + {x <> y}).

  (* The value of the first successful load of k since its last invalidation, given the
     earlier calls, oldest first: scan forward. *)
  Fixpoint cached (before : option V) (k : K) (ops : list (mop K V E)) : option V :=
    match ops with
    | [] => before
    | MInvalidate k' :: rest => cached (if dec k k' then None else before) k rest
    | MGet k' ld :: rest =>
        let after :=
          if dec k k' then
            match before, mlerr ld with
            | None, None => Some (mlval ld)
            | b, _ => b
            end
          else before in
        cached after k rest
    end.

  (* what a Get must return when v is cached, or nothing *)
  Definition expected (c : option V) (k : K) (ld : mloaded V E) : mresult K V E :=
    match c, mlerr ld with
    | Some v, _ => MResult v HIT None []
    | None, Some e => MResult (mlval ld) ERR (Some e) [k]
    | None, None => MResult (mlval ld) MISS None [k]
    end.
End Spec.
