(* Model of /repo/utils/caches/mem.go. *)
From Coq Require Import Bool Arith List.
From Verif Require Import Prelude LruModel.
Import ListNotations.

Section Mem.
  Context {K V E : Type} (eqb : K -> K -> bool).

  (* utils/caches/mem.go:9-13 memCache; the lock is held for the whole of each method, the map is never
     iterated *)
  Definition mem := K -> option V.

  (* utils/caches/mem.go:15-20 Mem *)
  Definition NewMem : mem := fun _ => None.

  (* utils/caches/mem.go:22-26 Invalidate *)
  Definition mInvalidate (m : mem) (k : K) : mem := fun k' => if eqb k' k then None else m k'.

  (* what the loader returns (utils/caches/mem.go:10): a value and maybe an error *)
  Record mloaded := MLoaded { mlval : V; mlerr : option E }.

  (* value, HitMiss and error returned by Get (utils/caches/mem.go:28), and the keys for which the loader ran *)
  Record mresult := MResult { mval : V; mhit : hitmiss; merr : option E; mloads : list K }.

  (* utils/caches/mem.go:28-41 Get; `ld` is what the loader returns if it is called *)
  Definition mGet (m : mem) (k : K) (ld : mloaded) : mresult * mem :=
    match m k with
    | Some v => (MResult v HIT None [], m)
    | None =>
        match mlerr ld with
        | Some e => (MResult (mlval ld) ERR (Some e) [k], m)
        | None => (MResult (mlval ld) MISS None [k], fun k' => if eqb k' k then Some (mlval ld) else m k')
        end
    end.

  (* calls: utils/caches/mem.go:22,28 *)
  Inductive mop := MGet (k : K) (ld : mloaded) | MInvalidate (k : K).

  (* a history of calls, utils/caches/mem.go:22-41 *)
  Fixpoint mrun (m : mem) (ops : list mop) : list (option mresult) * mem :=
    match ops with
    | [] => ([], m)
    | MGet k ld :: rest =>
        let '(r, m1) := mGet m k ld in
        let '(rs, m2) := mrun m1 rest in (Some r :: rs, m2)
    | MInvalidate k :: rest =>
        let '(rs, m2) := mrun (mInvalidate m k) rest in (None :: rs, m2)
    end.
End Mem.
Arguments mop : clear implicits.
Arguments mloaded : clear implicits.
Arguments mresult : clear implicits.
