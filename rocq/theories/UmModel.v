(* Model of UnmarshalNode of /repo/utils/sync/map.go, called by any number of goroutines on one map. *)
From Coq Require Import Bool Ascii String Arith List.
From Verif Require Import Prelude DurModel.
Import ListNotations.

Section Um.
  Context {V : Type}.
  (* the m of UnmarshalNode after enc.Unmarshal (utils/sync/map.go:32-33); keys are texts *)
  Definition doc : Type := list (bytes * V).
  (* what the goroutines do, in the order in which it happens: a call of UnmarshalNode begins and reads its node, None: enc.Unmarshal returns an error, which is returned at once
     (utils/sync/map.go:31-36); one round of its loop, for the key which the range over m gives next (utils/sync/map.go:37-39); it returns (utils/sync/map.go:40);
     a call of Store (utils/sync/map.go:88-90); a call of Delete (utils/sync/map.go:108-110); a call of Load, with what it returns (utils/sync/map.go:61-68).  Each access of the sync.Map is atomic. *)
  Inductive event := Begin (t : nat) (d : option doc) | Round (t : nat) | Return (t : nat) | Store (k : bytes) (v : V) | Delete (k : bytes) | Load (k : bytes) (r : option V).
  (* the content of the map, and for each goroutine in a call what its loop has still to store; utils/sync/map.go:10-12,37-39 *)
  Record state := State { content : doc; left : nat -> option doc }.
  (* bookkeeping: where goroutine t stands in the loop of utils/sync/map.go:37-39 *)
  Definition at_ (p : nat -> option doc) (t : nat) (x : option doc) : nat -> option doc := fun u => if Nat.eqb u t then x else p u.

  (* the executions, from a map with the content m0: utils/sync/map.go:31-41,61-68,88-90,108-110.  The keys of a Go map are distinct, and the range over it gives them in any order. *)
  Inductive run (m0 : doc) : list event -> state -> Prop :=
  | run_start : run m0 [] (State m0 (fun _ => None))
  | run_begin l s t d : run m0 l s -> left s t = None -> NoDup (map fst d) -> run m0 (l ++ [Begin t (Some d)]) (State (content s) (at_ (left s) t (Some d)))
  | run_fail l s t : run m0 l s -> left s t = None -> run m0 (l ++ [Begin t None]) s
  | run_round l s t d k v : run m0 l s -> left s t = Some d -> mget beqb d k = Some v ->
      run m0 (l ++ [Round t]) (State (mset beqb (content s) k v) (at_ (left s) t (Some (mdel beqb d k))))
  | run_return l s t : run m0 l s -> left s t = Some [] -> run m0 (l ++ [Return t]) (State (content s) (at_ (left s) t None))
  | run_store l s k v : run m0 l s -> run m0 (l ++ [Store k v]) (State (mset beqb (content s) k v) (left s))
  | run_delete l s k : run m0 l s -> run m0 (l ++ [Delete k]) (State (mdel beqb (content s) k) (left s))
  | run_load l s k : run m0 l s -> run m0 (l ++ [Load k (mget beqb (content s) k)]) s.
End Um.
Arguments event : clear implicits.
Arguments state : clear implicits.
