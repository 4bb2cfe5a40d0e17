(* Model of /repo/utils/maps/maps.go. *)
From Coq Require Import List.
Import ListNotations.

Section Mp.
  (* keys and values; a Pair (utils/maps/maps.go:21-24) is a pair *)
  Context {K V : Type}.
  (* utils/maps/maps.go:26-34 Pairs; visited: the entries of the map in the order in which this range statement visits them *)
  Definition Pairs (visited : list (K * V)) : list (K * V) := fold_left (fun out p => out ++ [(fst p, snd p)]) visited [].
  (* make([]T, n), out[i] = x for each i in turn, utils/maps/maps.go:6-9,14-17; zero: what make has put there *)
  Fixpoint set_at {T} (out : list T) (i : nat) (x : T) : list T :=
    match out, i with
    | [], _ => []
    | _ :: r, 0 => x :: r
    | y :: r, S i => y :: set_at r i x
    end.
  (* see above *)
  Definition fill {T} (zero : T) (f : K * V -> T) (l : list (K * V)) : list T :=
    snd (fold_left (fun st p => (S (fst st), set_at (snd st) (fst st) (f p))) l (0, repeat zero (length l))).
  (* utils/maps/maps.go:5-11 Keys *)
  Definition Keys (zero : K) (l : list (K * V)) : list K := fill zero fst l.
  (* utils/maps/maps.go:13-19 Values *)
  Definition Values (zero : V) (l : list (K * V)) : list V := fill zero snd l.
End Mp.
