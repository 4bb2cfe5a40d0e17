(* Model of the set of /repo/utils/lists/set.go used by several goroutines: each call of Add, Has and Remove is one operation of a sync.Map,
   All ranges over it. *)
From Coq Require Import Bool Arith List.
From Verif Require Import Prelude ListsModel.
Import ListNotations.

Section Conc.
  Context {T : Type} (eqb : T -> T -> bool).
  (* What a goroutine does: a call and what it returns; a call of All (utils/lists/set.go:23-29), its loads, and its return. *)
  Inductive label := LOp (o : @set_op T) (b : bool) | LAll | LVisit | LRet (l : list T).
  (* the set; the calls of All that have not returned: the elements to be visited and the list so far; what was done, newest first, each with the
     set afterwards.  utils/lists/set.go:5-29 *)
  Record sst := Sst { s_set : @set_state T; s_in : nat -> option (list T * list T); s_tr : list (nat * label * @set_state T) }.
  (* utils/lists/set.go:23-29 *)
  Definition set_in (f : nat -> option (list T * list T)) (g : nat) x : nat -> option (list T * list T) := fun y => if Nat.eqb y g then x else f y.
  (* One step.  sync.Map.Range (under utils/lists/set.go:24) takes the keys at once, among them all that are in the map, and then loads each, in
     any order; one that is not in the map then is left out.  Elements that cannot be compared, for which sync.Map panics, are left out. *)
  Inductive sstep : sst -> sst -> Prop :=
  | s_op g o s b m : s_in s g = None -> set_step eqb (s_set s) o = (b, m) -> sstep s (Sst m (s_in s) ((g, LOp o b, m) :: s_tr s))
  | s_range g ks s : s_in s g = None -> NoDup ks -> (forall k v, mget eqb (s_set s) k = Some v -> In k ks) ->
      sstep s (Sst (s_set s) (set_in (s_in s) g (Some (ks, []))) ((g, LAll, s_set s) :: s_tr s))
  | s_visit g a k b acc s : s_in s g = Some (a ++ k :: b, acc) ->
      sstep s (Sst (s_set s) (set_in (s_in s) g (Some (a ++ b, match mget eqb (s_set s) k with Some _ => acc ++ [k] | None => acc end))) ((g, LVisit, s_set s) :: s_tr s))
  | s_ret g acc s : s_in s g = Some ([], acc) -> sstep s (Sst (s_set s) (set_in (s_in s) g None) ((g, LRet acc, s_set s) :: s_tr s)).
  (* utils/lists/set.go:5-7, before its use *)
  Definition sstart : sst := Sst [] (fun _ => None) [].
  (* utils/lists/set.go:9-29, any number of steps *)
  Inductive ssteps : sst -> Prop :=
  | ss_start : ssteps sstart
  | ss_more s s' : ssteps s -> sstep s s' -> ssteps s'.
End Conc.
