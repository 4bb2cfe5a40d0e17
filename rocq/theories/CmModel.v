(* Model of the typed map of /repo/utils/sync/map.go used by several goroutines: each operation of SMapModel is one step; Map and
   MarshalNode, which range over the map, are not. *)
From Coq Require Import Bool Arith List.
From Verif Require Import Prelude SMapModel.
Import ListNotations.

Section Conc.
  Context {K V : Type} (eqb : K -> K -> bool) (zero : V).
  (* What a goroutine does: an operation and what it returns; a call of Map (utils/sync/map.go:17-24, also that of MarshalNode, 26-29), its
     loads, and its return.  Keys and values are not of interface types here. *)
  Inductive label := LOp (o : @op K V) (r : res (@answer V)) | LMap | LVisit | LRet (m : list (K * V)).
  (* the map; the calls of Map that have not returned: the keys to be visited and the map so far; what was done, newest first, each with the map
     afterwards.  utils/sync/map.go:11-24 *)
  Record cst := Cst { c_map : list (K * V); c_in : nat -> option (list K * list (K * V)); c_tr : list (nat * label * list (K * V)) }.
  (* utils/sync/map.go:17-24 *)
  Definition set_in (l : nat -> option (list K * list (K * V))) (g : nat) x : nat -> option (list K * list (K * V)) := fun y => if Nat.eqb y g then x else l y.
  (* One step.  sync.Map.Range (under utils/sync/map.go:93,101) takes the keys at once, among them all that are in the map, and then loads the
     value of each key, in any order; a key that is not in the map then is left out. *)
  Inductive cstep : cst -> cst -> Prop :=
  | c_op g o s m r : c_in s g = None -> sop eqb (fun _ => false) zero (c_map s) o = (m, r) -> cstep s (Cst m (c_in s) ((g, LOp o r, m) :: c_tr s))
  | c_range g ks s : c_in s g = None -> NoDup ks -> (forall k v, mget eqb (c_map s) k = Some v -> In k ks) ->
      cstep s (Cst (c_map s) (set_in (c_in s) g (Some (ks, []))) ((g, LMap, c_map s) :: c_tr s))
  | c_visit g a k b acc s : c_in s g = Some (a ++ k :: b, acc) ->
      cstep s (Cst (c_map s) (set_in (c_in s) g (Some (a ++ b, match mget eqb (c_map s) k with Some v => mset eqb acc k v | None => acc end))) ((g, LVisit, c_map s) :: c_tr s))
  | c_ret g acc s : c_in s g = Some ([], acc) -> cstep s (Cst (c_map s) (set_in (c_in s) g None) ((g, LRet acc, c_map s) :: c_tr s)).
  (* utils/sync/map.go:11, before its use *)
  Definition cstart : cst := Cst [] (fun _ => None) [].
  (* utils/sync/map.go:17-119, any number of steps *)
  Inductive csteps : cst -> Prop :=
  | cs_start : csteps cstart
  | cs_more s s' : csteps s -> cstep s s' -> csteps s'.
End Conc.
