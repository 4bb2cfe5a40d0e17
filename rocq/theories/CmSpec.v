(* Vocabulary of the statements about a typed sync.Map that several goroutines use. *)
From Coq Require Import Bool Arith List.
From Verif Require Import Prelude SMapModel CmModel.
Import ListNotations.

Section Spec.
  Context {K V : Type}.
  Notation entry := (nat * @label K V * list (K * V))%type.
  (* g does not call Map here, nor return from it *)
  Definition no_map (g : nat) (tr : list entry) : Prop := forall e, In e tr -> fst (fst e) = g -> match snd (fst e) with LMap | LRet _ => False | _ => True end.
  (* what the map was at the moments of a call of Map: when it began, and after each step since *)
  Definition moments (mid : list entry) (m0 : list (K * V)) : list (list (K * V)) := map snd mid ++ [m0].
  (* the operation can change what is stored for the key, can remove it *)
  Definition touches (k : K) (o : @op K V) : Prop := match o with OStore x _ | ODelete x | OLoadAndDelete x => x = k | _ => False end.
  (* the operation can store something for the key that has nothing *)
  Definition stores (k : K) (o : @op K V) : Prop := match o with OStore x _ | OLoadOrStore x _ | OGetOrStore x _ => x = k | _ => False end.
  (* LoadOrStore or GetOrStore of the key *)
  Definition loads_or_stores (k : K) (o : @op K V) : Prop := match o with OLoadOrStore x _ | OGetOrStore x _ => x = k | _ => False end.
  (* the value it answered; whether it says that it stored its own *)
  Definition value (r : res (@answer V)) : option V := match r with Ok (AV v) | Ok (AVB v _) => Some v | _ => None end.
  Definition stored (r : res (@answer V)) : Prop := exists v, r = Ok (AVB v false).
  Definition found (r : res (@answer V)) : Prop := exists v, r = Ok (AVB v true).
  (* no operation of the sort was done *)
  Definition none (P : @op K V -> Prop) (tr : list entry) : Prop := forall g o r m, In (g, LOp o r, m) tr -> ~ P o.
End Spec.
