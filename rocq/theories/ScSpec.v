(* Vocabulary of the statements about a set that several goroutines use. *)
From Coq Require Import Bool Arith List.
From Verif Require Import Prelude ListsModel ScModel.
Import ListNotations.

Section Spec.
  Context {T : Type} (dec : forall x y : T, {x = y} + {x <> y}).
  Notation entry := (nat * @label T * @set_state T)%type.
  (* what happened to the element, oldest first: true for an Add that returned true, false for a Remove that did *)
  Definition change (x : T) (l : @label T) : list bool :=
    match l with
    | LOp (SAdd y) true => if dec x y then [true] else []
    | LOp (SRemove y) true => if dec x y then [false] else []
    | _ => []
    end.
  Fixpoint changes (x : T) (tr : list entry) : list bool :=
    match tr with [] => [] | e :: r => changes x r ++ change x (snd (fst e)) end.
  (* by turns, beginning with b *)
  Fixpoint turns (b : bool) (l : list bool) : Prop := match l with [] => True | c :: r => c = b /\ turns (negb b) r end.
  (* the calls of Add and Remove for the element *)
  Definition adds (x : T) (tr : list entry) : Prop := exists g b m, In (g, LOp (SAdd x) b, m) tr.
  Definition removes (x : T) (tr : list entry) : Prop := exists g b m, In (g, LOp (SRemove x) b, m) tr.
  (* g does not call All here, nor return from it *)
  Definition no_all (g : nat) (tr : list entry) : Prop := forall e, In e tr -> fst (fst e) = g -> match snd (fst e) with LAll | LRet _ => False | _ => True end.
  (* the element was in the set when a call of All began or after one of the steps since; that it was not *)
  Definition was (x : T) (mid : list entry) (m0 : @set_state T) : Prop := exists m, In m (map snd mid ++ [m0]) /\ In x (map fst m).
  Definition was_not (x : T) (mid : list entry) (m0 : @set_state T) : Prop := exists m, In m (map snd mid ++ [m0]) /\ ~ In x (map fst m).
End Spec.
