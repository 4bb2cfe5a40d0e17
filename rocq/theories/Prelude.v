(* Shared vocabulary of the models: outcomes, indexed lists, byte strings,
   association maps.  No model of /repo code lives here. *)
From Coq Require Import Bool Ascii String Arith ZArith Lia List Permutation.
Import ListNotations.

(* Outcome of Go code that may panic. *)
Inductive res (A : Type) : Type :=
| Ok (a : A)
| Panic.
Arguments Ok {A} a.
Arguments Panic {A}.

Definition rbind {A B} (r : res A) (f : A -> res B) : res B :=
  match r with Ok a => f a | Panic => Panic end.

(* Outcome of a Go function returning (value, error), or panicking. *)
Inductive outcome (A E : Type) : Type :=
| Good (a : A)
| Fail (e : E)
| Crash.
Arguments Good {A E} a.
Arguments Fail {A E} e.
Arguments Crash {A E}.

(* l[i] = x for a Go slice, no effect when out of range. *)
Fixpoint upd {A} (l : list A) (i : nat) (x : A) : list A :=
  match l, i with
  | [], _ => []
  | _ :: t, 0 => x :: t
  | h :: t, S i' => h :: upd t i' x
  end.

(* l[i], l[j] = l[j], l[i], panics when an index is out of range. *)
Definition swap {A} (l : list A) (i j : nat) : res (list A) :=
  match nth_error l i, nth_error l j with
  | Some a, Some b => Ok (upd (upd l i b) j a)
  | _, _ => Panic
  end.

(* l[s:e] restricted to e <= len(l), panics when out of range. *)
Definition slice {A} (l : list A) (s e : nat) : res (list A) :=
  if (s <=? e) && (e <=? length l) then Ok (firstn (e - s) (skipn s l)) else Panic.

(* Byte strings. *)
Definition bytes := list ascii.
Definition B (s : string) : bytes := list_ascii_of_string s.

(* Association maps: a Go map as a list of entries without duplicate keys. *)
Section AssocMap.
  Context {K V : Type} (eqb : K -> K -> bool).

  Fixpoint mget (m : list (K * V)) (k : K) : option V :=
    match m with
    | [] => None
    | (k', v) :: t => if eqb k k' then Some v else mget t k
    end.

  (* m[k] = v: replaces in place or appends. *)
  Fixpoint mset (m : list (K * V)) (k : K) (v : V) : list (K * V) :=
    match m with
    | [] => [(k, v)]
    | (k', v') :: t => if eqb k k' then (k', v) :: t else (k', v') :: mset t k v
    end.

  (* delete(m, k) *)
  Fixpoint mdel (m : list (K * V)) (k : K) : list (K * V) :=
    match m with
    | [] => []
    | (k', v) :: t => if eqb k k' then t else (k', v) :: mdel t k
    end.
End AssocMap.

(* Boolean equality that decides Leibniz equality (Go's == on comparable types). *)
Definition eqb_ok {K} (eqb : K -> K -> bool) : Prop :=
  forall x y, eqb x y = true <-> x = y.
