(* Model of the conversions of /repo/enc/scalar.go: String.AsTime, MustTime, AsDuration and MustDuration. *)
From Coq Require Import Bool Ascii String Arith NArith ZArith List.
From Verif Require Import Prelude DurModel TimeModel.
Import ListNotations.

(* "return v, v.Parse(s)" reads the variable v and calls a method that changes it; the language leaves open which comes first
   (The Go Programming Language Specification, Order of evaluation); enc/scalar.go:42,56 *)
Inductive order := VarFirst | CallFirst.
(* Parse leaves the variable alone when it fails: enc/time.go:35-47,104-115 *)
Definition Parse {T} (parse : bytes -> option T) (v : T) (s : bytes) : T * bool :=
  match parse s with Some t => (t, true) | None => (v, false) end.
(* the two results of the return statement; enc/scalar.go:42,56.  true: the error is nil *)
Definition both {T} (o : order) (parse : bytes -> option T) (v : T) (s : bytes) : T * bool :=
  match o with
  | VarFirst => (v, snd (Parse parse v s))
  | CallFirst => Parse parse v s
  end.
(* enc/scalar.go:45-52,59-66 *)
Definition must {T} (parse : bytes -> option T) (v : T) (s : bytes) : res T :=
  let (t, ok) := Parse parse v s in if ok then Ok t else Panic.
Section Conv.
  (* as in TimeModel and DurModel *)
  Context (lenient : bytes -> option gtime) (fracval : N -> N -> nat -> N).
  (* enc/scalar.go:40-43 *)
  Definition AsTime (o : order) (s : bytes) : gtime * bool := both o (parse lenient) zeroTime s.
  (* enc/scalar.go:45-52 *)
  Definition MustTime (s : bytes) : res gtime := must (parse lenient) zeroTime s.
  (* enc/scalar.go:54-57 *)
  Definition AsDuration (o : order) (s : bytes) : Z * bool := both o (dur_parse fracval) 0%Z s.
  (* enc/scalar.go:59-66 *)
  Definition MustDuration (s : bytes) : res Z := must (dur_parse fracval) 0%Z s.
End Conv.
