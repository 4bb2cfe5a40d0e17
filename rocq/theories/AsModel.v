(* Model of the assertions of /repo/test: assert.go, equals.go, nil.go, empty.go, errors.go, list.go, strings.go and the type res of
   util.go.  EqualsJSON and NotEqualsJSON compare as EqModel says. *)
From Coq Require Import Bool Ascii String Arith NArith ZArith List.
From Verif Require Import Prelude Utf8Model QuoteModel DecModel DurModel EncModel TqModel AstModel GvModel.
Import ListNotations.

(* how an assertion ends, with the line that is logged: the test goes on, or it fails and ends (test/assert.go:14-22); a panic is
   Panic of res *)
Inductive verdict := Passes (msg : bytes) | Fails (msg : bytes).
(* the type res: succeed and msg (test/util.go:38-41) *)
Definition tres : Type := bool * bytes.
(* test/assert.go:11 *)
Definition ok_ : bytes := B "  ✔ ".
(* test/assert.go:12 *)
Definition ko_ : bytes := B "❌  ".
(* test/assert.go:14-17 OK *)
Definition OK (s : bytes) : verdict := Passes (ok_ ++ s).
(* test/assert.go:19-22 Fail *)
Definition KO (s : bytes) : verdict := Fails (ko_ ++ s).
(* test/util.go:44-48 argument: the error of Caller is ignored, and call is nil then *)
Definition argument (s : site) (n : nat) (r : tres) : res tres :=
  match Caller s with
  | Good args => match nth_error args n with Some a => Ok (fst r, c_src a ++ B ": " ++ snd r) | None => Panic end
  | Fail _ => Panic
  | Crash => Panic
  end.
(* test/util.go:56-59 prefix, with the text already formatted *)
Definition prefix (p : bytes) (r : tres) : tres := (fst r, p ++ B " ⮕  " ++ snd r).
(* test/util.go:62-69 true *)
Definition expect_true (r : tres) : verdict := if fst r then OK (snd r) else KO (snd r).
(* test/util.go:72-79 false *)
Definition expect_false (r : tres) : verdict := if fst r then KO (snd r) else OK (snd r).
(* "Name(%s, %s)" with the assignments of the arguments 1 and 2: test/equals.go:16,21,26,40,46 *)
Definition named2 (name : bytes) (s : site) (r : tres) : res tres :=
  rbind (Assignment s 1) (fun a => rbind (Assignment s 2) (fun b => Ok (prefix (name ++ B "(" ++ a ++ B ", " ++ b ++ B ")") r))).

(* test/assert.go:24-31 Assert; stringy of a string is Quote, test/util.go:98-99 *)
Definition Assert (s : site) (cond : bool) : res verdict :=
  rbind (Assignment s 1) (fun a => Ok (if cond then OK (Quote a) else KO (Quote a))).
(* test/equals.go:29-35 equal *)
Definition equal (e g : bytes) : tres := if beqb e g then (true, e) else (false, e ++ B " != " ++ g).
(* test/equals.go:19-22 EqualsStr *)
Definition EqualsStr (s : site) (e g : bytes) : res verdict :=
  rbind (named2 (B "EqualsStr") s (equal e g)) (fun r => Ok (expect_true r)).
(* test/equals.go:24-27 NotEqualsStr *)
Definition NotEqualsStr (s : site) (e g : bytes) : res verdict :=
  rbind (named2 (B "NotEqualsStr") s (equal e g)) (fun r => Ok (expect_false r)).
(* strings.Contains; test/strings.go:43 *)
Fixpoint starts (p s : bytes) : bool :=
  match p, s with
  | [], _ => true
  | c :: p', d :: s' => (code c =? code d)%N && starts p' s'
  | _ :: _, [] => false
  end.
(* strings.Contains; test/strings.go:43 *)
Fixpoint has_sub (s p : bytes) : bool := starts p s || match s with [] => false | _ :: r => has_sub r p end.
(* test/strings.go:42-48 contains *)
Definition contains (s p : bytes) : tres :=
  if has_sub s p then (true, Quote s) else (false, Quote p ++ B " not in " ++ Quote s).
(* test/strings.go:16-19 Contains *)
Definition Contains (s p : bytes) : verdict := expect_true (contains s p).
(* test/strings.go:11-14 NotContains *)
Definition NotContains (s p : bytes) : verdict := expect_false (contains s p).
(* the assignment of the argument 1 and the result: test/list.go:14,22 *)
Definition named1 (name : bytes) (s : site) (r : tres) : res tres :=
  rbind (Assignment s 1) (fun a => Ok (prefix (name ++ B "(" ++ a ++ B ")") r)).

Section List_.
  (* T, fmt.Sprint of it *)
  Context {T : Type} (sprint : T -> bytes).
  (* test/list.go:26-35 shift: the element, and the slice afterwards; None is the zero value of T *)
  Definition shift (l : list T) : option T * list T * tres :=
    match l with [] => (None, [], (false, B "empty")) | x :: r => (Some x, r, (true, sprint x)) end.
  (* test/list.go:37-46 pop *)
  Definition pop (l : list T) : option T * list T * tres :=
    match rev l with [] => (None, [], (false, B "empty")) | x :: r => (Some x, rev r, (true, sprint x)) end.
  (* test/list.go:11-16 Shift: the verdict comes after the slice was changed *)
  Definition Shift (s : site) (l : list T) : list T * res (verdict * option T) :=
    let '(x, l', r) := shift l in
    (l', rbind (named1 (B "Unshift") s r) (fun r => Ok (expect_true r, x))).
  (* test/list.go:19-24 Pop *)
  Definition Pop (s : site) (l : list T) : list T * res (verdict * option T) :=
    let '(x, l', r) := pop l in
    (l', rbind (named1 (B "Pop") s r) (fun r => Ok (expect_true r, x))).
End List_.

Section Values.
  Context {F : Type} (isprint : N -> bool) (ftext : F -> bytes) (fzero : F -> bool).
  (* texts of values that are only logged: stringy (test/nil.go:29), %T with %s or %+v (test/empty.go:28-50), %v of an error and its
     stack (test/errors.go:14-24,31) *)
  Context (shown : any F -> bytes).
  (* %T; the text of the type, nil for nil (fmt; test/equals.go:14-15) *)
  Definition tname (t : gty) : bytes :=
    match t with
    | GBool n | GInt n | GUint n | GFloat n | GString n | GSlice n _ | GArr n _ _ | GMap n _ _ | GStruct n _ | GPtr n _
    | GIface n | GFunc n | GChan n => n
    end.
  (* fmt.Sprintf("%T", x); test/equals.go:14-15 *)
  Definition typetext (x : any F) : bytes := match x with None => B "<nil>" | Some (t, _) => tname t end.
  (* test/equals.go:11-17 EqualsType *)
  Definition EqualsType (s : site) (e g : any F) : res verdict :=
    rbind (named2 (B "EqualsType") s (equal (typetext e) (typetext g))) (fun r => Ok (expect_true r)).
  (* test/equals.go:49-57 equalGo *)
  Definition equalGo (e g : any F) : tres := equal (gosyntax isprint ftext e) (gosyntax isprint ftext g).
  (* test/equals.go:38-41 EqualsGo *)
  Definition EqualsGo (s : site) (e g : any F) : res verdict :=
    rbind (named2 (B "EqualsGo") s (equalGo e g)) (fun r => Ok (expect_true r)).
  (* test/equals.go:44-47 NotEqualsGo *)
  Definition NotEqualsGo (s : site) (e g : any F) : res verdict :=
    rbind (named2 (B "NotEqualsGo") s (equalGo e g)) (fun r => Ok (expect_false r)).
  (* test/strings.go:21-24 ContainsGo *)
  Definition ContainsGo (x : any F) (p : bytes) : verdict := Contains (gosyntax isprint ftext x) p.

  (* reflect.Value.IsNil of the kinds that isNil and empty ask for; test/nil.go:26-27, test/empty.go:25,27,32-33 *)
  Definition isnull (v : gval F) : bool :=
    match v with VSlice None | VMap None | VChan None | VPtr None => true | _ => false end.
  (* test/nil.go:19-32 isNil *)
  Definition isNil (x : any F) : tres :=
    match x with
    | None => (true, B "nil")
    | Some (_, (VSlice _ | VMap _ | VChan _ | VPtr _) as v) => (isnull v, gosyntax isprint ftext x)
    | Some _ => (false, shown x)
    end.
  (* test/nil.go:9-12 Nil *)
  Definition Nil (s : site) (x : any F) : res verdict := rbind (argument s 1 (isNil x)) (fun r => Ok (expect_true r)).
  (* test/nil.go:14-17 NotNil *)
  Definition NotNil (s : site) (x : any F) : res verdict := rbind (argument s 1 (isNil x)) (fun r => Ok (expect_false r)).
  (* test/empty.go:19-55 empty; a kind that is not listed there panics *)
  Definition empty (x : any F) : res tres :=
    match x with
    | None => Ok (true, B "is nil")
    | Some (_, VPtr o) => Ok (match o with None => true | Some _ => false end, shown x)
    | Some (_, VSlice o) => Ok (match o with None => true | Some l => length l =? 0 end, shown x)
    | Some (_, VMap o) => Ok (match o with None => true | Some l => length l =? 0 end, shown x)
    | Some (_, VChan o) => Ok (match o with None => true | Some (_, n) => n =? 0 end, shown x)
    | Some (_, VStr l) => Ok (match l with [] => true | _ => false end, shown x)
    | Some (_, VStruct _ as v) => Ok (isZero fzero v, shown x)
    | Some _ => Panic
    end.
  (* test/empty.go:14-17 Empty *)
  Definition Empty (s : site) (x : any F) : res verdict :=
    rbind (empty x) (fun r => rbind (argument s 1 r) (fun r => Ok (expect_true r))).
  (* test/empty.go:9-12 NotEmpty *)
  Definition NotEmpty (s : site) (x : any F) : res verdict :=
    rbind (empty x) (fun r => rbind (argument s 1 r) (fun r => Ok (expect_false r))).
  (* test/errors.go:12-24 NoError: err is nil or its dynamic type and value *)
  Definition NoError (s : site) (x : any F) : res verdict :=
    if fst (isNil x) then rbind (Assignment s 1) (fun a => Ok (OK (B "no error: " ++ Quote a))) else Ok (KO (shown x)).
  (* test/errors.go:26-33 Error *)
  Definition Error (s : site) (x : any F) : res verdict :=
    if fst (isNil x) then rbind (Assignment s 1) (fun a => Ok (KO (B "expected error: " ++ Quote a))) else Ok (OK (shown x)).
End Values.
