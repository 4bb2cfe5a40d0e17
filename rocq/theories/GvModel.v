(* Model of the values that /repo/test compares: Go values as reflect shows them, and the text of fmt's %#v. *)
From Coq Require Import Bool Ascii String Arith NArith ZArith List.
From Verif Require Import Prelude Utf8Model QuoteModel DecModel DurModel EncModel.
Import ListNotations.

(* Types, with the text of reflect.Type.String(), as test/equals.go:50-51 needs them.  No methods: GoString, String, Format and Error
   methods are not modelled.  A type is unfolded as far as one likes below pointers. *)
Inductive gty :=
| GBool (name : bytes) | GInt (name : bytes) | GUint (name : bytes) | GFloat (name : bytes) | GString (name : bytes)
| GSlice (name : bytes) (e : gty) | GArr (name : bytes) (n : nat) (e : gty) | GMap (name : bytes) (k e : gty)
| GStruct (name : bytes) (fs : list (bytes * gty))
| GPtr (name : bytes) (e : gty) | GIface (name : bytes) | GFunc (name : bytes) | GChan (name : bytes).

Section Values.
  (* float64 and float32 *)
  Context {F : Type}.
  (* Values: of slices and maps nil or the elements (of a map in any order); of pointers, functions and channels nil or the address
     and what is there, for a channel how many elements wait; of interfaces nil or the dynamic type and value.  test/empty.go:23,
     test/nil.go:24, test/equals.go:50 *)
  Inductive gval :=
  | VBool (b : bool) | VInt (z : Z) | VUint (n : N) | VFloat (f : F) | VStr (s : bytes)
  | VSlice (o : option (list gval)) | VArr (l : list gval) | VMap (o : option (list (gval * gval)))
  | VStruct (l : list gval)
  | VPtr (o : option (N * gval)) | VIface (o : option (gty * gval)) | VFunc (o : option N) | VChan (o : option (N * nat)).
  (* a value of type any: nil, or a type and a value; test/nil.go:9,14, test/empty.go:9,14, test/equals.go:38,44 *)
  Definition any : Type := option (gty * gval).

  (* strconv.IsPrint; fmt's %g with the shortest precision; is the float zero, as reflect.Value.IsZero says *)
  Context (isprint : N -> bool) (ftext : F -> bytes) (fzero : F -> bool).

  (* ---- %#v ---- *)
  (* digits of n to base 16 (fmt fmtInteger; test/equals.go:50) *)
  Fixpoint hexpos (fuel : nat) (n : N) : bytes :=
    match fuel with
    | O => []
    | S f => if (n =? 0)%N then [] else hexpos f (n / 16) ++ [hexdig (n mod 16)]
    end.
  (* fmt fmt0x64; test/equals.go:50 *)
  Definition hex0x (n : N) : bytes := B "0x" ++ (if (n =? 0)%N then [chr 48] else hexpos (N.size_nat n) n).
  (* the order of keys in fmt (internal/fmtsort compare), for integers, floats not; test/equals.go:50 *)
  Definition kltb (a b : gval) : bool :=
    match a, b with
    | VInt x, VInt y => (x <? y)%Z
    | VUint x, VUint y => (x <? y)%N
    | VStr x, VStr y =>
        (fix lt (x y : bytes) : bool :=
           match x, y with
           | _, [] => false
           | [], _ :: _ => true
           | c :: x', d :: y' => (code c <? code d)%N || ((code c =? code d)%N && lt x' y')
           end) x y
    | VBool x, VBool y => negb x && y
    | _, _ => false
    end.
  (* fmtsort.Sort, as an insertion sort; test/equals.go:50 *)
  Fixpoint kinsert {A} (e : gval * A) (l : list (gval * A)) : list (gval * A) :=
    match l with
    | [] => [e]
    | f :: t => if kltb (fst f) (fst e) then f :: kinsert e t else e :: l
    end.
  (* all entries sorted; test/equals.go:50 *)
  Definition kksort {A} (l : list (gval * A)) : list (gval * A) := fold_right kinsert [] l.
  (* joined by ", " (fmt printValue; test/equals.go:50) *)
  Definition commas (l : list bytes) : bytes := join (B ", ") l.
  (* fmt fmtPointer with %#v: (type)(0x...) or (type)(nil); test/equals.go:50 *)
  Definition pointer (name : bytes) (o : option N) : bytes :=
    B "(" ++ name ++ B ")(" ++ match o with None => B "nil" | Some a => hex0x a end ++ B ")".
  (* the pointers that are followed at depth 0 (fmt printValue; test/equals.go:50) *)
  Definition followed (t : gty) : bool := match t with GArr _ _ _ | GSlice _ _ | GStruct _ _ | GMap _ _ _ => true | _ => false end.

  (* fmt printValue with %#v at depth above 0; test/equals.go:50.  A value that does not have the type gives nothing. *)
  Fixpoint show (t : gty) (v : gval) {struct v} : bytes :=
    match t, v with
    | GBool _, VBool b => if b then B "true" else B "false"
    | GInt _, VInt z => decz z
    | GUint _, VUint n => hex0x n
    | GFloat _, VFloat f => ftext f
    | GString _, VStr s => quote isprint s
    | GSlice name e, VSlice None => name ++ B "(nil)"
    | GSlice name e, VSlice (Some l) => name ++ B "{" ++ commas (map (show e) l) ++ B "}"
    | GArr name _ e, VArr l => name ++ B "{" ++ commas (map (show e) l) ++ B "}"
    | GMap name k e, VMap None => name ++ B "(nil)"
    | GMap name k e, VMap (Some l) =>
        name ++ B "{" ++
        commas (map (fun x => snd x) (kksort (map (fun x => (fst x, show k (fst x) ++ B ":" ++ show e (snd x))) l))) ++ B "}"
    | GStruct name fs, VStruct l =>
        name ++ B "{" ++
        commas ((fix fields (fs : list (bytes * gty)) (l : list gval) {struct l} : list bytes :=
                   match fs, l with
                   | (n, e) :: fs', v :: l' => (n ++ B ":" ++ show e v) :: fields fs' l'
                   | _, _ => []
                   end) fs l) ++ B "}"
    | GPtr name _, VPtr o => pointer name (option_map fst o)
    | GIface name, VIface None => name ++ B "(nil)"
    | GIface name, VIface (Some (d, w)) => show d w
    | GFunc name, VFunc o => pointer name o
    | GChan name, VChan o => pointer name (option_map fst o)
    | _, _ => []
    end.
  (* fmt.Sprintf("%#v", x); test/equals.go:50-51 *)
  Definition gosyntax (x : any) : bytes :=
    match x with
    | None => B "<nil>"
    | Some (GPtr name e, VPtr (Some (a, v))) => if followed e then B "&" ++ show e v else show (GPtr name e) (VPtr (Some (a, v)))
    | Some (t, v) => show t v
    end.

  (* ---- reflect ---- *)
  (* reflect.Value.IsZero; test/empty.go:47 *)
  Fixpoint isZero (v : gval) : bool :=
    match v with
    | VBool b => negb b
    | VInt z => (z =? 0)%Z
    | VUint n => (n =? 0)%N
    | VFloat f => fzero f
    | VStr s => match s with [] => true | _ => false end
    | VSlice o => match o with None => true | _ => false end
    | VArr l => forallb isZero l
    | VMap o => match o with None => true | _ => false end
    | VStruct l => forallb isZero l
    | VPtr o => match o with None => true | _ => false end
    | VIface o => match o with None => true | _ => false end
    | VFunc o => match o with None => true | _ => false end
    | VChan o => match o with None => true | _ => false end
    end.
End Values.
Arguments gval : clear implicits.
Arguments any : clear implicits.
