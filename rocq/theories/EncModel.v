(* Model of the node tree of /repo/enc and of its String and GoString methods. *)
From Coq Require Import Bool Ascii String Arith NArith ZArith Lia List.
From Verif Require Import Prelude Utf8Model QuoteModel DecModel DurModel.
Import ListNotations.

(* a float64, carried as the texts Go prints for it: fmt %v (GoString, enc/numeric.go:55), FormatFloat
   'g' (String, enc/numeric.go:53) and encoding/json (MarshalJSON, enc/numeric.go:57) *)
Record floatv := Floatv { f_go : bytes; f_str : bytes; f_json : bytes }.
(* a time.Time, carried as the texts Go prints for it: fmt %v (enc/time.go:22-24) and
   RFC3339Nano (enc/time.go:26-33) *)
Record timev := Timev { t_go : bytes; t_rfc : bytes }.

(* the implementations of enc.Node: enc/nil.go:9, enc/scalar.go:10,68, enc/numeric.go:27,46,65,
   enc/time.go:12,70, enc/list.go:11, enc/map.go:14, enc/pairs.go:14,85.  A nil List or Map and nil
   interface values inside containers are not modelled.  A Map lists its entries in some order; its
   keys are distinct.  A pair is Name, JSON, Value. *)
Inductive node :=
| NNil
| NBool (b : bool)
| NInt (z : Z)
| NFloat (f : floatv)
| NDigits (s : bytes)
| NStr (s : bytes)
| NTime (t : timev)
| NDur (d : Z)
| NList (l : list node)
| NMap (l : list (bytes * node))
| NPairs (l : list (bytes * bytes * node)).

Section Strings.
  Context (isprint : N -> bool).

  (* strings.Join, as called at enc/list.go:29,37, enc/map.go:38,46, enc/pairs.go:39,47 *)
  Fixpoint join (sep : bytes) (l : list bytes) : bytes :=
    match l with
    | [] => []
    | [a] => a
    | a :: t => a ++ sep ++ join sep t
    end.

  (* String(): enc/nil.go:21-23, enc/scalar.go:22-24,84-90, enc/numeric.go:35,53,86, enc/time.go:26-29,84-86,
     enc/list.go:32-38, enc/map.go:33-39, enc/pairs.go:34-40.  fmt's %s and %#s on a node call String(). *)
  Fixpoint nstring (n : node) : bytes :=
    match n with
    | NNil => B "null"
    | NBool true => B "true"
    | NBool false => B "false"
    | NInt z => decz z
    | NFloat f => f_str f
    | NDigits s => s
    | NStr s => quote isprint s
    | NTime t => t_rfc t
    | NDur d => dur_string d
    | NList l => B "[" ++ join (B ", ") (map nstring l) ++ B "]"
    | NMap l => B "{" ++ join (B ", ") (map (fun kv => quote isprint (fst kv) ++ B ":" ++ nstring (snd kv)) l) ++ B "}"
    | NPairs l => B "enc.Pairs{" ++
        join (B ", ") (map (fun p => quote isprint (snd (fst p)) ++ B ":" ++ nstring (snd p)) l) ++ B "}"
    end.

  (* GoString(): enc/nil.go:17-19, enc/scalar.go:18-20,76-82, enc/numeric.go:36,55,87, enc/time.go:22-24,80-82,
     enc/list.go:24-30, enc/map.go:41-47, enc/pairs.go:42-48 *)
  Definition gostring (n : node) : bytes :=
    match n with
    | NNil => B "enc.Nil{}"
    | NBool true => B "enc.Bool{true}"
    | NBool false => B "enc.Bool{false}"
    | NInt z => B "enc.Integer{" ++ decz z ++ B "}"
    | NFloat f => B "enc.Float{" ++ f_go f ++ B "}"
    | NDigits s => B "enc.Digits{" ++ quote isprint s ++ B "}"
    | NStr s => B "enc.String{" ++ quote isprint s ++ B "}"
    | NTime t => B "enc.Time{" ++ t_go t ++ B "}"
    | NDur d => B "enc.Duration{" ++ dur_string d ++ B "}"
    | NList l => B "enc.List{" ++ join (B ", ") (map nstring l) ++ B "}"
    | NMap l => B "enc.Map{" ++
        join (B ", ") (map (fun kv => quote isprint (fst kv) ++ B ":" ++ nstring (snd kv)) l) ++ B "}"
    | NPairs l => B "enc.Pairs{" ++
        join (B ", ") (map (fun p => quote isprint (fst (fst p)) ++ B ":" ++ nstring (snd p)) l) ++ B "}"
    end.
End Strings.

(* enc/pairs.go:18-24 Pairs.AsMap *)
Definition AsMap (l : list (bytes * bytes * node)) : list (bytes * node) :=
  fold_left (fun m p => mset beqb m (snd (fst p)) (snd p)) l [].

(* enc/pairs.go:65-72 Pairs.Find; None is nil *)
Fixpoint Find (l : list (bytes * bytes * node)) (name : bytes) : option node :=
  match l with
  | [] => None
  | p :: t => if beqb (snd (fst p)) name then Some (snd p) else Find t name
  end.
