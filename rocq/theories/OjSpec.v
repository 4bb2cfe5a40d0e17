(* Vocabulary of the statements about documents and the JSON of values of described types. *)
From Coq Require Import Bool Ascii String Arith NArith ZArith List.
From Verif Require Import Prelude Utf8Model DecModel DurModel EncModel JsonModel MarModel OaModel OaSpec OjModel.
Import ListNotations.

Section Values.
  Context (env : tid -> tinfo).
  (* the value is one of the type *)
  Fixpoint typed (v : gv) (t : tid) {struct v} : Prop :=
    match v, t_kind (env t) with
    | GBool _, KBool | GInt _, KInt | GUint _, KInt | GFloat _, KFloat | GStr _, KString => t_special (env t) <> STime
    | GTime _, KStruct _ _ | GEncTime _, KStruct _ _ => t_special (env t) = STime
    | GNil, KPtr _ | GNil, KSeq _ | GNil, KMap _ _ | GNil, KIface _ => True
    | GPtr v', KPtr e => typed v' e
    | GList l, KSeq e => (fix all l := match l with [] => True | x :: r => typed x e /\ all r end) l
    | GMap l, KMap k e => (fix all l := match l with [] => True | (x, y) :: r => typed x k /\ typed y e /\ all r end) l
    | GStruct vs, KStruct _ fs =>
        t_special (env t) <> STime /\
        (fix all (vs : list gv) (fs : list sfld) {struct vs} := match vs, fs with [], [] => True | x :: r, f :: fs' => typed x (sf_type f) /\ all r fs' | _, _ => False end) vs fs
    | GDyn t' v', KIface _ => typed v' t' /\ forall a, t_kind (env t') <> KIface a
    | _, _ => False
    end.
  (* what the methods make of a value *)
  Context (own : tid -> gv -> option node).
  (* the JSON of a value begins like this and the node is of the same sort *)
  Definition same_sort (c : ascii) (n : node) : Prop :=
    match n with
    | NStr _ => c = chr 34
    | NBool _ => In c (B "ft")
    | NInt _ | NFloat _ | NDigits _ => In c (B "0123456789.")
    | _ => False
    end.
  (* Of what is in a value: interfaces hold objects or nil, no []byte, types that marshal themselves make of every value the same sort
     of JSON as of the zero value: a string, a boolean or a number, and json.RawMessage has objects. *)
  Fixpoint regular (v : gv) (t : tid) {struct v} : Prop :=
    match t_special (env t) with
    | STime => ~ is_ptr env t
    | SBytes => False
    | SRaw => ~ is_ptr env t /\ forall n, own t v = Some n -> exists l, entries n = Some l
    | SMarshaler (MarJson (c :: _)) => ~ is_ptr env t /\ forall n, own t v = Some n -> same_sort c n
    | SMarshaler _ => False
    | SNone =>
        match v, t_kind (env t) with
        | GPtr v', KPtr e => regular v' e
        | GList l, KSeq e => (fix all l := match l with [] => True | x :: r => regular x e /\ all r end) l
        | GMap l, KMap k e => (fix all l := match l with [] => True | (_, y) :: r => regular y e /\ all r end) l
        | GStruct vs, KStruct _ fs =>
            (fix all (vs : list gv) (fs : list sfld) {struct vs} := match vs, fs with x :: r, f :: fs' => regular x (sf_type f) /\ all r fs' | _, _ => True end) vs fs
        | GDyn t' v', KIface _ => exists n l, marE env own v' t' = Some n /\ entries n = Some l
        | _, _ => True
        end
    end.
End Values.
(* no nil pointer, slice, map or interface in it *)
Fixpoint solid (v : gv) : Prop :=
  match v with
  | GNil => False
  | GPtr v' => solid v'
  | GList l | GStruct l => (fix all l := match l with [] => True | x :: r => solid x /\ all r end) l
  | GMap l => (fix all l := match l with [] => True | (_, y) :: r => solid y /\ all r end) l
  | _ => True
  end.
