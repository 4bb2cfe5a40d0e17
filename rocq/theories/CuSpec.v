(* Vocabulary of the statements about types with methods. *)
From Coq Require Import Bool Ascii String Arith NArith ZArith List Sorted.
From Verif Require Import Prelude Utf8Model DecModel DurModel EncModel JsonModel JsonSpec MarModel MarSpec CuModel.
Import ListNotations.

(* nodes that omitempty leaves out *)
Definition blank_node (n : node) : Prop :=
  n = NNil \/ n = NStr [] \/ n = NInt 0 \/ n = NDigits [] \/ exists f, n = NFloat f /\ (f_str f = B "0" \/ f_str f = B "-0").
Section S.
  Context (decls : nat -> decl) (run_node run_json : nat -> option val -> mout node) (run_unode run_ujson : nat -> node -> val -> ures).
  (* the method that writes values of the declared type: MarshalNode, else MarshalJSON *)
  Inductive writer (id : nat) : recv -> (option val -> mout node) -> Prop :=
  | writes_node r : d_node (decls id) = Some r -> writer id r (run_node id)
  | writes_json r : d_node (decls id) = None -> d_json (decls id) = Some r -> writer id r (run_json id).
  Definition plain_type (id : nat) : Prop := d_node (decls id) = None /\ d_json (decls id) = None.
  (* the method that reads them *)
  Inductive reader (id : nat) : (node -> val -> ures) -> Prop :=
  | reads_node : d_unode (decls id) = true -> reader id (run_unode id)
  | reads_json : d_unode (decls id) = false -> d_ujson (decls id) = true -> reader id (run_ujson id).

  (* How values are to be written: the method of a type writes all its values, wherever they are.  nil is null, unless the method can be called
     with it. *)
  Inductive Writes : cty -> val -> node -> Prop :=
  | w_bool b : Writes CBool (VBool b) (NBool b)
  | w_int z : Writes CInt (VNum z) (NInt z)
  | w_str s : Writes CStr (VStr s) (NStr s)
  | w_method id u v r f n : writer id r f -> f (Some v) = MOk n -> Writes (CNamed id u) v n
  | w_plain id u v n : plain_type id -> Writes u v n -> Writes (CNamed id u) v n
  | w_nil t : (forall id u r f, t = CNamed id u -> writer id r f -> r = ByVal) -> Writes (CPtr t) VNil NNil
  | w_nil_method id u f n : writer id ByPtr f -> f None = MOk n -> Writes (CPtr (CNamed id u)) VNil n
  | w_ptr t v n : Writes t v n -> Writes (CPtr t) (VPtr v) n
  | w_slice_nil t : Writes (CSlice t) VNil NNil
  | w_slice t l ns : Forall2 (Writes t) l ns -> Writes (CSlice t) (VList l) (NList ns)
  | w_map_nil t : Writes (CMap t) VNil NNil
  | w_map t l m : Forall2 (fun e x => fst e = KStr (fst x) /\ Writes t (snd e) (snd x)) l m -> Writes (CMap t) (VMap l) (NMap m)
  | w_struct fs vs ps : Fields fs vs ps -> Writes (CStruct fs) (VStruct vs) (NPairs ps)
  with Fields : list (fld * cty) -> list val -> list (bytes * bytes * node) -> Prop :=
  | f_nil : Fields [] [] []
  | f_hidden f t fs v vs ps : hidden f -> Fields fs vs ps -> Fields ((f, t) :: fs) (v :: vs) ps
  | f_omit f t fs v vs n name ps : tagged f name true -> Writes t v n -> blank_node n -> Fields fs vs ps -> Fields ((f, t) :: fs) (v :: vs) ps
  | f_field f t fs v vs n name o ps : tagged f name o -> Writes t v n -> (o = true -> ~ blank_node n) -> Fields fs vs ps ->
      Fields ((f, t) :: fs) (v :: vs) (((f_name f, name), n) :: ps).

  (* v is a value of type t *)
  Fixpoint chas (t : cty) (v : val) {struct t} : Prop :=
    match t, v with
    | CBool, VBool _ => True
    | CInt, VNum z => int_range W64 z
    | CStr, VStr _ => True
    | CPtr _, VNil | CSlice _, VNil | CMap _, VNil => True
    | CPtr t', VPtr v' => chas t' v'
    | CSlice t', VList l => Forall (chas t') l
    | CMap t', VMap l => StronglySorted (fun a b => kltb a b = true) (map fst l) /\ Forall (fun e => key_of KTStr (fst e) /\ chas t' (snd e)) l
    | CStruct fs, VStruct vs => fieldwise (fun _ t' v' => chas t' v') fs vs
    | CNamed _ u, _ => chas u v
    | _, _ => False
    end.
  (* good tags, at all depths *)
  Fixpoint ctags (t : cty) : Prop :=
    match t with
    | CBool | CInt | CStr => True
    | CPtr t | CSlice t | CMap t | CNamed _ t => ctags t
    | CStruct fs => fold_right (fun x R => (hidden (fst x) \/ exists name o, tagged (fst x) name o) /\ ctags (snd x) /\ R) True fs
    end.
  (* methods that write are declared for values, except for types that occur behind pointers *)
  Fixpoint by_value (t : cty) : Prop :=
    match t with
    | CBool | CInt | CStr => True
    | CPtr (CNamed id u) => plain_type id -> by_value u
    | CPtr t | CSlice t | CMap t => by_value t
    | CStruct fs => fold_right (fun x R => (hidden (fst x) \/ by_value (snd x)) /\ R) True fs
    | CNamed id u => (forall r f, writer id r f -> r = ByVal) /\ (plain_type id -> by_value u)
    end.
  (* no nil pointer to a type whose method that writes is declared for values, outside of values that methods write *)
  Fixpoint no_nil (t : cty) (v : val) {struct t} : Prop :=
    match t, v with
    | CPtr (CNamed id _), VNil => forall f, ~ writer id ByVal f
    | CPtr (CNamed id u), VPtr v' => plain_type id -> no_nil u v'
    | CPtr t', VPtr v' => no_nil t' v'
    | CSlice t', VList l => Forall (no_nil t') l
    | CMap t', VMap l => Forall (fun e => no_nil t' (snd e)) l
    | CStruct fs, VStruct vs => fieldwise (fun f t' v' => hidden f \/ no_nil t' v') fs vs
    | CNamed id u, _ => d_node (decls id) <> Some ByVal -> d_json (decls id) <> Some ByVal -> no_nil u v
    | _, _ => True
    end.
  (* The values of t that can come back: the methods of its declared types are inverse to each other; nothing in hidden fields; no pointer to
     something null; nothing left out by omitempty but zero values. *)
  Fixpoint comes_back (t : cty) (v : val) {struct t} : Prop :=
    match t, v with
    | CPtr t', VPtr v' => comes_back t' v' /\ forall n, Writes t' v' n -> n <> NNil
    | CPtr (CNamed id _), VNil => forall f n, writer id ByPtr f -> f None = MOk n -> n = NNil
    | CSlice t', VList l => Forall (comes_back t') l
    | CMap t', VMap l => Forall (fun e => comes_back t' (snd e)) l
    | CStruct fs, VStruct vs =>
        fieldwise (fun f t' v' => (hidden f -> v' = czero t') /\
          (forall name o, tagged f name o -> comes_back t' v' /\ (forall n, o = true -> Writes t' v' n -> blank_node n -> v' = czero t'))) fs vs
    | CNamed id u, _ =>
        (plain_type id -> comes_back u v /\ forall g, ~ reader id g) /\
        (forall r f, writer id r f -> exists g, reader id g /\ forall n, f (Some v) = MOk n -> g n (czero u) = UOk v)
    | _, _ => True
    end.
  (* no two fields with the same name, and no name is empty; at all depths *)
  Fixpoint cnames (t : cty) : Prop :=
    match t with
    | CBool | CInt | CStr => True
    | CPtr t | CSlice t | CMap t | CNamed _ t => cnames t
    | CStruct fs => distinct_names fs /\ fold_right (fun x R => f_name (fst x) <> [] /\ cnames (snd x) /\ R) True fs
    end.
End S.
