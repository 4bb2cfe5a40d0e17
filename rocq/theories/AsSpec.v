(* What the assertions of /repo/test are for, said without their code. *)
From Coq Require Import Bool Ascii String Arith NArith ZArith List Permutation.
From Verif Require Import Prelude AstModel GvModel AsModel.
Import ListNotations.

(* ---- the source ---- *)
Definition children (t : tree) : list tree :=
  match t with TBlock l | TAssign _ _ l | TCall _ _ _ l | TOther l => l end.
(* a node of a tree *)
Inductive within : tree -> tree -> Prop :=
| within_self t : within t t
| within_child t c x : In c (children t) -> within c x -> within t x.
(* a call in the line of the site, of the name of the function *)
Definition here (s : site) (c : tree) : Prop :=
  match c with TCall n f _ _ => n = s_line s /\ (f = FIdent (s_fname s) \/ f = FSel (s_fname s)) | _ => False end.
Definition call_args (c : tree) : list arg := match c with TCall _ _ args _ => args | _ => [] end.
(* the assignments to variables in a tree that are not in a block of it, as they come *)
Definition sets (rhs : bytes) (lhs : list (option bytes)) : list (bytes * bytes) :=
  flat_map (fun o => match o with Some x => [(x, rhs)] | None => [] end) lhs.
Fixpoint opens (t : tree) : list (bytes * bytes) :=
  match t with
  | TBlock _ => []
  | TAssign rhs lhs l => sets rhs lhs ++ flat_map opens l
  | TCall _ _ _ l | TOther l => flat_map opens l
  end.
(* Go has assignments only in blocks *)
Definition go_file (t : tree) : Prop := opens t = [].
(* every call that the site may mean has argument n, and no empty function literal: func() {} *)
Definition regular (s : site) (n : nat) (t : tree) : Prop :=
  go_file t /\
  forall c, within t c -> here s c -> n < length (call_args c) /\ Forall (fun a => a_lit a <> Some None) (call_args c).
(* the source cannot be had, or is regular *)
Definition usable (s : site) (n : nat) : Prop := forall t, s_file s = Some t -> regular s n t.
(* the source can be had and has the call *)
Definition sourced (s : site) : Prop := exists t c, s_file s = Some t /\ within t c /\ here s c.

(* ---- the text of an argument ---- *)
(* sees t c m: c is at a place of t at which the assignments m were made, oldest first, in c's block or in blocks around it, before c
   or in the statement that c is part of *)
Inductive sees : tree -> tree -> list (bytes * bytes) -> Prop :=
| sees_here c : sees c c []
| sees_block l1 t l2 c m : sees t c m -> sees (TBlock (l1 ++ t :: l2)) c (flat_map opens l1 ++ m)
| sees_assign rhs lhs l1 t l2 c m :
    sees t c m -> sees (TAssign rhs lhs (l1 ++ t :: l2)) c (sets rhs lhs ++ flat_map opens l1 ++ m)
| sees_call n f args l1 t l2 c m : sees t c m -> sees (TCall n f args (l1 ++ t :: l2)) c (flat_map opens l1 ++ m)
| sees_other l1 t l2 c m : sees t c m -> sees (TOther (l1 ++ t :: l2)) c (flat_map opens l1 ++ m).
(* how many calls the site may mean *)
Definition hereb (s : site) (c : tree) : bool :=
  match c with
  | TCall n f _ _ => (n =? s_line s) && match f with FIdent x | FSel x => DurModel.beqb x (s_fname s) | FOther => false end
  | _ => false
  end.
Fixpoint count (s : site) (t : tree) : nat :=
  (if hereb s t then 1 else 0) + list_sum (map (count s) (children t)).
(* the text of an argument: for a function literal that of its body *)
Definition arg_text (a : arg) (x : bytes) : Prop := (a_lit a = None /\ x = a_src a) \/ a_lit a = Some (Some x).
(* last m x r: the last of the assignments m to x has the text r *)
Definition last_set (m : list (bytes * bytes)) (x r : bytes) : Prop :=
  exists m1 m2, m = m1 ++ (x, r) :: m2 /\ forall r', ~ In (x, r') m2.
(* the part of a text before its first end of line *)
Definition line1 (s l : bytes) : Prop :=
  ~ In (ascii_of_nat 10) l /\ (s = l \/ exists r, s = l ++ ascii_of_nat 10 :: r).
(* all assignments of a tree, in the order of the source *)
Fixpoint all_sets (t : tree) : list (bytes * bytes) :=
  match t with
  | TAssign rhs lhs l => sets rhs lhs ++ flat_map all_sets l
  | TBlock l | TCall _ _ _ l | TOther l => flat_map all_sets l
  end.
(* the assignments before a call, in the order of the source: like sees, with those in blocks that have ended *)
Inductive before : tree -> tree -> list (bytes * bytes) -> Prop :=
| before_here c : before c c []
| before_block l1 t l2 c m : before t c m -> before (TBlock (l1 ++ t :: l2)) c (flat_map all_sets l1 ++ m)
| before_call n f args l1 t l2 c m : before t c m -> before (TCall n f args (l1 ++ t :: l2)) c (flat_map all_sets l1 ++ m)
| before_other l1 t l2 c m : before t c m -> before (TOther (l1 ++ t :: l2)) c (flat_map all_sets l1 ++ m)
(* an assignment takes place after its right side *)
| before_assign rhs lhs l1 t l2 c m : before t c m -> before (TAssign rhs lhs (l1 ++ t :: l2)) c (flat_map all_sets l1 ++ m).

(* ---- verdicts ---- *)
Definition passed (v : verdict) : Prop := exists m, v = Passes m.
Definition failed (v : verdict) : Prop := exists m, v = Fails m.
(* an assertion of P that works: it passes if P holds and fails, ending the test, if not *)
Definition decides (r : res verdict) (P : Prop) : Prop := exists v, r = Ok v /\ ((P /\ passed v) \/ (~ P /\ failed v)).
(* an assertion that is never wrong about passing *)
Definition trusty (r : res verdict) (P : Prop) : Prop := forall v, r = Ok v -> passed v -> P.

(* ---- values ---- *)
Section V.
  Context {F : Type}.
  Notation gval := (gval F).
  Notation any := (any F).
  (* the values of a type; the keys of maps are booleans, numbers that are no floats, or strings *)
  Definition key_type (t : gty) : Prop := match t with GBool _ | GInt _ | GUint _ | GString _ => True | _ => False end.
  Fixpoint has (t : gty) (v : gval) {struct v} : Prop :=
    match t, v with
    | GBool _, VBool _ | GInt _, VInt _ | GUint _, VUint _ | GFloat _, VFloat _ | GString _, VStr _ => True
    | GSlice _ e, VSlice None => True
    | GSlice _ e, VSlice (Some l) => (fix each (l : list gval) : Prop := match l with [] => True | v :: r => has e v /\ each r end) l
    | GArr _ n e, VArr l => length l = n /\ (fix each (l : list gval) : Prop := match l with [] => True | v :: r => has e v /\ each r end) l
    | GMap _ k e, VMap None => key_type k
    | GMap _ k e, VMap (Some l) =>
        key_type k /\ NoDup (map fst l) /\
        (fix each (l : list (gval * gval)) : Prop :=
           match l with [] => True | (x, v) :: r => (has k x /\ has e v) /\ each r end) l
    | GStruct _ fs, VStruct l =>
        (fix each (fs : list (bytes * gty)) (l : list gval) {struct l} : Prop :=
           match fs, l with
           | [], [] => True
           | (_, t) :: fs', v :: l' => has t v /\ each fs' l'
           | _, _ => False
           end) fs l
    | GPtr _ e, VPtr None => True
    | GPtr _ e, VPtr (Some (_, v)) => has e v
    | GIface _, VIface None => True
    | GIface _, VIface (Some (d, v)) => has d v
    | GFunc _, VFunc _ | GChan _, VChan _ => True
    | _, _ => False
    end.
  Definition typed (x : any) : Prop := match x with None => True | Some (t, v) => has t v end.
  (* nil, or the nil of a type that has one *)
  Definition is_nil (x : any) : Prop :=
    match x with
    | None => True
    | Some (_, v) => v = VSlice None \/ v = VMap None \/ v = VChan None \/ v = VPtr None \/ v = VFunc None
    end.
  Definition no_func (x : any) : Prop := match x with Some (_, VFunc _) => False | _ => True end.
  (* the zero value of a type *)
  Context (f0 : F).
  Fixpoint zero (t : gty) : gval :=
    match t with
    | GBool _ => VBool false | GInt _ => VInt 0 | GUint _ => VUint 0 | GFloat _ => VFloat f0 | GString _ => VStr []
    | GSlice _ _ => VSlice None | GArr _ n e => VArr (repeat (zero e) n) | GMap _ _ _ => VMap None
    | GStruct _ fs => VStruct (map (fun f => zero (snd f)) fs)
    | GPtr _ _ => VPtr None | GIface _ => VIface None | GFunc _ => VFunc None | GChan _ => VChan None
    end.
  (* what Empty is for, as test/README.md says *)
  Definition is_empty (t : gty) (v : gval) : Prop :=
    match v with
    | VPtr o => o = None
    | VSlice o => o = None \/ o = Some []
    | VMap o => o = None \/ o = Some []
    | VChan o => o = None \/ exists a, o = Some (a, 0)
    | VStr s => s = []
    | VStruct _ => v = zero t
    | _ => False
    end.
  (* the kinds that are listed there *)
  Definition listed (v : gval) : Prop :=
    match v with VPtr _ | VSlice _ | VMap _ | VChan _ | VStr _ | VStruct _ => True | _ => False end.

  (* the same value: maps with the same entries *)
  Inductive same : gval -> gval -> Prop :=
  | same_bool b : same (VBool b) (VBool b)
  | same_int z : same (VInt z) (VInt z)
  | same_uint n : same (VUint n) (VUint n)
  | same_float f : same (VFloat f) (VFloat f)
  | same_str s : same (VStr s) (VStr s)
  | same_nils : same (VSlice None) (VSlice None)
  | same_slice l l' : Forall2 same l l' -> same (VSlice (Some l)) (VSlice (Some l'))
  | same_arr l l' : Forall2 same l l' -> same (VArr l) (VArr l')
  | same_nilm : same (VMap None) (VMap None)
  | same_map l l' l'' : Permutation l' l'' -> Forall2 (fun a b => fst a = fst b /\ same (snd a) (snd b)) l l'' ->
      same (VMap (Some l)) (VMap (Some l'))
  | same_struct l l' : Forall2 same l l' -> same (VStruct l) (VStruct l').
End V.
(* types without pointers, interfaces, functions and channels; names are not empty and do not start with a brace *)
Definition name_ok (n : bytes) : Prop := exists c r, n = c :: r /\ c <> "}"%char.
Fixpoint plain (t : gty) : Prop :=
  match t with
  | GBool _ | GInt _ | GUint _ | GFloat _ | GString _ => True
  | GSlice n e | GArr n _ e => name_ok n /\ plain e
  | GMap n _ e => name_ok n /\ plain e
  | GStruct n fs => name_ok n /\ (fix each (fs : list (bytes * gty)) : Prop := match fs with [] => True | (x, t) :: r => (name_ok x /\ plain t) /\ each r end) fs
  | _ => False
  end.
