(* Vocabulary of the statements about Marshal and Unmarshal. *)
From Coq Require Import Bool Ascii String Arith NArith ZArith Lia List Sorted Permutation.
From Verif Require Import Prelude Utf8Model DecModel DurModel EncModel JsonModel JsonSpec MarModel.
Import ListNotations.

(* the numbers of a width *)
Definition int_range (w : width) (z : Z) : Prop := (- 2 ^ (bits w - 1) <= z < 2 ^ (bits w - 1))%Z.
Definition uint_range (w : width) (z : Z) : Prop := (0 <= z < 2 ^ bits w)%Z.

(* a key of the type *)
Definition key_of (k : kty) (x : key) : Prop :=
  match k, x with
  | KTStr, KStr _ => True
  | KTInt w, KNum z => int_range w z
  | KTUint w, KNum z => uint_range w z
  | _, _ => False
  end.
(* fieldwise *)
Section Fields.
  Context {A : Type} (P : fld -> A -> val -> Prop).
  Fixpoint fieldwise (fs : list (fld * A)) (vs : list val) : Prop :=
    match fs, vs with
    | [], [] => True
    | (f, t) :: fs', v :: vs' => P f t v /\ fieldwise fs' vs'
    | _, _ => False
    end.
End Fields.
(* v is a value of type t *)
Fixpoint hasty (t : ty) (v : val) {struct t} : Prop :=
  match t, v with
  | TBool, VBool _ => True
  | TInt w, VNum z => int_range w z
  | TUint w, VNum z => uint_range w z
  | TStr, VStr _ => True
  | TPtr _, VNil | TSlice _, VNil | TMap _ _, VNil => True
  | TPtr t', VPtr v' => hasty t' v'
  | TSlice t', VList l => Forall (hasty t') l
  | TArr n t', VList l => length l = n /\ Forall (hasty t') l
  | TMap k t', VMap l =>
      StronglySorted (fun a b => kltb a b = true) (map fst l) /\ Forall (fun e => key_of k (fst e) /\ hasty t' (snd e)) l
  | TStruct fs, VStruct vs => fieldwise (fun _ t' v' => hasty t' v') fs vs
  | _, _ => False
  end.

(* The field has the JSON name, and the option omitempty or not: the tag is "name", "name," or "name,omitempty", where an
   empty name stands for that of the field. *)
Definition tagged (f : fld) (name : bytes) (omit : bool) : Prop :=
  f_exported f = true /\ f_tag f <> B "-" /\
  exists j, Forall (fun c => code c <> 44%N) j /\ name = (match j with [] => f_name f | _ => j end) /\
    ((f_tag f = j /\ omit = false) \/ (f_tag f = j ++ B "," /\ omit = false) \/ (f_tag f = j ++ B ",omitempty" /\ omit = true)).
(* json:"-" or not exported *)
Definition hidden (f : fld) : Prop := f_exported f = false \/ f_tag f = B "-".

(* struct types as they should be, at all depths: good tags, no two fields with the same JSON name *)
Definition distinct_names {A} (fs : list (fld * A)) : Prop :=
  forall i j f g t u name o o', nth_error fs i = Some (f, t) -> nth_error fs j = Some (g, u) ->
    tagged f name o -> tagged g name o' -> i = j.
Fixpoint wfty (t : ty) : Prop :=
  match t with
  | TBool | TInt _ | TUint _ | TStr => True
  | TPtr t | TSlice t | TArr _ t | TMap _ t => wfty t
  | TStruct fs =>
      distinct_names fs /\
      fold_right (fun x R => (f_name (fst x) <> [] /\ (hidden (fst x) \/ exists name o, tagged (fst x) name o)) /\
                             wfty (snd x) /\ R) True fs
  end.

(* nil, or a pointer to nil, ...: becomes null *)
Fixpoint nullish (v : val) : bool := match v with VNil => true | VPtr v => nullish v | _ => false end.
(* nil, "", 0, or a pointer to one, ...: dropped by omitempty *)
Fixpoint blank (v : val) : bool :=
  match v with VNil => true | VStr [] => true | VNum z => (z =? 0)%Z | VPtr v => blank v | _ => false end.

(* Exactly the values that come back: no pointer to something null; nothing in hidden fields; in an omitempty field no
   pointer to something blank; no uint key above MaxInt64. *)
Fixpoint keeps (t : ty) (v : val) {struct t} : Prop :=
  match t, v with
  | TPtr t', VPtr v' => nullish v' = false /\ keeps t' v'
  | TSlice t', VList l | TArr _ t', VList l => Forall (keeps t') l
  | TMap k t', VMap l =>
      Forall (fun e => match k, fst e with KTUint _, KNum z => (z < 2 ^ 63)%Z | _, _ => True end /\ keeps t' (snd e)) l
  | TStruct fs, VStruct vs =>
      fieldwise (fun f t' v' =>
        (hidden f -> v' = zero t') /\
        (forall name o, tagged f name o -> keeps t' v' /\ (o = true -> blank v' = true -> v' = zero t'))) fs vs
  | _, _ => True
  end.

(* what JSON text can carry: strings, keys and field names in UTF-8, no uint above MaxInt64 *)
Fixpoint textual (t : ty) (v : val) {struct t} : Prop :=
  match t, v with
  | TUint _, VNum z => (z < 2 ^ 63)%Z
  | TStr, VStr s => valid_utf8 s = true
  | TPtr t', VPtr v' => textual t' v'
  | TSlice t', VList l | TArr _ t', VList l => Forall (textual t') l
  | TMap _ t', VMap l =>
      Forall (fun e => match fst e with KStr s => valid_utf8 s = true | KNum _ => True end /\ textual t' (snd e)) l
  | TStruct fs, VStruct vs =>
      fieldwise (fun f t' v' => forall name o, tagged f name o -> valid_utf8 name = true /\ textual t' v') fs vs
  | _, _ => True
  end.

(* nesting of containers in the type *)
Fixpoint tdepth (t : ty) : nat :=
  match t with
  | TPtr t => tdepth t
  | TSlice t | TArr _ t | TMap _ t => S (tdepth t)
  | TStruct fs => S (fold_right (fun x m => Nat.max (tdepth (snd x)) m) 0 fs)
  | _ => 0
  end.

(* ---- numbers ---- *)
(* the number written by decimal digits *)
Definition value10 (s : bytes) : Z := fold_left (fun a c => 10 * a + (Z.of_N (code c) - 48))%Z s 0%Z.
(* the exponent of a JSON number *)
Inductive exponent : bytes -> option Z -> Prop :=
| no_exponent : exponent [] None
| pos_exponent e g d : e = B "e" \/ e = B "E" -> g = [] \/ g = B "+" -> all_digits d -> exponent (e ++ g ++ d) (Some (value10 d))
| neg_exponent e d : e = B "e" \/ e = B "E" -> all_digits d -> exponent (e ++ B "-" ++ d) (Some (- value10 d)%Z).
(* s is the JSON number with this sign, integer part, digits after the point and exponent *)
Definition number_text (s : bytes) (neg : bool) (ip fr : bytes) (ex : option Z) : Prop :=
  exists frt ext, s = (if neg then B "-" else []) ++ ip ++ frt ++ ext /\
    (ip = B "0" \/ (all_digits ip /\ hd_error ip <> Some (digit 0))) /\
    ((frt = [] /\ fr = []) \/ (frt = B "." ++ fr /\ all_digits fr)) /\ exponent ext ex.
(* s is a JSON number equal to the integer z *)
Definition signed (neg : bool) (z : Z) : Z := if neg then (- z)%Z else z.
Definition number_is (s : bytes) (z : Z) : Prop :=
  exists neg ip fr ex, number_text s neg ip fr ex /\
    let m := signed neg (value10 (ip ++ fr)) in
    let e := ((match ex with Some e => e | None => 0 end) - Z.of_nat (length fr))%Z in
    if (0 <=? e)%Z then z = (m * 10 ^ e)%Z else m = (z * 10 ^ (- e))%Z.

(* ---- structs ---- *)
(* n is a map or pairs, with these entries *)
Definition is_map (n : node) (m : list (bytes * node)) : Prop := n = NMap m \/ exists ps, n = NPairs ps /\ m = AsMap ps.
(* fieldwise, for two values *)
Section Fields2.
  Context {A : Type} (P : fld -> A -> val -> val -> Prop).
  Fixpoint fieldwise2 (fs : list (fld * A)) (vs ws : list val) : Prop :=
    match fs, vs, ws with
    | [], [], [] => True
    | (f, t) :: fs', v :: vs', w :: ws' => P f t v w /\ fieldwise2 fs' vs' ws'
    | _, _, _ => False
    end.
End Fields2.
(* the hidden fields of a struct, and of the structs it holds directly, have the same values *)
Fixpoint same_hidden (t : ty) (v w : val) {struct t} : Prop :=
  match t, v, w with
  | TStruct fs, VStruct vs, VStruct ws =>
      fieldwise2 (fun f t' a b => (hidden f -> a = b) /\ same_hidden t' a b) fs vs ws
  | TStruct _, _, _ => False
  | _, _, _ => True
  end.
(* the values differ at most in hidden fields, at any depth *)
Fixpoint same_visible (t : ty) (v w : val) {struct t} : Prop :=
  match t, v, w with
  | TPtr t', VPtr a, VPtr b => same_visible t' a b
  | TSlice t', VList l, VList l' | TArr _ t', VList l, VList l' => Forall2 (same_visible t') l l'
  | TMap _ t', VMap l, VMap l' => Forall2 (fun a b => fst a = fst b /\ same_visible t' (snd a) (snd b)) l l'
  | TStruct fs, VStruct vs, VStruct ws => fieldwise2 (fun f t' a b => hidden f \/ same_visible t' a b) fs vs ws
  | _, _, _ => v = w
  end.
(* no null and no empty key, at any depth *)
Fixpoint plain (n : node) : Prop :=
  match n with
  | NNil => False
  | NList l => fold_right (fun x P => plain x /\ P) True l
  | NMap l => fold_right (fun x P => fst x <> [] /\ plain (snd x) /\ P) True l
  | NPairs l => fold_right (fun x P => snd (fst x) <> [] /\ plain (snd x) /\ P) True l
  | _ => True
  end.
(* no Duration node, at any depth *)
Fixpoint no_dur (n : node) : Prop :=
  match n with
  | NDur _ => False
  | NList l => fold_right (fun x P => no_dur x /\ P) True l
  | NMap l => fold_right (fun x P => no_dur (snd x) /\ P) True l
  | NPairs l => fold_right (fun x P => no_dur (snd x) /\ P) True l
  | _ => True
  end.
(* the tags are those described above, at all depths *)
Fixpoint tags_ok (t : ty) : Prop :=
  match t with
  | TBool | TInt _ | TUint _ | TStr => True
  | TPtr t | TSlice t | TArr _ t | TMap _ t => tags_ok t
  | TStruct fs => fold_right (fun x R => (hidden (fst x) \/ exists name o, tagged (fst x) name o) /\ tags_ok (snd x) /\ R) True fs
  end.
(* the keys of maps are texts that Marshal writes for keys of the type *)
Definition fit_key (k : kty) (s : bytes) : Prop :=
  match k with
  | KTStr => True
  | KTInt w => exists z, int_range w z /\ s = decz z
  | KTUint w => exists z, uint_range w z /\ s = decz z
  end.
Fixpoint fits (t : ty) (n : node) {struct t} : Prop :=
  match t with
  | TPtr t' => fits t' n
  | TSlice t' | TArr _ t' => forall l x, n = NList l -> In x l -> fits t' x
  | TMap k t' => forall m s x, is_map n m -> In (s, x) m -> fit_key k s /\ fits t' x
  | TStruct fs => forall m s x, is_map n m -> In (s, x) m -> 
      fold_right (fun f R => (s = [] \/ (exists o, tagged (fst f) s o) -> fits (snd f) x) /\ R) True fs
  | _ => True
  end.
