(* Vocabulary of the statements about unknown fields. *)
From Coq Require Import Bool Ascii String Arith NArith ZArith List.
From Verif Require Import Prelude Utf8Model DecModel DurModel EncModel JsonModel JsonSpec MarModel MarSpec.
Import ListNotations.

(* one step into a value: a field of a struct, an element of a slice or an array, an entry of a map *)
Inductive step := SField (name : bytes) | SElem (i : nat) | SEntry (key : bytes).
(* Read as a t, node n has at this place a struct without a field for the key k, which has the node x. *)
Inductive Unknown : ty -> node -> list step -> bytes -> node -> Prop :=
| u_here fs n m k x : is_map n m -> In (k, x) m -> (forall f t o, In (f, t) fs -> ~ tagged f k o) -> Unknown (TStruct fs) n [] k x
| u_field fs n m f t name o y s k x : is_map n m -> In (f, t) fs -> tagged f name o -> In (name, y) m -> Unknown t y s k x ->
    Unknown (TStruct fs) n (SField (f_name f) :: s) k x
| u_ptr t n s k x : Unknown t n s k x -> Unknown (TPtr t) n s k x
| u_slice t l i y s k x : nth_error l i = Some y -> Unknown t y s k x -> Unknown (TSlice t) (NList l) (SElem i :: s) k x
| u_array t j l i y s k x : nth_error l i = Some y -> Unknown t y s k x -> Unknown (TArr j t) (NList l) (SElem i :: s) k x
| u_entry t j n m w y s k x : is_map n m -> In (w, y) m -> Unknown t y s k x -> Unknown (TMap j t) n (SEntry w :: s) k x.
(* a place in a path: those of entries of maps are the same for all keys *)
Definition show (s : step) : pel := match s with SField name => PName name | SElem i => PIdx i | SEntry _ => PVal end.
Definition path_to (s : list step) (k : bytes) : list pel := [PRoot] ++ map show s ++ [PKey k].
(* the exported fields of structs have different names, at all depths, as Go requires *)
Fixpoint fields_distinct (t : ty) : Prop :=
  match t with
  | TBool | TInt _ | TUint _ | TStr => True
  | TPtr t | TSlice t | TArr _ t | TMap _ t => fields_distinct t
  | TStruct fs => (forall i j f g t u, nth_error fs i = Some (f, t) -> nth_error fs j = Some (g, u) -> f_exported f = true -> f_name f = f_name g -> i = j) /\
                  fold_right (fun x R => fields_distinct (snd x) /\ R) True fs
  end.
(* no map, at any depth *)
Fixpoint no_maps (t : ty) : Prop :=
  match t with
  | TBool | TInt _ | TUint _ | TStr => True
  | TPtr t | TSlice t | TArr _ t => no_maps t
  | TMap _ _ => False
  | TStruct fs => fold_right (fun x R => no_maps (snd x) /\ R) True fs
  end.
(* no empty key, at any depth *)
Fixpoint no_empty (n : node) : Prop :=
  match n with
  | NList l => fold_right (fun x P => no_empty x /\ P) True l
  | NMap l => fold_right (fun x P => fst x <> [] /\ no_empty (snd x) /\ P) True l
  | NPairs l => fold_right (fun x P => snd (fst x) <> [] /\ no_empty (snd x) /\ P) True l
  | _ => True
  end.
