(* Vocabulary of the statements about the messages of Unmarshal: C156. *)
From Coq Require Import Bool Ascii String Arith NArith ZArith List.
From Verif Require Import Prelude Utf8Model DecModel DurModel EncModel JsonModel JsonSpec MarModel MarSpec UfSpec.
Import ListNotations.

(* Read as a t, node n has at this place the node n', which is read as a t'.  (Fields with the tag "-" are set from the key "", see C34.) *)
Inductive Leads : ty -> node -> list step -> ty -> node -> Prop :=
| l_here t n : Leads t n [] t n
| l_ptr t n s t' n' : Leads t n s t' n' -> Leads (TPtr t) n s t' n'
| l_slice t l i x s t' n' : nth_error l i = Some x -> Leads t x s t' n' -> Leads (TSlice t) (NList l) (SElem i :: s) t' n'
| l_array t j l i x s t' n' : nth_error l i = Some x -> Leads t x s t' n' -> Leads (TArr j t) (NList l) (SElem i :: s) t' n'
| l_entry t j n m w x s t' n' : is_map n m -> In (w, x) m -> Leads t x s t' n' -> Leads (TMap j t) n (SEntry w :: s) t' n'
| l_field fs n m f t name x s t' n' : is_map n m -> In (f, t) fs -> (exists o, tagged f name o) \/ (f_tag f = B "-" /\ name = []) -> In (name, x) m -> Leads t x s t' n' ->
    Leads (TStruct fs) n (SField (f_name f) :: s) t' n'.
(* nodes of this kind can be read as a t *)
Definition kind_fits (t : ty) (n : node) : Prop :=
  match t, n with
  | _, NNil => True
  | TBool, NBool _ => True
  | (TInt _ | TUint _ | TStr), (NInt _ | NFloat _ | NDigits _) => True
  | TStr, NStr _ => True
  | (TSlice _ | TArr _ _), NList _ => True
  | (TMap _ _ | TStruct _), (NMap _ | NPairs _) => True
  | _, _ => False
  end.
(* names of fields in Go: not empty, letters, digits and "_" *)
Definition go_name (s : bytes) : Prop := s <> [] /\ ~ In "."%char s /\ ~ In "["%char s.
Fixpoint go_names (t : ty) : Prop :=
  match t with
  | TBool | TInt _ | TUint _ | TStr => True
  | TPtr t | TSlice t | TArr _ t | TMap _ t => go_names t
  | TStruct fs => fold_right (fun x R => go_name (f_name (fst x)) /\ go_names (snd x) /\ R) True fs
  end.
(* the path to a place *)
Definition place (s : list step) : list pel := [PRoot] ++ map show s.
(* the key is none of this kind: what strconv does not take *)
Definition bad_key (k : kty) (s : bytes) : Prop := match k with KTStr => False | KTInt _ => parse_int s = None | KTUint _ => parse_uint s = None end.
