(* Vocabulary of the statements about config.From. *)
From Coq Require Import Bool Ascii String Arith NArith ZArith List.
From Verif Require Import Prelude Utf8Model DecModel DurModel EncModel JsonModel JsonSpec MarModel MarSpec ConfModel.
Import ListNotations.

(* the text that joins the items with commas; none of the items has one *)
Fixpoint joined (items : list bytes) : bytes :=
  match items with
  | [] => []
  | [s] => s
  | s :: r => s ++ B "," ++ joined r
  end.
Definition without (c : N) (s : bytes) : Prop := Forall (fun x => code x <> c) s.
Definition comma_list (s : bytes) (items : list bytes) : Prop := s = joined items /\ items <> [] /\ Forall (without 44) items.
(* the item is k=x, or k, which stands for k= *)
Definition pair_text (s k x : bytes) : Prop := without 61 k /\ (s = k ++ B "=" ++ x \/ (s = k /\ x = [])).

(* s is the word w, with any letters in upper case *)
Definition same_letter (a b : ascii) : Prop := a = b \/ ((97 <= code b <= 122)%N /\ code a = (code b - 32)%N).
Definition is_word (s w : bytes) : Prop := Forall2 same_letter s w.
Definition true_words : list bytes := [B "true"; B "1"; B "yes"; B "y"].
Definition false_words : list bytes := [B ""; B "false"; B "0"; B "no"; B "n"].
(* strconv.Atoi: an optional sign, digits, and the number fits *)
Definition atoi (s : bytes) (z : Z) : Prop :=
  int_range W64 z /\ exists d, all_digits d /\
    ((s = d /\ z = value10 d) \/ (s = B "+" ++ d /\ z = value10 d) \/ (s = B "-" ++ d /\ z = (- value10 d)%Z)).

(* the last pair with this key *)
Fixpoint last_of {V} (l : list (bytes * V)) (k : bytes) : option V :=
  match l with
  | [] => None
  | (k', v) :: r => match last_of r k with Some x => Some x | None => if beqb k k' then Some v else None end
  end.


(* The text s makes v out of old. *)
Inductive parses : cty -> cval -> bytes -> cval -> Prop :=
| p_true nm old s w : In w true_words -> is_word s w -> parses (CBool nm) old s (CVBool true)
| p_false nm old s w : In w false_words -> is_word s w -> parses (CBool nm) old s (CVBool false)
| p_int nm old s z : atoi s z -> parses (CInt nm) old s (CVInt z)
| p_str old s : parses CStr old s (CVStr s)
| p_list0 t old : parses (CSlice t) old [] old
| p_list t l s items vs : s <> [] -> comma_list s items -> Forall2 (parses t (czero t)) items vs ->
    parses (CSlice t) (CVList l) s (CVList (l ++ vs))
| p_map0 pl t old : parses (CMap pl t) old [] old
| p_map pl t old s items kvs : s <> [] -> comma_list s items ->
    Forall2 (fun i e => exists x, pair_text i (fst e) x /\ parses t (czero t) x (snd e)) items kvs ->
    parses (CMap pl t) old s (CVMap (fold_left (fun m e => mset beqb m (fst e) (snd e)) kvs []))
| p_hook_empty h t old v : parses t old [] v -> parses (CHook false h t) old [] v
| p_hook al h t old s v : (al = true \/ s <> []) -> h old s = (v, true) -> parses (CHook al h t) old s v.

(* no named bool or int, and the keys of maps have type string *)
Fixpoint supported (t : cty) : Prop :=
  match t with
  | CBool named | CInt named => named = false
  | CStr | CNone _ => True
  | CSlice t => supported t
  | CMap plain t => plain = true /\ supported t
  | CHook _ _ t => supported t
  end.
(* a value of a slice type is a list *)
Definition typed (t : cty) (v : cval) : Prop := match t with CSlice _ => exists l, v = CVList l | _ => True end.
Definition hooked (t : cty) : Prop := exists al h t', t = CHook al h t'.

(* the last of the list *)
Fixpoint last_one {A} (l : list A) : option A := match l with [] => None | [x] => Some x | _ :: r => last_one r end.
(* The tag is a key followed by options default=..., the last of which counts. *)
Definition tag_reads (tag key : bytes) (def : option bytes) : Prop :=
  exists opts defs, comma_list tag (key :: opts) /\ Forall2 (fun o d => pair_text o (B "default") d) opts defs /\ def = last_one defs.
(* the first option that is another one *)
Definition tag_bad (tag key opt : bytes) : Prop :=
  exists o1 o2, comma_list tag (key :: o1 ++ opt :: o2) /\ Forall (fun o => exists d, pair_text o (B "default") d) o1 /\
    ~ exists d, pair_text opt (B "default") d.
(* the text to use *)
Definition chosen (env : bytes -> bytes) (key : bytes) (def : option bytes) (s : bytes) : Prop :=
  (env key <> [] /\ s = env key) \/ (env key = [] /\ def = Some s).
(* what happens to a field when all is well *)
Definition filled (env : bytes -> bytes) (f : cfld) (old new : cval) (asked : list bytes) : Prop :=
  (c_tag f = [] -> new = old /\ asked = []) /\
  (c_tag f <> [] -> exists key def s, tag_reads (c_tag f) key def /\ chosen env key def s /\ parses (c_type f) old s new /\ asked = [key]).
(* A text that cannot be read: the error names the variable (followed by [] in a list or map), and quotes the text, or that item of
   it; or it is the error of a method, or of a type that cannot be read. *)
Definition names (key s : bytes) (e : cerr) : Prop :=
  match e with
  | EBool n x | EInt n x => exists r a b, n = key ++ r /\ s = a ++ x ++ b
  | EKind | EHook => True
  | _ => False
  end.
(* and when it fails *)
Definition failed (env : bytes -> bytes) (f : cfld) (old new : cval) (e : cerr) (asked : list bytes) : Prop :=
  c_tag f <> [] /\ (new = old \/ (hooked (c_type f) /\ e = EHook)) /\
  exists key,
  ((exists opt, tag_bad (c_tag f) key opt /\ e = EOption key opt /\ asked = []) \/
   (tag_reads (c_tag f) key None /\ env key = [] /\ e = EMissing key /\ asked = [key]) \/
   (exists def s, tag_reads (c_tag f) key def /\ chosen env key def s /\ (forall v, ~ parses (c_type f) old s v) /\ names key s e /\ asked = [key])).
(* a field that can be configured, or has no tag; v is its value *)
Definition good_field (f : cfld) (v : cval) : Prop := c_tag f <> [] -> c_exported f = true /\ supported (c_type f) /\ typed (c_type f) v.
(* all fields, one after the other *)
Inductive fill_all (env : bytes -> bytes) : list cfld -> list cval -> list cval -> list bytes -> Prop :=
| fa_nil : fill_all env [] [] [] []
| fa_cons f fs v vs w ws a b : filled env f v w a -> fill_all env fs vs ws b -> fill_all env (f :: fs) (v :: vs) (w :: ws) (a ++ b).

(* the slice is in an array and within it *)
Definition valid {V} (h : heap V) (s : slc) : Prop := s_array s < length h /\ s_len s <= length (nth (s_array s) h []).
