(* Vocabulary of the KeyValue theorems. *)
From Coq Require Import Bool Ascii String Arith NArith ZArith Lia List Permutation.
From Verif Require Import Prelude Utf8Model QuoteModel DurModel EncModel KvModel.
Import ListNotations.

(* the value k holds after a history: that of the last write to k *)
Definition writes (k : bytes) (o : kvop) : bool :=
  match o with KUpsert a _ => beqb a k | KDelete a => beqb a k end.
Definition last_write (ops : list kvop) (k : bytes) : kval :=
  match find (writes k) (rev ops) with Some (KUpsert _ v) => v | _ => None end.

(* same node, each map listed in another order *)
Inductive reorder : node -> node -> Prop :=
| ro_same n : reorder n n
| ro_list l l' : Forall2 reorder l l' -> reorder (NList l) (NList l')
| ro_map l m l' : Permutation l m ->
    Forall2 (fun a b => fst a = fst b /\ reorder (snd a) (snd b)) m l' -> reorder (NMap l) (NMap l')
| ro_pairs l l' : Forall2 (fun a b => fst a = fst b /\ reorder (snd a) (snd b)) l l' ->
    reorder (NPairs l) (NPairs l').

(* the field looked at by a filter, null when missing *)
Definition field_of (v : kval) (f : bytes) : node :=
  match v with
  | Some m => match find (fun e => beqb f (fst e)) m with Some e => snd e | None => NNil end
  | None => NNil
  end.

Definition supported (f : filt) : bool := beqb (fcmp f) (B "EQ") || beqb (fcmp f) (B "NEQ").

(* the filter accepts, or refuses, the value whatever order maps are listed in *)
Definition texts_equal (isprint : N -> bool) (n w : node) : Prop :=
  forall n' w', reorder n n' -> reorder w w' -> gostring isprint n' = gostring isprint w'.
Definition texts_differ (isprint : N -> bool) (n w : node) : Prop :=
  forall n' w', reorder n n' -> reorder w w' -> gostring isprint n' <> gostring isprint w'.
Definition accepts (isprint : N -> bool) (f : filt) (v : kval) : Prop :=
  exists w, fval f = Some w /\
    ((fcmp f = B "EQ" /\ texts_equal isprint (field_of v (ffield f)) w) \/
     (fcmp f = B "NEQ" /\ texts_differ isprint (field_of v (ffield f)) w)).
Definition refuses (isprint : N -> bool) (f : filt) (v : kval) : Prop :=
  exists w, fval f = Some w /\
    ((fcmp f = B "EQ" /\ texts_differ isprint (field_of v (ffield f)) w) \/
     (fcmp f = B "NEQ" /\ texts_equal isprint (field_of v (ffield f)) w)).

(* leaves of the node tree whose text identifies them *)
Definition scalar (n : node) : Prop :=
  match n with
  | NNil | NBool _ | NInt _ | NDigits _ | NStr _ | NFloat _ | NTime _ => True
  | NDur d => int64 d
  | _ => False
  end.
(* durations are int64 *)
Definition go_node (n : node) : Prop := match n with NDur d => int64 d | _ => True end.

(* equality of values; floats and times are known by the text of their value *)
Definition same_value (n w : node) : Prop :=
  match n, w with
  | NFloat f, NFloat g => f_go f = f_go g
  | NTime t, NTime u => t_go t = t_go u
  | _, _ => n = w
  end.

(* the calls made, threading the callback's state *)
Inductive calls {S E} (cb : S -> bytes -> kval -> S * cbres E) : S -> list (bytes * kval * cbres E) -> S -> Prop :=
| calls_nil s : calls cb s [] s
| calls_cons s k v s1 r tr s2 : cb s k v = (s1, r) -> calls cb s1 tr s2 -> calls cb s ((k, v, r) :: tr) s2.

(* the calls go through l in order and stop at the first result other than nil *)
Definition visits {E} (l : kv) (tr : list (bytes * kval * cbres E)) (res : rangeres E) : Prop :=
  (map fst tr = l /\ Forall (fun c => snd c = CNil) tr /\ res = RNil) \/
  (exists pre k v r post, tr = pre ++ [(k, v, r)] /\ l = map fst pre ++ (k, v) :: post /\
    Forall (fun c => snd c = CNil) pre /\
    ((r = CEod /\ res = RNil) \/ exists e, r = CErr e /\ res = RErr e)).

(* no map in the tree has two entries, so it has only one listing *)
Fixpoint one_listing (n : node) : Prop :=
  match n with
  | NList l => fold_right (fun x P => one_listing x /\ P) True l
  | NMap l => (length l <= 1)%nat /\ fold_right (fun x P => one_listing (snd x) /\ P) True l
  | NPairs l => fold_right (fun x P => one_listing (snd x) /\ P) True l
  | _ => True
  end.
