(* What is said about values that refer to themselves: C132. *)
From Coq Require Import Bool Ascii String Arith NArith ZArith List Relations.
From Verif Require Import Prelude Utf8Model DecModel DurModel EncModel JsonModel MarModel CyModel.
Import ListNotations.

(* a field that is written *)
Definition shown (d : fld) : Prop := f_exported d = true /\ exists tg, parseTag d = Ok tg /\ g_skip tg = false.
(* w is part of v: what v points to, an element, a key or value, a field that is written *)
Inductive part (h : memory) : gv -> gv -> Prop :=
| p_ptr a w : nth_error h a = Some (CVar w) -> part h (GRef (RPtr a)) w
| p_elem a i n l k w : nth_error h a = Some (CArr l) -> nth_error l (i + k) = Some w -> k < n -> part h (GRef (RSlice a i n)) w
| p_key a l k w : nth_error h a = Some (CMap l) -> In (k, w) l -> part h (GRef (RMap a)) k
| p_value a l k w : nth_error h a = Some (CMap l) -> In (k, w) l -> part h (GRef (RMap a)) w
| p_array l w : In w l -> part h (GArr l) w
| p_field fs d w : In (d, w) fs -> shown d -> part h (GStruct fs) w.
(* x is in v, and is part of itself *)
Definition has_cycle (h : memory) (v : gv) : Prop := exists x, clos_refl_trans _ (part h) v x /\ clos_trans _ (part h) x x.
(* Marshal returns, in whatever way; it does so with this node *)
Definition returns (h : memory) (v : gv) : Prop := exists fuel r, marshal fuel h v = Some r.
Definition gives (h : memory) (v : gv) (r : mend node) : Prop := exists fuel, marshal fuel h v = Some r.
(* a value by itself that Marshal can write: no func, references to memory of their kind, keys with texts, tags that are well-formed *)
Definition writable (h : memory) (v : gv) : Prop :=
  match v with
  | GLeaf _ | GNil | GArr _ => True
  | GFunc => False
  | GRef (RPtr a) => exists w, nth_error h a = Some (CVar w)
  | GRef (RSlice a i n) => exists l, nth_error h a = Some (CArr l)
  | GRef (RMap a) => exists l, nth_error h a = Some (CMap l) /\ forall k w, In (k, w) l -> exists n s, k = GLeaf n /\ key_text n = Some s
  | GStruct fs => forall d w, In (d, w) fs -> f_exported d = true -> parseTag d <> Panic
  end.
