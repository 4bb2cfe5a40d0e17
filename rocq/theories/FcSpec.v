(* Vocabulary of the statements about Handler.Factory. *)
From Coq Require Import Bool Ascii String Arith NArith ZArith List.
From Verif Require Import Prelude Utf8Model DecModel DurModel EncModel JsonModel MarModel FcModel.
Import ListNotations.

(* a handler without factories *)
Definition none : fty -> option (node -> option fval) := fun _ => None.
(* the types of the parts of a variable *)
Inductive part : fty -> fty -> Prop :=
| pt_self t : part t t
| pt_ptr s t : part s t -> part s (FPtr t)
| pt_slice s t : part s t -> part s (FSlice t)
| pt_arr s n t : part s t -> part s (FArr n t)
| pt_map s k t : part s t -> part s (FMap k t)
| pt_field s f t fs : In (f, t) fs -> part s t -> part s (FStruct fs).
(* not a pointer *)
Definition plain (t : fty) : Prop := forall s, t <> FPtr s.
(* the types of MarModel, and their values, as types without interfaces *)
Fixpoint emb (t : ty) : fty :=
  match t with
  | TBool => FBool | TInt w => FInt w | TUint w => FUint w | TStr => FStr
  | TPtr t => FPtr (emb t) | TSlice t => FSlice (emb t) | TArr n t => FArr n (emb t) | TMap k t => FMap k (emb t)
  | TStruct fs => FStruct (map (fun f => (fst f, emb (snd f))) fs)
  end.
Fixpoint embv (v : val) : fval :=
  match v with
  | VBool b => XBool b | VNum z => XNum z | VStr s => XStr s | VNil => XNil | VPtr v => XPtr (embv v)
  | VList l => XList (map embv l) | VMap l => XMap (map (fun e => (fst e, embv (snd e))) l) | VStruct l => XStruct (map embv l)
  end.
Definition embr (r : ures) : fres := match r with UOk v => FOk (embv v) | UErr v => FErr (embv v) | UPanic => FPanic end.
