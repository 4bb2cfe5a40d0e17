(* Vocabulary of the statements about api.Handler. *)
From Coq Require Import Bool Ascii String Arith NArith ZArith List.
From Verif Require Import Prelude Utf8Model DecModel DurModel EncModel JsonModel KvSpec JsonSpec MarModel MarSpec ConfModel ConfSpec ApiModel.
Import ListNotations.

(* ---- tags ---- *)
(* the word is in the tag api:"..." *)
Definition word (f : afld) (w : bytes) : Prop := exists l, comma_list (a_api f) l /\ In w l.
Definition is_in (f : afld) : Prop := word f (B "in") \/ word f (B "both").
Definition is_out (f : afld) : Prop := word f (B "out") \/ word f (B "both").
Definition is_auth (f : afld) : Prop := word f (B "auth").
Definition is_required (f : afld) : Prop := word f (B "required").
(* the words that may be used; an url that can be parsed *)
Definition tag_ok (f : afld) : Prop :=
  (forall w, word f w -> In w [B "in"; B "out"; B "both"; B "required"; B "auth"; B ""]) /\ a_url f <> Some false.
(* p is s up to the first comma *)
Definition up_to_comma (s p : bytes) : Prop := without 44 p /\ (s = p \/ exists r, s = p ++ B "," ++ r).
(* the name of the field in requests and responses: from the tag enc, else json, else that of the field *)
Definition wire (f : afld) (name : bytes) : Prop :=
  exists p, up_to_comma (match a_enc f with [] => a_json f | e => e end) p /\ name = match p with [] => a_name f | _ => p end.
(* the field keeps the value it has in the registered object *)
Definition kept (f : afld) : Prop := ~ is_in f /\ ~ is_out f /\ a_url f = None.

(* ---- objects ---- *)
Definition typed (fs : list afld) (vs : list val) : Prop := Forall2 (fun f v => hasty (a_type f) v) fs vs.
(* the object before anything is received, made from the registered one *)
Definition starts (fs : list afld) (init obj : list val) : Prop :=
  length obj = length fs /\
  forall i f v, nth_error fs i = Some f -> nth_error obj i = Some v ->
    (kept f -> nth_error init i = Some v) /\ (~ kept f -> v = zero (a_type f)).
(* two objects agree on the fields P *)
Definition agree (fs : list afld) (P : afld -> Prop) (o o' : list val) : Prop :=
  length o = length o' /\ forall i f, nth_error fs i = Some f -> P f -> nth_error o i = nth_error o' i.
(* no two of the fields P have the same name *)
Definition distinct (fs : list afld) (P : afld -> Prop) : Prop :=
  forall i j f g name, nth_error fs i = Some f -> nth_error fs j = Some g -> P f -> P g -> wire f name -> wire g name -> i = j.
Definition exported (fs : list afld) (P : afld -> Prop) : Prop := forall f, In f fs -> P f -> a_exported f = true.
(* no identity *)
Definition nobody (uid : option node) : Prop := uid = None \/ uid = Some NNil.

(* Exactly the values v that arrive in a variable that holds old: as for a new variable (keeps), but a field of a struct that
   is not sent must hold that value already. *)
Fixpoint comes (t : ty) (v old : val) {struct t} : Prop :=
  match t, v, old with
  | TStruct fs, VStruct vs, VStruct os =>
      fieldwise2 (fun f t' v' o' => (hidden f -> o' = v') /\
        forall name om, tagged f name om -> if om && blank v' then o' = v' else comes t' v' o') fs vs os
  | TStruct _, _, _ => False
  | _, _, _ => keeps t v
  end.
(* the data d' arrives for d: the same, or through JSON text, which Q allows *)
Definition carried (Q : Prop) (d d' : data) : Prop := reorder (NMap d) (NMap d') \/ (Q /\ reads_as (NMap d) (NMap d')).
(* what the fields P hold can be carried by JSON text *)
Definition texts (fs : list afld) (P : afld -> Prop) (obj : list val) : Prop :=
  forall i f v, nth_error fs i = Some f -> nth_error obj i = Some v -> P f ->
    textual (a_type f) v /\ (N.of_nat (tdepth (a_type f)) < 10000)%N /\ forall name, wire f name -> valid_utf8 name = true.

(* ---- calls ---- *)
Section Calls.
  Context (f2i f2u : floatv -> Z).
  (* The object that the operation is to run on: as registered, with the client's in fields, and in the auth field the identity
     if there is one. *)
  Definition serves (fs : list afld) (init cobj : list val) (uid : option node) (sobj : list val) : Prop :=
    length sobj = length fs /\ exists st, starts fs init st /\
    forall i f s c v, nth_error fs i = Some f -> nth_error st i = Some s -> nth_error cobj i = Some c -> nth_error sobj i = Some v ->
      (is_in f -> v = c) /\
      (~ is_in f -> (is_auth f -> nobody uid) -> v = s) /\
      (~ is_in f -> is_auth f -> forall u, uid = Some u -> u <> NNil -> exists calls, Unmarshal f2i f2u None (a_type f) u s = (UOk v, calls)).
  (* the client's object with the out fields of the server's *)
  Definition merged (fs : list afld) (cobj sobj cobj' : list val) : Prop :=
    length cobj' = length fs /\
    forall i f, nth_error fs i = Some f -> (is_out f -> nth_error cobj' i = nth_error sobj i) /\ (~ is_out f -> nth_error cobj' i = nth_error cobj i).
End Calls.
(* types and tags as they should be *)
Record api_type (fs : list afld) : Prop := {
  at_exported : exported fs (fun f => is_in f \/ is_out f \/ is_auth f);
  at_in : distinct fs is_in;
  at_out : distinct fs is_out;
  at_wf : forall f, In f fs -> wfty (a_type f);
  at_auth : forall f, In f fs -> is_auth f -> ~ is_in f
}.
(* the values of in fields that arrive *)
Definition in_ok (fs : list afld) (cobj : list val) : Prop :=
  forall i f c, nth_error fs i = Some f -> nth_error cobj i = Some c -> is_in f ->
    keeps (a_type f) c /\ (is_required f -> c <> zero (a_type f)).
(* only exported fields are registered with a value that is kept *)
Definition init_ok (fs : list afld) (init : list val) : Prop :=
  forall i f v, nth_error fs i = Some f -> nth_error init i = Some v -> kept f -> v <> zero (a_type f) -> a_exported f = true.
(* an identity if one is required *)
Definition auth_ok (fs : list afld) (uid : option node) : Prop := forall f, In f fs -> is_auth f -> is_required f -> ~ nobody uid.
(* the values of out fields that arrive *)
Definition out_ok (fs : list afld) (sobj cobj : list val) : Prop :=
  forall i f s c, nth_error fs i = Some f -> nth_error sobj i = Some s -> nth_error cobj i = Some c -> is_out f -> comes (a_type f) s c.
