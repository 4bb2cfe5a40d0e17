(* What is said about the schemas, without the way they are made. *)
From Coq Require Import Bool Ascii String Arith NArith ZArith List.
From Verif Require Import Prelude Utf8Model DecModel DurModel EncModel JsonModel MarModel MarSpec ApiModel OaModel.
Import ListNotations.

Section Types.
  Context (env : tid -> tinfo).
  (* The type is described by its kind: it does not marshal itself, or does so as an object, an array or null. *)
  Definition plain (t : tid) : Prop :=
    match t_special (env t) with
    | SNone | SMarshaler MarErr => True
    | SMarshaler (MarJson (c :: _)) => c = "{"%char \/ c = "n"%char \/ c = "["%char
    | _ => False
    end.
  (* the types in a description *)
  Definition parts (t : tid) : list tid :=
    match t_kind (env t) with KPtr e | KSeq e => [e] | KMap k e => [k; e] | KStruct _ fs => map sf_type fs | _ => [] end.
  Definition is_ptr (t : tid) : Prop := exists e, t_kind (env t) = KPtr e.
  (* u is t without the pointers *)
  Inductive points : tid -> tid -> Prop :=
  | points_at t : ~ is_ptr t -> points t t
  | points_to t e u : t_kind (env t) = KPtr e -> points e u -> points t u.
  (* b is part of the description of a *)
  Definition edge (a b : tid) : Prop := In b (parts a) /\ (is_ptr a \/ plain a).
  (* struct types with a name, with the key of the component *)
  Definition named (t : tid) (k : bytes) (fs : list sfld) : Prop := exists pkg n, t_kind (env t) = KStruct (Some (pkg, n)) fs /\ k = structKey pkg n.
  (* a path of one edge or more; the list has all types but the last *)
  Inductive path : tid -> tid -> list tid -> Prop :=
  | path_one a b : edge a b -> path a b [a]
  | path_more a b c p : edge a b -> path b c p -> path a c (a :: p).
  (* b is a, or is reached from a *)
  Definition within (a b : tid) : Prop := a = b \/ exists p, path a b p.
End Types.

(* ---- references ---- *)
(* all references in a schema *)
Fixpoint refs (s : schema) : list bytes :=
  s_allOf s ++ flat_map (fun p => refs (snd p)) (s_props s) ++ match s_addl s with None => [] | Some x => refs x end ++ match s_items s with None => [] | Some x => refs x end.
(* the reference names a component *)
Definition resolves (st : comps) (r : bytes) : Prop := exists k s, r = B "#/components/schemas/" ++ k /\ mget beqb st k = Some s.

Section Calls.
  Context (env : tid -> tinfo) (parse_float : bytes -> option floatv).
  (* the components after any calls, whatever their results (a panic can be recovered from) *)
  Inductive calls : comps -> Prop :=
  | calls_none : calls []
  | calls_more st n t doc ex r st' : calls st -> schemaFromType env parse_float n st t doc ex = Some (r, st') -> calls st'.
  (* the same, if there was no panic *)
  Inductive good_calls : comps -> Prop :=
  | good_none : good_calls []
  | good_more st n t doc ex r st' : good_calls st -> schemaFromType env parse_float n st t doc ex = Some (r, st') -> r <> SPanic -> good_calls st'.
End Calls.
(* no two struct types have the same key *)
Definition distinct_keys (env : tid -> tinfo) : Prop :=
  forall t t' k fs fs', named env t k fs -> named env t' k fs' -> t = t'.

(* ---- what a schema says about JSON ---- *)
(* the keys and values of an object *)
Definition entries (n : node) : option (list (bytes * node)) :=
  match n with NMap l => Some l | NPairs l => Some (map (fun x => (snd (fst x), snd x)) l) | _ => None end.
Section Conforms.
  (* nullable: whether null is accepted everywhere; OpenAPI 3.0 does not, without "nullable" *)
  Context (st : comps) (nullable : bool).
  Inductive conforms : schema -> node -> Prop :=
  | conf_null s : nullable = true -> conforms s NNil
  | conf_bool s b : s_type s = B "boolean" -> conforms s (NBool b)
  | conf_int s z : s_type s = B "number" -> conforms s (NInt z)
  | conf_float s f : s_type s = B "number" -> conforms s (NFloat f)
  | conf_digits s d : s_type s = B "number" -> conforms s (NDigits d)
  | conf_str s x : s_type s = B "string" -> conforms s (NStr x)
  | conf_time s t : s_type s = B "string" -> s_format s = B "date-time" -> conforms s (NTime t)
  | conf_list s i l : s_type s = B "array" -> s_items s = Some i -> (forall n, In n l -> conforms i n) -> conforms s (NList l)
  (* every key is documented, or there is a schema for all others *)
  | conf_object s n l : s_type s = B "object" -> entries n = Some l ->
      (forall k x, In (k, x) l -> exists s', (mget beqb (s_props s) k = Some s' \/ (mget beqb (s_props s) k = None /\ s_addl s = Some s')) /\ conforms s' x) ->
      conforms s n
  (* an object of which nothing is said *)
  | conf_free s n l : s_type s = B "object" -> s_props s = [] -> s_addl s = None -> entries n = Some l -> conforms s n
  | conf_ref s k s' n : s_allOf s = [B "#/components/schemas/" ++ k] -> mget beqb st k = Some s' -> conforms s' n -> conforms s n.
End Conforms.

(* the type of keys is that one of MarModel *)
Definition key_denotes (k : kty) (i : tinfo) : Prop := t_special i = SNone /\ t_kind i = match k with KTStr => KString | _ => KInt end.
(* the type described in the environment is that one of MarModel *)
Fixpoint denotes (env : tid -> tinfo) (t : tid) (a : ty) {struct a} : Prop :=
  match a, t_kind (env t) with
  | TPtr a', KPtr e => t_special (env t) = SNone /\ denotes env e a'
  | TBool, KBool | TInt _, KInt | TUint _, KInt | TStr, KString => t_special (env t) = SNone
  | TSlice a', KSeq e | TArr _ a', KSeq e => t_special (env t) = SNone /\ denotes env e a'
  | TMap k a', KMap k' e => (t_special (env t) = SNone /\ key_denotes k (env k')) /\ denotes env e a'
  | TStruct fs, KStruct _ sfs =>
      t_special (env t) = SNone /\
      (fix all (fs : list (fld * ty)) (sfs : list sfld) : Prop :=
         match fs, sfs with
         | [], [] => True
         | x :: fs', y :: sfs' => fst x = Fld (sf_name y) (sf_exported y) (sf_json y) /\ denotes env (sf_type y) (snd x) /\ all fs' sfs'
         | _, _ => False
         end) fs sfs
  | _, _ => False
  end.
(* no nil pointer, slice or map in it *)
Fixpoint no_nil (t : ty) (v : val) {struct t} : Prop :=
  match t, v with
  | TPtr _, VNil | TSlice _, VNil | TMap _ _, VNil => False
  | TPtr t', VPtr v' => no_nil t' v'
  | TSlice t', VList l | TArr _ t', VList l => Forall (no_nil t') l
  | TMap _ t', VMap l => Forall (fun e => no_nil t' (snd e)) l
  | TStruct fs, VStruct vs => fieldwise (fun _ t' v' => no_nil t' v') fs vs
  | _, _ => True
  end.
(* the name of a field in JSON and in the documentation *)
Definition json_name (f : sfld) (name : bytes) : Prop :=
  exists j rest, (sf_json f = j \/ sf_json f = j ++ "," :: rest)%char /\ Forall (fun c => code c <> 44%N) j /\ name = (match j with [] => sf_name f | _ => j end).
(* the field is in JSON *)
Definition shown (f : sfld) : Prop := sf_exported f = true /\ sf_json f <> B "-".
(* no field has the name of one that is in JSON *)
Definition names_differ (env : tid -> tinfo) : Prop :=
  forall t nm fs i j f g name, t_kind (env t) = KStruct nm fs -> nth_error fs i = Some f -> nth_error fs j = Some g ->
    shown f -> json_name f name -> json_name g name -> i = j.
(* the schema itself, or the component it refers to *)
Definition stands_for (st : comps) (s x : schema) : Prop :=
  (s_allOf s = [] /\ x = s) \/ exists k, s_allOf s = [B "#/components/schemas/" ++ k] /\ mget beqb st k = Some x.
(* names of types as in most programs: no "_" in the package or the name, no "/" in the name *)
Definition plain_names (env : tid -> tinfo) : Prop :=
  (forall t pkg n fs, t_kind (env t) = KStruct (Some (pkg, n)) fs -> ~ In "_"%char pkg /\ ~ In "_"%char n /\ ~ In "/"%char n) /\
  (forall t t' pkg n fs fs', t_kind (env t) = KStruct (Some (pkg, n)) fs -> t_kind (env t') = KStruct (Some (pkg, n)) fs' -> t = t').
(* the schema of a request or a response with these properties *)
Definition body (props : list (bytes * schema)) : schema := Schema (B "object") [] props None [] None None [].
