(* Model of /repo/api/openapi/schema.go and of UpdateOpenAPI in /repo/api/handler.go. *)
From Coq Require Import Bool Ascii String Arith NArith ZArith List.
From Verif Require Import Prelude Utf8Model DecModel DurModel EncModel JsonModel MarModel ApiModel.
Import ListNotations.

(* ---- Go types ---- *)
(* A type is a number, and its description is found in an environment: types can be recursive.  reflect.Type *)
Definition tid := nat.
(* the zero value of a type that is a json.Marshaler or enc.Marshaler, marshalled to JSON: api/openapi/schema.go:85-90 *)
Inductive marshalled := MarErr | MarPanic | MarJson (j : bytes).
(* The cases of api/openapi/schema.go:62-88: json.RawMessage, []byte, time.Time or enc.Time, another type with a MarshalJSON or
   MarshalNode method, none of these. *)
Inductive special := SRaw | SBytes | STime | SMarshaler (m : marshalled) | SNone.
(* a field of a struct: its name, exported or not, its json and doc tags, its example tag without spaces around, its type;
   api/openapi/schema.go:211-221 *)
Record sfld := SFld { sf_name : bytes; sf_exported : bool; sf_json : bytes; sf_doc : bytes; sf_example : bytes; sf_type : tid }.
(* reflect.Kind with what belongs to it; KSeq is an array or a slice, KIface true the type any, KStruct has the package path and the
   name if there are both, KOther the kinds that are not supported.  api/openapi/schema.go:57-60,125-265 *)
Inductive kind :=
| KPtr (e : tid) | KBool | KFloat | KInt | KString | KSeq (e : tid) | KMap (k e : tid) | KIface (any : bool)
| KStruct (name : option (bytes * bytes)) (fs : list sfld) | KOther.
(* t.String(), the special case, the kind *)
Record tinfo := TInfo { t_string : bytes; t_special : special; t_kind : kind }.

(* ---- schemas ---- *)
(* the example of a schema; api/openapi/schema.go:283-352 *)
Inductive example := XBool (b : bool) | XFloat (f : floatv) | XInt (z : Z) | XStr (s : bytes) | XNode (n : node).
(* api/openapi/schema.go:18-34.  Of AllOf only the references are kept: schemaFromType puts nothing else there.  Required, Default,
   Enum and Reference at the top are never set. *)
Inductive schema := Schema { s_type : bytes; s_format : bytes; s_props : list (bytes * schema); s_addl : option schema; s_desc : bytes;
  s_example : option example; s_items : option schema; s_allOf : list bytes }.
(* Components.Schemas; nil and empty are not told apart.  api/openapi/openapi.go:40 *)
Definition comps := list (bytes * schema).
(* api/openapi/schema.go:16 *)
Definition referencePrefix : bytes := B "#/components/schemas/".
(* api/openapi/schema.go:241-242 *)
Definition structKey (pkg name : bytes) : bytes := map (fun c => if (code c =? 47)%N then chr 95 else c) (pkg ++ B "/" ++ name).
(* strings.TrimPrefix(s, referencePrefix); api/openapi/schema.go:276 *)
Fixpoint trimPrefix (p s : bytes) : option bytes :=
  match p, s with
  | [], _ => Some s
  | a :: p', b :: s' => if Ascii.eqb a b then trimPrefix p' s' else None
  | _, _ => None
  end.

(* a schema with type, format and example only *)
Definition leaf (ty format : bytes) (ex : option example) : schema := Schema ty format [] None [] ex None [].

Section Schemas.
  Context (env : tid -> tinfo).
  (* strconv.ParseFloat(s, 64); None is an error.  api/openapi/schema.go:300 *)
  Context (parse_float : bytes -> option floatv).

  (* api/openapi/schema.go:283-294 *)
  Definition asBool (v : bytes) : option example :=
    match v with
    | [] => None
    | _ => Some (if beqb v (B "true") then XBool true else if beqb v (B "false") then XBool false else XStr v)
    end.
  (* api/openapi/schema.go:296-306 *)
  Definition asFloat (v : bytes) : option example :=
    match v with [] => None | _ => Some (match parse_float v with Some f => XFloat f | None => XStr v end) end.
  (* api/openapi/schema.go:308-318 *)
  Definition asInt (v : bytes) : option example :=
    match v with [] => None | _ => Some (match parse_int v with Some z => XInt z | None => XStr v end) end.
  (* api/openapi/schema.go:320-330 *)
  Definition asList (v : bytes) : option example :=
    match v with [] => None | _ => Some (match Decode v with Good (Some (NList l)) => XNode (NList l) | _ => XStr v end) end.
  (* api/openapi/schema.go:332-342 *)
  Definition asMap (v : bytes) : option example :=
    match v with [] => None | _ => Some (match Decode v with Good (Some (NMap l)) => XNode (NMap l) | _ => XStr v end) end.
  (* api/openapi/schema.go:344-352 *)
  Definition asNode (v : bytes) : option example :=
    match v with [] => None | _ => Some (match Decode v with Good (Some n) => XNode n | _ => XStr v end) end.

  (* api/openapi/schema.go:268-281 formatFromSchema.  A component has no AllOf, so there is at most one reference to follow. *)
  Definition formatFromSchema (st : comps) (s : schema) : bytes :=
    match s_format s, s_allOf s with
    | [], r :: _ =>
        match mget beqb st (match trimPrefix referencePrefix r with Some k => k | None => r end) with
        | None => []
        | Some s' => match s_format s' with [] => s_type s' | f => f end
        end
    | [], [] => s_type s
    | f, _ => f
    end.
  (* enc.MustMarshalJSON(c, structSchema) (api/openapi/schema.go:254) panics for an example that is not a number in JSON (NaN, Inf).
     The limit on the nesting of JSON is not modelled. *)
  Definition loggable1 (x : option example) : bool := match x with Some (XFloat f) => is_number (f_json f) | _ => true end.
  (* see above *)
  Fixpoint loggable (s : schema) : bool :=
    loggable1 (s_example s) && forallb (fun p => loggable (snd p)) (s_props s) &&
    match s_addl s with None => true | Some x => loggable x end && match s_items s with None => true | Some x => loggable x end.

  (* what is returned: a schema, an error (with a schema that is not nil), or a panic *)
  Inductive sres := SOk (s : schema) | SErr | SPanic.
  (* api/openapi/schema.go:46-55: the deferred function.  If nil is returned, it panics. *)
  Definition fin (doc ex : bytes) (s : schema) : sres :=
    SOk (Schema (s_type s) (if beqb (s_format s) (s_type s) then [] else s_format s) (s_props s) (s_addl s) doc
           (match ex with [] => None | _ => s_example s end) (s_items s) (s_allOf s)).

  (* api/openapi/schema.go:57-60; None: the loop needs more than n rounds *)
  Fixpoint deref (n : nat) (t : tid) : option tid :=
    match t_kind (env t) with
    | KPtr e => match n with 0 => None | S n' => deref n' e end
    | _ => Some t
    end.
  (* api/openapi/schema.go:216-219 *)
  Definition propName (f : sfld) : bytes := match fst (cut_comma (sf_json f)) with [] => sf_name f | j => j end.
  (* the structSchema while its properties are added; api/openapi/schema.go:200-205,220 *)
  Definition structSchema (format : bytes) (props : list (bytes * schema)) : schema := Schema (B "object") format props None [] None None [].
  (* this.Components.Schemas[structKey] = structSchema; api/openapi/schema.go:204-207.  The map has the pointer: later changes of
     the properties are seen there. *)
  Definition store (st : comps) (key : option bytes) (s : schema) : comps := match key with Some k => mset beqb st k s | None => st end.

  Section Build.
    (* schemaFromType, for the fields *)
    Context (rec : comps -> tid -> bytes -> bytes -> option (sres * comps)).
    (* api/openapi/schema.go:209-222: the fields, given the properties and the descriptions of fields so far; the result has None for an
       error or a panic, both of which end as a panic *)
    Fixpoint fields (key : option bytes) (format : bytes) (st : comps) (props : list (bytes * schema)) (descs : list bytes) (fs : list sfld)
      : option (option (list (bytes * schema) * list bytes) * comps) :=
      match fs with
      | [] => Some (Some (props, descs), st)
      | f :: r =>
          match rec st (sf_type f) (sf_doc f) (sf_example f) with
          | None => None
          | Some (SOk s, st1) =>
              let props1 := mset beqb props (propName f) s in
              fields key format (store st1 key (structSchema format props1)) props1
                (descs ++ [propName f ++ B " " ++ t_string (env (sf_type f))]) r
          | Some (_, st1) => Some (None, st1)
          end
      end.
    (* api/openapi/schema.go:198-261: a struct *)
    Definition ofStruct (st : comps) (t : tid) (name : option (bytes * bytes)) (fs : list sfld) (doc ex : bytes) : option (sres * comps) :=
      match name with
      | None =>
          match fields None [] st [] [] fs with
          | None => None
          | Some (None, st1) => Some (SPanic, st1)
          | Some (Some (props, descs), st1) =>
              Some (fin doc ex (Schema (B "object") (B "{" ++ join (B ", ") descs ++ B "}") props None [] (asMap ex) None []), st1)
          end
      | Some (pkg, n) =>
          let k := structKey pkg n in
          let ok := fin doc ex (Schema [] [] [] None [] (asMap ex) None [referencePrefix ++ k]) in
          match mget beqb st k with
          | Some _ => Some (ok, st)
          | None =>
              let format := t_string (env t) in
              match fields (Some k) format (store st (Some k) (structSchema format [])) [] [] fs with
              | None => None
              | Some (None, st1) => Some (SPanic, st1)
              | Some (Some (props, _), st1) => Some (if loggable (structSchema format props) then ok else SPanic, st1)
              end
          end
      end.
    (* api/openapi/schema.go:125-265: by kind; t is the type, u what is behind its pointers *)
    Definition ofKind (st : comps) (t u : tid) (doc ex : bytes) : option (sres * comps) :=
      let str := t_string (env t) in
      match t_kind (env u) with
      | KBool => Some (fin doc ex (leaf (B "boolean") [] (asBool ex)), st)
      | KFloat => Some (fin doc ex (leaf (B "number") str (asFloat ex)), st)
      | KInt => Some (fin doc ex (leaf (B "number") str (asInt ex)), st)
      | KString => Some (fin doc ex (leaf (B "string") str (Some (XStr ex))), st)
      | KSeq e =>
          match rec st e [] [] with
          | None => None
          | Some (SOk s, st1) => Some (fin doc ex (Schema (B "array") (B "[]" ++ formatFromSchema st1 s) [] None [] (asList ex) (Some s) []), st1)
          | Some (_, st1) => Some (SPanic, st1)
          end
      | KMap k e =>
          match rec st k [] [] with
          | None => None
          | Some (SOk sk, st1) =>
              match rec st1 e [] [] with
              | None => None
              | Some (SOk s, st2) =>
                  Some (fin doc ex (Schema (B "object") (B "map[" ++ formatFromSchema st2 sk ++ B "]" ++ formatFromSchema st2 s) [] (Some s) [] (asMap ex) None []), st2)
              | Some (_, st2) => Some (SPanic, st2)
              end
          | Some (_, st1) => Some (SPanic, st1)
          end
      | KIface any => Some (fin doc ex (leaf (B "object") (match t_kind (env t) with KIface true => [] | _ => str end) (asNode ex)), st)
      | KStruct name fs => ofStruct st t name fs doc ex
      | KPtr _ | KOther => Some (SErr, st)
      end.
  End Build.

  (* api/openapi/schema.go:88-121: what the first byte of the JSON says; None: by kind *)
  Definition byJson (t : tid) (doc ex j : bytes) : option sres :=
    let str := t_string (env t) in
    match j with
    | [] => Some SPanic
    | c :: _ =>
        if existsb (Ascii.eqb c) (B "{n[") then None
        else if existsb (Ascii.eqb c) (B """") then Some (fin doc ex (leaf (B "string") str (Some (XStr ex))))
        else if existsb (Ascii.eqb c) (B "ft") then Some (fin doc ex (leaf (B "boolean") str (asBool ex)))
        else if existsb (Ascii.eqb c) (B "0123456789.") then Some (fin doc ex (leaf (B "number") str (if existsb (Ascii.eqb (chr 46)) ex then asFloat ex else asInt ex)))
        else Some SPanic
    end.
  (* api/openapi/schema.go:46-266 schemaFromType, with at most n calls in each other (and n rounds of the loop for pointers); None: it
     needs more *)
  Fixpoint schemaFromType (n : nat) (st : comps) (t : tid) (doc ex : bytes) : option (sres * comps) :=
    match n with
    | 0 => None
    | S n' =>
        match deref n t with
        | None => None
        | Some u =>
            let k := ofKind (schemaFromType n') st t u doc ex in
            match t_special (env u) with
            | SRaw => Some (fin doc ex (leaf (B "object") [] (Some (XStr ex))), st)
            | SBytes => Some (fin doc ex (leaf (B "string") (B "byte") (Some (XStr ex))), st)
            | STime => Some (fin doc ex (leaf (B "string") (B "date-time") (Some (XStr ex))), st)
            | SMarshaler MarErr | SNone => k
            | SMarshaler MarPanic => Some (SPanic, st)
            | SMarshaler (MarJson j) => match byJson t doc ex j with Some r => Some (r, st) | None => k end
            end
        end
    end.

  (* ---- the documentation of an operation ---- *)
  (* Of a path item: the properties of the request, which are required, the properties of the response, the security (true: jwt,
     false: none).  api/handler.go:152-173, api/openapi/path.go:21-28 *)
  Record pathItem := PathItem { p_in : list (bytes * schema); p_required : list bytes; p_out : list (bytes * schema); p_security : list bool }.
  (* the type and the doc and example tags of a field by index; api/handler.go:133,144 *)
  Context (ftype : nat -> tid * bytes * bytes).
  (* api/handler.go:132-150: properties for fields with name and whether required; the last component has None for a panic, Some None
     for an error *)
  Fixpoint properties (n : nat) (st : comps) (props : list (bytes * schema)) (l : list (nat * bytes)) : option (option (option (list (bytes * schema))) * comps) :=
    match l with
    | [] => Some (Some (Some props), st)
    | (i, name) :: r =>
        let '(t, doc, ex) := ftype i in
        match schemaFromType n st t doc ex with
        | None => None
        | Some (SOk s, st1) => properties n st1 (mset beqb props name s) r
        | Some (SErr, st1) => Some (Some None, st1)
        | Some (SPanic, st1) => Some (None, st1)
        end
    end.
  (* api/handler.go:121-182 UpdateOpenAPI: a path item, Some None for an error, None for a panic *)
  Definition UpdateOpenAPI (n : nat) (st : comps) (h : handler) : option (option (option pathItem) * comps) :=
    match properties n st [] (map fst (h_in h)) with
    | None => None
    | Some (None, st1) => Some (None, st1)
    | Some (Some None, st1) => Some (Some None, st1)
    | Some (Some (Some pin), st1) =>
        match properties n st1 [] (h_out h) with
        | None => None
        | Some (None, st2) => Some (None, st2)
        | Some (Some None, st2) => Some (Some None, st2)
        | Some (Some (Some pout), st2) =>
            Some (Some (Some (PathItem pin (map (fun x => snd (fst x)) (filter snd (h_in h))) pout
              (match h_auth h with None => [] | Some (_, required) => true :: if required then [] else [false] end))), st2)
        end
    end.
End Schemas.
