(* Model of /repo/api/handler.go, tag.go and json.go, over the types and values of MarModel. *)
From Coq Require Import Bool Ascii String Arith NArith ZArith List.
From Verif Require Import Prelude Utf8Model DecModel DurModel EncModel JsonModel MarModel ConfModel.
Import ListNotations.

(* A field of the struct: its name, whether it is exported, its tags enc, json and api ("" if none), its url tag (None: none
   or empty; Some: whether url.Parse accepts it), its type.  api/tag.go:21-23,39,44 *)
Record afld := AFld { a_name : bytes; a_exported : bool; a_enc : bytes; a_json : bytes; a_api : bytes; a_url : option bool; a_type : ty }.
(* api/tag.go:12-19, of the url only whether there is one *)
Record atag := ATag { t_name : bytes; t_auth : bool; t_in : bool; t_out : bool; t_required : bool; t_url : bool }.

(* api/tag.go:21-36 tagName *)
Definition tagName (f : afld) : bytes :=
  let name := match a_enc f with
              | [] => match a_json f with [] => [] | j => fst (cut_comma j) end
              | e => fst (cut_comma e)
              end in
  match name with [] => a_name f | _ => name end.
(* api/tag.go:52-70: the words *)
Fixpoint api_words (t : atag) (l : list bytes) : option atag :=
  match l with
  | [] => Some t
  | w :: r =>
      if beqb w (B "in") then api_words (ATag (t_name t) (t_auth t) true (t_out t) (t_required t) (t_url t)) r
      else if beqb w (B "out") then api_words (ATag (t_name t) (t_auth t) (t_in t) true (t_required t) (t_url t)) r
      else if beqb w (B "both") then api_words (ATag (t_name t) (t_auth t) true true (t_required t) (t_url t)) r
      else if beqb w (B "required") then api_words (ATag (t_name t) (t_auth t) (t_in t) (t_out t) true (t_url t)) r
      else if beqb w (B "auth") then api_words (ATag (t_name t) true (t_in t) (t_out t) (t_required t) (t_url t)) r
      else if beqb w [] then api_words t r
      else None
  end.
(* api/tag.go:38-72 parseTags; None is an error *)
Definition parseTags (f : afld) : option atag :=
  match a_url f with
  | Some false => None
  | u => api_words (ATag (tagName f) false false false false (match u with Some _ => true | None => false end)) (split_at 44 (a_api f))
  end.

(* reflect.Value.IsZero, api/handler.go:81,236 *)
Fixpoint is_zero (t : ty) (v : val) {struct t} : bool :=
  match t, v with
  | TBool, VBool b => negb b
  | TInt _, VNum z | TUint _, VNum z => (z =? 0)%Z
  | TStr, VStr s => match s with [] => true | _ => false end
  | TPtr _, VNil | TSlice _, VNil | TMap _ _, VNil => true
  | TArr _ t', VList l => forallb (is_zero t') l
  | TStruct fs, VStruct vs =>
      (fix all (fs : list (fld * ty)) (vs : list val) : bool :=
         match fs, vs with
         | f :: fs', v :: vs' => is_zero (snd f) v && all fs' vs'
         | _, _ => true
         end) fs vs
  | _, _ => false
  end.

(* api/handler.go:13-21 Handler: the fields with their index; init is a Go map *)
Record handler := Handler {
  h_fields : list afld; h_auth : option (nat * bool); h_init : list (nat * val); h_in : list (nat * bytes * bool); h_out : list (nat * bytes) }.
(* api/handler.go:56-86: the fields from index i on *)
Fixpoint handler_fields (h : handler) (i : nat) (fs : list afld) (vs : list val) : option handler :=
  match fs, vs with
  | f :: fs', v :: vs' =>
      match parseTags f with
      | None => None
      | Some t =>
          match t_auth t, h_auth h with
          | true, Some _ => None
          | _, _ =>
              handler_fields
                (Handler (h_fields h)
                   (if t_auth t then Some (i, t_required t) else h_auth h)
                   (if negb (t_in t) && negb (t_out t) && negb (t_url t) && negb (is_zero (a_type f) v) then h_init h ++ [(i, v)] else h_init h)
                   (if t_in t then h_in h ++ [(i, t_name t, t_required t)] else h_in h)
                   (if t_out t then h_out h ++ [(i, t_name t)] else h_out h))
                (S i) fs' vs'
          end
      end
  | _, _ => Some h
  end.
(* the zero value of the struct; api/handler.go:46,224 *)
Definition fresh (fs : list afld) : list val := map (fun f => zero (a_type f)) fs.
(* api/handler.go:36-89 NewHandler for a pointer to a struct; init = None is a nil pointer.  NewServer and NewClient (lines
   24-33) wrap it.  None is an error.  The pointer, map and slice values in init are not copied; sharing is not modelled. *)
Definition NewHandler (fs : list afld) (init : option (list val)) : option handler :=
  handler_fields (Handler fs None [] [] []) 0 fs (match init with Some vs => vs | None => fresh fs end).

(* an object, an error or a panic *)
Inductive rres := ROk (obj : list val) | RErr | RPanic.
(* the request or response data: api/json.go:13-19 Data (nil and empty are not told apart), UID *)
Definition data := list (bytes * node).

Section Api.
  (* conversions of floats, as in MarModel *)
  Context (f2i f2u : floatv -> Z).

  (* reflect.Value.Field(i) with its type; api/handler.go:212,231,241,253,265 *)
  Definition the_field (h : handler) (obj : list val) (i : nat) : option (afld * val) :=
    match nth_error (h_fields h) i, nth_error obj i with Some f, Some v => Some (f, v) | _, _ => None end.
  (* api/json.go:63-73: Marshal into the data; Interface() panics on a field that is not exported *)
  Definition put (d : data) (name : bytes) (f : afld) (v : val) : res data :=
    if a_exported f then rbind (mar (a_type f) v) (fun n => Ok (mset beqb d name n)) else Panic.
  (* api/json.go:60 and 83: Unmarshal of a node into the field; Interface() panics on a field that is not exported *)
  Definition into (h : handler) (obj : list val) (i : nat) (n : node) : rres :=
    match the_field h obj i with
    | None => RPanic
    | Some (f, v) =>
        if a_exported f then
          match fst (Unmarshal f2i f2u None (a_type f) n v) with
          | UOk w => ROk (upd obj i w)
          | UErr _ => RErr
          | UPanic => RPanic
          end
        else RPanic
    end.
  (* api/handler.go:209-219 Client.Send and 250-260 Server.Send, for a list of fields with their names *)
  Fixpoint send (h : handler) (obj : list val) (d : data) (l : list (nat * bytes)) : res data :=
    match l with
    | [] => Ok d
    | (i, name) :: r =>
        match the_field h obj i with
        | None => Panic
        | Some (f, v) => rbind (put d name f v) (fun d' => send h obj d' r)
        end
    end.
  (* api/handler.go:226-229: Set panics on a field that is not exported *)
  Fixpoint set_init (h : handler) (obj : list val) (l : list (nat * val)) : res (list val) :=
    match l with
    | [] => Ok obj
    | (i, v) :: r =>
        match nth_error (h_fields h) i with
        | Some f => if a_exported f then set_init h (upd obj i v) r else Panic
        | None => Panic
        end
    end.
  (* api/handler.go:230-239 *)
  Fixpoint recv_in (h : handler) (d : data) (obj : list val) (l : list (nat * bytes * bool)) : rres :=
    match l with
    | [] => ROk obj
    | (i, name, required) :: r =>
        match (match mget beqb d name with None => ROk obj | Some n => into h obj i n end) with
        | ROk obj' =>
            match the_field h obj' i with
            | None => RPanic
            | Some (f, v) => if required && is_zero (a_type f) v then RErr else recv_in h d obj' r
            end
        | x => x
        end
    end.
  (* api/handler.go:240-246, api/json.go:53-61 Auth; uid = None is a nil Node *)
  Definition recv_auth (h : handler) (uid : option node) (obj : list val) : rres :=
    match h_auth h with
    | None => ROk obj
    | Some (i, required) =>
        match uid with
        | None | Some NNil => if required then RErr else ROk obj
        | Some n => into h obj i n
        end
    end.
  (* api/handler.go:221-248 Server.Recv.  On an error the object is not returned. *)
  Definition Recv (h : handler) (d : data) (uid : option node) : rres :=
    match set_init h (fresh (h_fields h)) (h_init h) with
    | Panic => RPanic
    | Ok obj => match recv_in h d obj (h_in h) with ROk obj' => recv_auth h uid obj' | x => x end
    end.
  (* api/handler.go:250-260 Server.Send into an empty response *)
  Definition Send (h : handler) (obj : list val) : res data := send h obj [] (h_out h).
  (* api/handler.go:209-219 Client.Send into an empty request *)
  Definition ClientSend (h : handler) (obj : list val) : res data := send h obj [] (map fst (h_in h)).
  (* api/handler.go:262-272 Client.Recv; on an error the fields before are changed, which is not modelled *)
  Fixpoint client_recv (h : handler) (d : data) (obj : list val) (l : list (nat * bytes)) : rres :=
    match l with
    | [] => ROk obj
    | (i, name) :: r =>
        match (match mget beqb d name with None => ROk obj | Some n => into h obj i n end) with
        | ROk obj' => client_recv h d obj' r
        | x => x
        end
    end.
  (* see above *)
  Definition ClientRecv (h : handler) (d : data) (obj : list val) : rres := client_recv h d obj (h_out h).

  (* http/test.go:10-51 TestAPI and api/test.go:10-40 Test, with carry = Some; http/client.go:75-126 with
     http/api.go:31-62, with carry = by_json below: there an error of the server is a status other than 200, which is an error
     for the client (http/client.go:67-72,107).  None: the data does not get across.  do is the Do method; None is an error. *)
  Definition api_call (cli ser : handler) (carry : data -> option data) (uid : option node) (do : list val -> option (list val)) (obj : list val) : rres :=
    match ClientSend cli obj with
    | Panic => RPanic
    | Ok d =>
        match carry d with
        | None => RErr
        | Some d1 =>
            match Recv ser d1 uid with
            | ROk sobj =>
                match do sobj with
                | None => RErr
                | Some sobj' =>
                    match Send ser sobj' with
                    | Panic => RPanic
                    | Ok d2 => match carry d2 with None => RErr | Some d3 => ClientRecv cli d3 obj end
                    end
                end
            | x => x
            end
        end
    end.
End Api.
(* http/client.go:87 json.Marshal and http/api.go:59 Encode, which is json.Marshal (enc/json.go:58); api/json.go:31-51 ReadFrom
   of that text (never empty), in http/api.go:34 and http/client.go:115.  enc/map.go:26-29: a nil Map is written as {}.
   short: which Go version wrote it, as in JsonModel. *)
Definition by_json (short : bool) (d : data) : option data :=
  match Encode short false (NMap d) with
  | Ok j => match Decode j with Good (Some (NMap m)) => Some m | _ => None end
  | Panic => None
  end.
