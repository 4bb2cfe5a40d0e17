(* Model of Handler.Marshal of /repo/enc/handler.go over the types of OaModel: recursive types, floats, times, interfaces and types
   that marshal themselves. *)
From Coq Require Import Bool Ascii String Arith NArith ZArith List.
From Verif Require Import Prelude Utf8Model DecModel DurModel EncModel JsonModel MarModel OaModel.
Import ListNotations.

(* Go values.  GNil is the nil pointer, slice, map or interface; GDyn the content of an interface with its type; GTime a time.Time,
   GEncTime an enc.Time.  A map is the list of its entries in the order of MapKeys, which can be any.  enc/handler.go:200-275 *)
Inductive gv :=
| GBool (b : bool) | GInt (z : Z) | GUint (z : Z) | GFloat (f : floatv) | GStr (s : bytes) | GTime (x : timev) | GEncTime (x : timev)
| GNil | GPtr (v : gv) | GList (l : list gv) | GMap (l : list (gv * gv)) | GStruct (l : list gv) | GDyn (t : tid) (v : gv).

(* the text of a key; enc/handler.go:250-270 *)
Definition key_text (n : node) : option bytes :=
  match n with NStr s => Some s | NInt z => Some (decz z) | NFloat f => Some (f_str f) | NDigits s => Some s | _ => None end.

Section Parts.
  (* Marshal of a value of a type; None: an error or a panic *)
  Context (g : gv -> tid -> option node).
  (* enc/handler.go:230-238 *)
  Fixpoint e_elems (t : tid) (l : list gv) : option (list node) :=
    match l with
    | [] => Some []
    | v :: r => match g v t with None => None | Some n => match e_elems t r with None => None | Some ns => Some (n :: ns) end end
    end.
  (* enc/handler.go:243-271 *)
  Fixpoint e_entries (k e : tid) (acc : list (bytes * node)) (l : list (gv * gv)) : option (list (bytes * node)) :=
    match l with
    | [] => Some acc
    | (x, v) :: r =>
        match g v e with
        | None => None
        | Some n =>
            match g x k with
            | None => None
            | Some nk => match key_text nk with None => None | Some s => e_entries k e (mset beqb acc s n) r end
            end
        end
    end.
  (* enc/handler.go:276-316 *)
  Fixpoint e_fields (fs : list sfld) (vs : list gv) {struct vs} : option (list (bytes * bytes * node)) :=
    match vs, fs with
    | v :: vs', f :: fs' =>
        if sf_exported f then
          match parseTag (Fld (sf_name f) (sf_exported f) (sf_json f)) with
          | Panic => None
          | Ok tg =>
              if g_skip tg then e_fields fs' vs'
              else
                match g v (sf_type f) with
                | None => None
                | Some n =>
                    match e_fields fs' vs' with
                    | None => None
                    | Some ps => Some (if g_omit tg && is_empty n then ps else ((sf_name f, g_json tg), n) :: ps)
                    end
                end
          end
        else e_fields fs' vs'
    | _, _ => Some []
    end.
End Parts.

Section Mar.
  Context (env : tid -> tinfo).
  (* what MarshalNode or MarshalJSON of the type make of the value; enc/handler.go:180-199 *)
  Context (own : tid -> gv -> option node).
  (* enc/handler.go:175-318 Handler.Marshal.  A time.Time becomes a Time; an enc.Time, and a time behind a pointer, have MarshalJSON (enc/handler.go:184-197).
     A nil pointer to a type with methods panics in its method. *)
  Fixpoint marE (v : gv) (t : tid) {struct v} : option node :=
    match t_special (env t) with
    | STime => match v with GTime x => Some (NTime x) | GEncTime x => Some (NStr (t_rfc x)) | _ => None end
    | SRaw | SMarshaler _ => own t v
    | SBytes | SNone =>
        match t_kind (env t), v with
        | KBool, GBool b => Some (NBool b)
        | KFloat, GFloat f => Some (NFloat f)
        | KInt, GInt z => Some (NInt z)
        | KInt, GUint z => Some (NInt (swrap W64 z))
        | KString, GStr s => Some (NStr s)
        | KPtr e, GNil => match t_special (env e) with SNone | SBytes => Some NNil | _ => None end
        | KPtr e, GPtr v' => match t_special (env e), v' with STime, GTime x => Some (NStr (t_rfc x)) | _, _ => marE v' e end
        | KSeq _, GNil | KMap _ _, GNil | KIface _, GNil => Some NNil
        | KSeq e, GList l => match e_elems marE e l with Some ns => Some (NList ns) | None => None end
        | KMap k e, GMap l => match e_entries marE k e [] l with Some m => Some (NMap m) | None => None end
        | KStruct _ fs, GStruct vs => match e_fields marE fs vs with Some ps => Some (NPairs ps) | None => None end
        | KIface _, GDyn t' v' => marE v' t'
        | _, _ => None
        end
    end.
End Mar.
(* api/handler.go:209-219 Client.Send and 250-260 Server.Send, for a list of fields with their names; the field i has the type ftype i *)
Fixpoint sendE (env : tid -> tinfo) (own : tid -> gv -> option node) (ftype : nat -> tid) (obj : list gv) (d : list (bytes * node)) (l : list (nat * bytes)) : option (list (bytes * node)) :=
  match l with
  | [] => Some d
  | (i, name) :: r =>
      match nth_error obj i with
      | None => None
      | Some v => match marE env own v (ftype i) with None => None | Some n => sendE env own ftype obj (mset beqb d name n) r end
      end
  end.
