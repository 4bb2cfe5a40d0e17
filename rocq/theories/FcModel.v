(* Model of Handler.Unmarshal of /repo/enc/handler.go with Handler.Factory, over types with interfaces. *)
From Coq Require Import Bool Ascii String Arith NArith ZArith List.
From Verif Require Import Prelude Utf8Model DecModel DurModel EncModel JsonModel MarModel.
Import ListNotations.

(* Go types as in MarModel, with interface types (a number each, but not enc.Node, which enc/handler.go:97-103 treats apart) *)
Inductive fty :=
| FBool | FInt (w : width) | FUint (w : width) | FStr | FIface (k : nat)
| FPtr (t : fty) | FSlice (t : fty) | FArr (n : nat) (t : fty) | FMap (k : kty) (t : fty) | FStruct (fs : list (fld * fty)).
(* Go values as in MarModel; XAny: an interface value, nil or with the native value of a node in it (enc/scalar.go:33 and others).
   Other contents of interfaces, which only matter to convertible below, are left out. *)
Inductive fval :=
| XBool (b : bool) | XNum (z : Z) | XStr (s : bytes) | XNil | XPtr (v : fval) | XList (l : list fval)
| XMap (l : list (key * fval)) | XStruct (l : list fval) | XAny (o : option node).
(* enc/nil.go:26, enc/handler.go:63,66 *)
Fixpoint fzero (t : fty) : fval :=
  match t with
  | FBool => XBool false
  | FInt _ | FUint _ => XNum 0
  | FStr => XStr []
  | FIface _ => XAny None
  | FPtr _ | FSlice _ | FMap _ _ => XNil
  | FArr n t => XList (repeat (fzero t) n)
  | FStruct fs => XStruct (map (fun f => fzero (snd f)) fs)
  end.
(* reflect.Value.SetMapIndex (enc/map.go:84) *)
Fixpoint fset (m : list (key * fval)) (k : key) (v : fval) : list (key * fval) :=
  match m with
  | [] => [(k, v)]
  | (k', v') :: t => if kltb k k' then (k, v) :: m else if kltb k' k then (k', v') :: fset t k v else (k, v) :: t
  end.
(* what is left in the variable after Unmarshal returned nil, an error; or it panicked *)
Inductive fres := FOk (v : fval) | FErr (v : fval) | FPanic.

(* reflect.Value.Elem of a value that is not a pointer; None: the zero Value, of a nil interface; under enc/handler.go:129 *)
Definition value_elem (t : fty) (v : fval) : res (option node) :=
  match t, v with FIface _, XAny o => Ok o | _, _ => Panic end.
(* reflect.Type.Elem; under enc/handler.go:131,134 *)
Definition type_elem (t : fty) : res fty :=
  match t with FPtr t' | FSlice t' | FArr _ t' | FMap _ t' => Ok t' | _ => Panic end.
(* enc/list.go:49-56,66-72 *)
Fixpoint f_elems (f : node -> fres) (l : list node) : eres (list fval) :=
  match l with
  | [] => EOk []
  | n :: r =>
      match f n with
      | FOk v => match f_elems f r with EOk vs => EOk (v :: vs) | x => x end
      | FErr _ => EErr
      | FPanic => EPanic
      end
  end.
(* enc/map.go:55-85 *)
Fixpoint f_entries (k : kty) (f : node -> fres) (acc : list (key * fval)) (m : list (bytes * node)) : eres (list (key * fval)) :=
  match m with
  | [] => EOk acc
  | (s, n) :: r =>
      match ukey k s with
      | None => EErr
      | Some x => match f n with FOk v => f_entries k f (fset acc x v) r | FErr _ => EErr | FPanic => EPanic end
      end
  end.
(* enc/map.go:92-106 *)
Fixpoint f_fields (m : list (bytes * node)) (fs : list (fld * (node -> fval -> fres))) (vs : list fval) : eres unit * list fval :=
  match fs, vs with
  | (f, g) :: fs', v :: vs' =>
      let skip (w : fval) := let (e, r) := f_fields m fs' vs' in (e, w :: r) in
      if f_exported f then
        match parseTag f with
        | Panic => (EPanic, v :: vs')
        | Ok tg =>
            match mget beqb m (g_json tg) with
            | None => skip v
            | Some n => match g n v with FOk w => skip w | FErr w => (EErr, w :: vs') | FPanic => (EPanic, v :: vs') end
            end
        end
      else skip v
  | _, _ => (EOk tt, vs)
  end.

Section Unm.
  (* conversions of floats, as in MarModel *)
  Context (f2i f2u : floatv -> Z).
  (* does the native value of a node implement this interface (all do if it has no methods); reflect.Value.Set panics else,
     under enc/scalar.go:33,97 enc/list.go:43 enc/map.go:122 enc/numeric.go:155; enc/time.go:60,90 look first *)
  Context (implements : nat -> node -> bool).
  (* can a value that a factory made be converted to the type of the native value of a node; enc/handler.go:129 *)
  Context (convertible : fval -> node -> bool).
  (* Handler.Factory (enc/handler.go:15), for each type; what it makes of a node, None: an error *)
  Context (fac : fty -> option (node -> option fval)).

  (* enc/handler.go:128-138, for a variable of type t that holds old, with x from the factory.  The last line is never reached. *)
  Definition use (t : fty) (old x : fval) : fres :=
    match value_elem t old with
    | Panic | Ok None => FPanic
    | Ok (Some w) =>
        match type_elem t with
        | Panic => FPanic
        | Ok _ => if convertible x w then FOk x else FErr old
        end
    end.
  (* enc/numeric.go:125-163 *)
  Definition f_num (t : fty) (old : fval) (s : bytes) (z u : option Z) : fres :=
    match t with
    | FInt w => match z with Some z => FOk (XNum (swrap w z)) | None => FErr old end
    | FUint w => match u with Some u => FOk (XNum (uwrap w u)) | None => FErr old end
    | FStr => FOk (XStr s)
    | _ => FErr old
    end.
  (* enc/handler.go:51-160 with Factory, as unm of MarModel, without Debugf and UnhandledFields *)
  Fixpoint unmf (t : fty) (n : node) (old : fval) {struct t} : fres :=
    match t with
    | FPtr t' =>
        match n with
        | NNil => FOk XNil
        | _ => match unmf t' n (fzero t') with FOk v => FOk (XPtr v) | FErr v => FErr (XPtr v) | FPanic => FPanic end
        end
    | _ =>
        match fac t with
        | Some f => match f n with None => FErr old | Some x => use t old x end
        | None =>
            let unmap (m : list (bytes * node)) :=
              match t with
              | FMap k t' =>
                  match f_entries k (fun n => unmf t' n (fzero t')) [] m with EOk l => FOk (XMap l) | EErr => FErr old | EPanic => FPanic end
              | FStruct fs =>
                  match old with
                  | XStruct vs =>
                      let (e, vs') := f_fields m (map (fun f => (fst f, unmf (snd f))) fs) vs in
                      match e with EOk _ => FOk (XStruct vs') | EErr => FErr (XStruct vs') | EPanic => FPanic end
                  | _ => FErr old
                  end
              | _ => FErr old
              end in
            match t, n with
            | _, NNil => FOk (fzero t)
            | FIface k, NTime _ | FIface k, NDur _ => if implements k n then FOk (XAny (Some n)) else FErr old
            | FIface k, _ => if implements k n then FOk (XAny (Some n)) else FPanic
            | FBool, NBool b => FOk (XBool b)
            | _, NInt z => f_num t old (decz z) (Some z) (Some (uwrap W64 z))
            | _, NFloat f => f_num t old (f_str f) (Some (f2i f)) (Some (f2u f))
            | _, NDigits s => f_num t old s (parse_int (trimDecimal s)) (parse_uint (trimDecimal s))
            | FStr, NStr s => FOk (XStr s)
            | FInt _, NDur _ | FUint _, NDur _ | FStr, NDur _ => FPanic
            | FSlice t', NList l =>
                match f_elems (fun n => unmf t' n (fzero t')) l with EOk vs => FOk (XList vs) | EErr => FErr old | EPanic => FPanic end
            | FArr k t', NList l =>
                if length l =? k then match f_elems (fun n => unmf t' n (fzero t')) l with EOk vs => FOk (XList vs) | EErr => FErr old | EPanic => FPanic end
                else FErr old
            | _, NMap m => unmap m
            | _, NPairs ps => unmap (AsMap ps)
            | _, _ => FErr old
            end
        end
    end.
End Unm.
