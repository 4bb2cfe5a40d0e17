(* Model of Marshal and Unmarshal of /repo/enc over a universe of Go types. *)
From Coq Require Import Bool Ascii String Arith NArith ZArith Lia List.
From Verif Require Import Prelude Utf8Model DecModel DurModel EncModel JsonModel.
Import ListNotations.

(* sizes of integers; int and uint have 64 bits.  enc/handler.go:212-215, enc/numeric.go:134-153 *)
Inductive width := W8 | W16 | W32 | W64.
(* see above *)
Definition bits (w : width) : Z := match w with W8 => 8 | W16 => 16 | W32 => 32 | W64 => 64 end.
(* reflect.Value.SetInt, SetUint keep the low bits (enc/numeric.go:143,153, enc/map.go:66,72); conversions between int64 and
   uint64 likewise (enc/numeric.go:33, enc/handler.go:215) *)
Definition swrap (w : width) (z : Z) : Z := ((z + 2 ^ (bits w - 1)) mod 2 ^ bits w - 2 ^ (bits w - 1))%Z.
(* see above *)
Definition uwrap (w : width) (z : Z) : Z := (z mod 2 ^ bits w)%Z.

(* kinds of map keys: enc/map.go:58-77.  Other kinds are not modelled. *)
Inductive kty := KTStr | KTInt (w : width) | KTUint (w : width).
(* a struct field: its name, whether it is exported, its json tag (reflect.StructTag.Get, "" if none); enc/util.go:98-101,
   enc/handler.go:279-280 *)
Record fld := Fld { f_name : bytes; f_exported : bool; f_tag : bytes }.
(* Go types without methods; recursive types, interfaces and floats are not modelled.  enc/handler.go:200-275 *)
Inductive ty :=
| TBool | TInt (w : width) | TUint (w : width) | TStr
| TPtr (t : ty) | TSlice (t : ty) | TArr (n : nat) (t : ty) | TMap (k : kty) (t : ty) | TStruct (fs : list (fld * ty)).

(* a map key; enc/handler.go:250-270 *)
Inductive key := KStr (s : bytes) | KNum (z : Z).
(* Go values: VNil is the nil pointer, slice or map; VList a slice or an array.  A map is listed by increasing keys, which
   makes equal maps equal.  Sharing between pointers is not modelled.  enc/handler.go:200-275 *)
Inductive val :=
| VBool (b : bool) | VNum (z : Z) | VStr (s : bytes) | VNil | VPtr (v : val) | VList (l : list val)
| VMap (l : list (key * val)) | VStruct (l : list val).

(* reflect.Value.SetZero, reflect.New (enc/nil.go:26, enc/handler.go:63,66) *)
Fixpoint zero (t : ty) : val :=
  match t with
  | TBool => VBool false
  | TInt _ | TUint _ => VNum 0
  | TStr => VStr []
  | TPtr _ | TSlice _ | TMap _ _ => VNil
  | TArr n t => VList (repeat (zero t) n)
  | TStruct fs => VStruct (map (fun f => zero (snd f)) fs)
  end.

(* order of keys in the listing of a map (see val); enc/map.go:84 *)
Definition kltb (a b : key) : bool :=
  match a, b with
  | KStr a, KStr b => bltb a b
  | KNum a, KNum b => (a <? b)%Z
  | KStr _, KNum _ => true
  | KNum _, KStr _ => false
  end.
(* reflect.Value.SetMapIndex (enc/map.go:84) *)
Fixpoint kset (m : list (key * val)) (k : key) (v : val) : list (key * val) :=
  match m with
  | [] => [(k, v)]
  | (k', v') :: t => if kltb k k' then (k, v) :: m else if kltb k' k then (k', v') :: kset t k v else (k, v) :: t
  end.

(* enc/util.go:90-95 Tag, without Name *)
Record tag := Tag { g_json : bytes; g_omit : bool; g_skip : bool }.
(* strings.Cut(json, ","); enc/util.go:106 *)
Fixpoint cut_comma (s : bytes) : bytes * bytes :=
  match s with
  | [] => ([], [])
  | c :: t => if N.eqb (code c) 44 then ([], t) else let (a, b) := cut_comma t in (c :: a, b)
  end.
(* enc/util.go:98-119 parseTag *)
Definition parseTag (f : fld) : res tag :=
  if beqb (f_tag f) (B "-") then Ok (Tag [] false true)
  else
    let (j, extra) := cut_comma (f_tag f) in
    let j := match j with [] => f_name f | _ => j end in
    if beqb extra (B "omitempty") then Ok (Tag j true false)
    else match extra with [] => Ok (Tag j false false) | _ => Panic end.

(* the cases of enc/handler.go:292-315 that omitempty drops *)
Definition is_empty (n : node) : bool :=
  match n with
  | NNil => true
  | NStr [] => true
  | NInt z => (z =? 0)%Z
  | NFloat f => beqb (f_str f) (B "0") || beqb (f_str f) (B "-0")
  | NDigits [] => true
  | _ => false
  end.

(* enc/handler.go:250-270: the text of a key; an Integer is printed by its String method *)
Definition ktext (k : kty) (x : key) : bytes :=
  match k, x with
  | KTStr, KStr s => s
  | KTUint _, KNum z => decz (swrap W64 z)
  | _, KNum z => decz z
  | _, KStr s => s
  end.

(* enc/handler.go:230-237 and 244-271: the elements one after the other *)
Fixpoint mar_elems (f : val -> res node) (l : list val) : res (list node) :=
  match l with
  | [] => Ok []
  | v :: r => rbind (f v) (fun n => rbind (mar_elems f r) (fun ns => Ok (n :: ns)))
  end.
(* see above *)
Fixpoint mar_entries (k : kty) (f : val -> res node) (acc : list (bytes * node)) (l : list (key * val))
  : res (list (bytes * node)) :=
  match l with
  | [] => Ok acc
  | (x, v) :: r => rbind (f v) (fun n => mar_entries k f (mset beqb acc (ktext k x) n) r)
  end.
(* enc/handler.go:278-316: the fields, each with the marshalling of its type *)
Fixpoint mar_fields (fs : list (fld * (val -> res node))) (vs : list val) : res (list (bytes * bytes * node)) :=
  match fs, vs with
  | (f, g) :: fs', v :: vs' =>
      if f_exported f then
        rbind (parseTag f) (fun tg =>
        if g_skip tg then mar_fields fs' vs'
        else
          rbind (g v) (fun n => rbind (mar_fields fs' vs') (fun ps =>
          Ok (if g_omit tg && is_empty n then ps else ((f_name f, g_json tg), n) :: ps))))
      else mar_fields fs' vs'
  | _, _ => Ok []
  end.
(* enc/handler.go:175-318 Handler.Marshal on a value of the type.  Nothing in the universe makes it return an error; a bad
   tag makes it panic.  The last case is for values that are not of the type. *)
Fixpoint mar (t : ty) (v : val) {struct t} : res node :=
  match t, v with
  | TBool, VBool b => Ok (NBool b)
  | TInt _, VNum z => Ok (NInt z)
  | TUint _, VNum z => Ok (NInt (swrap W64 z))
  | TStr, VStr s => Ok (NStr s)
  | TPtr _, VNil | TSlice _, VNil | TMap _ _, VNil => Ok NNil
  | TPtr t', VPtr v' => mar t' v'
  | TSlice t', VList l | TArr _ t', VList l => rbind (mar_elems (mar t') l) (fun ns => Ok (NList ns))
  | TMap k t', VMap l => rbind (mar_entries k (mar t') [] l) (fun m => Ok (NMap m))
  | TStruct fs, VStruct vs => rbind (mar_fields (map (fun f => (fst f, mar (snd f))) fs) vs) (fun ps => Ok (NPairs ps))
  | _, _ => Panic
  end.

(* the value of a text of digits (strconv.ParseUint loop); enc/numeric.go:71,76 *)
Definition digits_val (s : bytes) : option N :=
  match s with
  | [] => None
  | _ => if forallb is_digit s then Some (fold_left (fun a c => 10 * a + dval c)%N s 0%N) else None
  end.
(* strconv.ParseUint(s, 10, 64); enc/numeric.go:76, enc/map.go:68 *)
Definition parse_uint (s : bytes) : option Z :=
  match digits_val s with
  | Some n => if (Z.of_N n <? 2 ^ 64)%Z then Some (Z.of_N n) else None
  | None => None
  end.
(* strconv.ParseInt(s, 10, 64); enc/numeric.go:71, enc/map.go:62 *)
Definition parse_int (s : bytes) : option Z :=
  match s with
  | [] => None
  | c :: t =>
      let neg := N.eqb (code c) 45 in
      match digits_val (if neg || N.eqb (code c) 43 then t else s) with
      | Some n =>
          let z := Z.of_N n in
          if neg then if (z <=? 2 ^ 63)%Z then Some (- z)%Z else None
          else if (z <? 2 ^ 63)%Z then Some z else None
      | None => None
      end
  end.
(* enc/numeric.go:79-84 trimDecimal *)
Fixpoint trimDecimal (s : bytes) : bytes :=
  match s with
  | [] => []
  | c :: t => if N.eqb (code c) 46 then [] else c :: trimDecimal t
  end.

(* What is left in the variable after Unmarshal returned nil, returned an error; or it panicked. *)
Inductive ures := UOk (v : val) | UErr (v : val) | UPanic.
(* elements of Handler.path: the type given to Unmarshal, a field, an index, "#val", an unknown key.
   enc/handler.go:48, enc/map.go:100,110,80, enc/list.go:51 *)
Inductive pel := PRoot | PName (s : bytes) | PIdx (i : nat) | PVal | PKey (s : bytes).
(* a call of UnhandledFields: the path and the node; enc/map.go:110 *)
Definition call := (list pel * node)%type.
(* outcome of one piece of the work *)
Inductive eres (A : Type) := EOk (a : A) | EErr | EPanic.
Arguments EOk {A} a.
Arguments EErr {A}.
Arguments EPanic {A}.

(* enc/map.go:57-77: the key of a Go map; None is an error *)
Definition ukey (k : kty) (s : bytes) : option key :=
  match k with
  | KTStr => Some (KStr s)
  | KTInt w => match parse_int s with Some z => Some (KNum (swrap w z)) | None => None end
  | KTUint w => match parse_uint s with Some z => Some (KNum (uwrap w z)) | None => None end
  end.

(* enc/list.go:49-56,66-72: each element into a zero value *)
Fixpoint unm_elems (f : list pel -> node -> ures * list call) (p : list pel) (i : nat) (l : list node)
  : eres (list val) * list call :=
  match l with
  | [] => (EOk [], [])
  | n :: r =>
      match f (p ++ [PIdx i]) n with
      | (UOk v, c) => let (e, c') := unm_elems f p (S i) r in
                      (match e with EOk vs => EOk (v :: vs) | x => x end, c ++ c')
      | (UErr _, c) => (EErr, c)
      | (UPanic, c) => (EPanic, c)
      end
  end.
(* enc/map.go:55-85 *)
Fixpoint unm_entries (k : kty) (f : list pel -> node -> ures * list call) (p : list pel) (acc : list (key * val))
  (m : list (bytes * node)) : eres (list (key * val)) * list call :=
  match m with
  | [] => (EOk acc, [])
  | (s, n) :: r =>
      match ukey k s with
      | None => (EErr, [])
      | Some x =>
          match f (p ++ [PVal]) n with
          | (UOk v, c) => let (e, c') := unm_entries k f p (kset acc x v) r in (e, c ++ c')
          | (UErr _, c) => (EErr, c)
          | (UPanic, c) => (EPanic, c)
          end
      end
  end.
(* enc/map.go:92-106: the fields, each with the unmarshalling of its type; a field that fails is left as that leaves it *)
Fixpoint unm_fields (p : list pel) (m : list (bytes * node))
  (fs : list (fld * (list pel -> node -> val -> ures * list call))) (vs : list val) : eres unit * list val * list call :=
  match fs, vs with
  | (f, g) :: fs', v :: vs' =>
      let skip (w : val) (c : list call) :=
        let '(e, r, c') := unm_fields p m fs' vs' in (e, w :: r, c ++ c') in
      if f_exported f then
        match parseTag f with
        | Panic => (EPanic, v :: vs', [])
        | Ok tg =>
            match mget beqb m (g_json tg) with
            | None => skip v []
            | Some n =>
                match g (p ++ [PName (f_name f)]) n v with
                | (UOk w, c) => skip w c
                | (UErr w, c) => (EErr, w :: vs', c)
                | (UPanic, c) => (EPanic, v :: vs', c)
                end
            end
        end
      else skip v []
  | _, _ => (EOk tt, vs, [])
  end.
(* enc/map.go:90,97: the keys that are seen *)
Fixpoint seen (fs : list fld) : list bytes :=
  match fs with
  | [] => []
  | f :: r => if f_exported f then match parseTag f with Ok tg => g_json tg :: seen r | Panic => seen r end else seen r
  end.
(* enc/map.go:107-116: true if UnhandledFields returned an error *)
Fixpoint unhandled (uf : list pel -> node -> bool) (p : list pel) (names : list bytes) (m : list (bytes * node))
  : bool * list call :=
  match m with
  | [] => (false, [])
  | (k, n) :: r =>
      if existsb (beqb k) names then unhandled uf p names r
      else if uf (p ++ [PKey k]) n then (true, [(p ++ [PKey k], n)])
      else let (e, c) := unhandled uf p names r in (e, (p ++ [PKey k], n) :: c)
  end.

Section Unm.
  (* int64(f), uint64(f) of a float64 (enc/numeric.go:51-52): no property depends on them *)
  Context (f2i f2u : floatv -> Z).
  (* Handler.UnhandledFields (enc/handler.go:18): None for nil, and else whether it returns an error, which may depend on the
     path and the node *)
  Context (uf : option (list pel -> node -> bool)).

  (* enc/numeric.go:125-163 unmarshalNumericInto; z and u are what Int64 and Uint64 give, s what String gives *)
  Definition unm_num (t : ty) (old : val) (s : bytes) (z u : option Z) : ures :=
    match t with
    | TInt w => match z with Some z => UOk (VNum (swrap w z)) | None => UErr old end
    | TUint w => match u with Some u => UOk (VNum (uwrap w u)) | None => UErr old end
    | TStr => UOk (VStr s)
    | _ => UErr old
    end.

  (* enc/handler.go:51-160 Handler.unmarshal, for a variable of type t that holds old; without Debugf and Factory.
     unmarshalInto: enc/nil.go:25-28, enc/scalar.go:26-38,92-103, enc/numeric.go:39-41,58-60,121-163, enc/time.go:58-65,88-95,
     enc/list.go:40-82, enc/map.go:49-128, enc/pairs.go:74-83.  reflect.Value.Set of a Duration panics unless the types are
     identical, though CanConvert is true for integers and strings (enc/time.go:90-91). *)
  Fixpoint unm (t : ty) (p : list pel) (n : node) (old : val) {struct t} : ures * list call :=
    match t with
    | TPtr t' =>
        match n with
        | NNil => (UOk VNil, [])
        | _ => let (u, c) := unm t' p n (zero t') in
               (match u with UOk v => UOk (VPtr v) | UErr v => UErr (VPtr v) | UPanic => UPanic end, c)
        end
    | _ =>
        let unmap (m : list (bytes * node)) :=
          match t with
          | TMap k t' =>
              let (e, c) := unm_entries k (fun p n => unm t' p n (zero t')) p [] m in
              (match e with EOk l => UOk (VMap l) | EErr => UErr old | EPanic => UPanic end, c)
          | TStruct fs =>
              match old with
              | VStruct vs =>
                  let '(e, vs', c) := unm_fields p m (map (fun f => (fst f, unm (snd f))) fs) vs in
                  match e with
                  | EOk _ =>
                      match uf with
                      | None => (UOk (VStruct vs'), c)
                      | Some h => let (bad, c') := unhandled h p (seen (map fst fs)) m in
                                  (if bad then UErr (VStruct vs') else UOk (VStruct vs'), c ++ c')
                      end
                  | EErr => (UErr (VStruct vs'), c)
                  | EPanic => (UPanic, c)
                  end
              | _ => (UErr old, [])
              end
          | _ => (UErr old, [])
          end in
        match n with
        | NNil => (UOk (zero t), [])
        | NBool b => (match t with TBool => UOk (VBool b) | _ => UErr old end, [])
        | NInt z => (unm_num t old (decz z) (Some z) (Some (uwrap W64 z)), [])
        | NFloat f => (unm_num t old (f_str f) (Some (f2i f)) (Some (f2u f)), [])
        | NDigits s => (unm_num t old s (parse_int (trimDecimal s)) (parse_uint (trimDecimal s)), [])
        | NStr s => (match t with TStr => UOk (VStr s) | _ => UErr old end, [])
        | NTime _ => (UErr old, [])
        | NDur _ => (match t with TInt _ | TUint _ | TStr => UPanic | _ => UErr old end, [])
        | NList l =>
            match t with
            | TSlice t' =>
                let (e, c) := unm_elems (fun p n => unm t' p n (zero t')) p 0 l in
                (match e with EOk vs => UOk (VList vs) | EErr => UErr old | EPanic => UPanic end, c)
            | TArr k t' =>
                if length l =? k then
                  let (e, c) := unm_elems (fun p n => unm t' p n (zero t')) p 0 l in
                  (match e with EOk vs => UOk (VList vs) | EErr => UErr old | EPanic => UPanic end, c)
                else (UErr old, [])
            | _ => (UErr old, [])
            end
        | NMap m => unmap m
        | NPairs ps => unmap (AsMap ps)
        end
    end.

  (* enc/handler.go:43-49 Handler.Unmarshal *)
  Definition Unmarshal (t : ty) (n : node) (old : val) : ures * list call := unm t [PRoot] n old.
End Unm.
