(* Model of Marshal and Unmarshal of /repo/enc for types with methods of their own, and of the methods of utils/sync.Map. *)
From Coq Require Import Bool Ascii String Arith NArith ZArith List.
From Verif Require Import Prelude Utf8Model DecModel DurModel EncModel JsonModel MarModel.
Import ListNotations.

(* the receiver of a method: T or *T.  The methods of T are those declared for T, the methods of *T all of them. *)
Inductive recv := ByVal | ByPtr.
(* the methods of a declared type: MarshalNode and MarshalJSON with their receivers, whether it has UnmarshalNode and UnmarshalJSON (their
   receivers do not matter, enc/handler.go:74).  enc/enc.go:25-32, encoding/json.  time.Time and ctx.Error are such types with MarshalJSON on
   the value (enc/handler.go:183-189), json.RawMessage and time.Time with UnmarshalJSON (enc/handler.go:80-94). *)
Record decl := Decl { d_node : option recv; d_json : option recv; d_unode : bool; d_ujson : bool }.
(* Go types with declared types: CNamed id u is the type id, declared as u, which is neither a pointer nor an interface.  The others as in
   MarModel, with one kind of integers and one of keys. *)
Inductive cty :=
| CBool | CInt | CStr | CPtr (t : cty) | CSlice (t : cty) | CMap (t : cty) | CStruct (fs : list (fld * cty)) | CNamed (id : nat) (u : cty).
(* reflect.New (enc/handler.go:66, enc/map.go:79), SetZero *)
Fixpoint czero (t : cty) : val :=
  match t with
  | CBool => VBool false
  | CInt => VNum 0
  | CStr => VStr []
  | CPtr _ | CSlice _ | CMap _ => VNil
  | CStruct fs => VStruct (map (fun f => czero (snd f)) fs)
  | CNamed _ u => czero u
  end.
(* what Marshal returns; it panicked *)
Inductive mout (A : Type) := MOk (a : A) | MErr | MPanic.
Arguments MOk {A} a.
Arguments MErr {A}.
Arguments MPanic {A}.
(* after the first error, or panic, there is no more *)
Definition mbind {A C} (r : mout A) (f : A -> mout C) : mout C := match r with MOk a => f a | MErr => MErr | MPanic => MPanic end.

(* enc/handler.go:230-237 *)
Fixpoint cmar_elems (f : val -> mout node) (l : list val) : mout (list node) :=
  match l with
  | [] => MOk []
  | v :: r => mbind (f v) (fun n => mbind (cmar_elems f r) (fun ns => MOk (n :: ns)))
  end.
(* enc/handler.go:244-271, with keys that are strings *)
Fixpoint cmar_entries (f : val -> mout node) (acc : list (bytes * node)) (l : list (key * val)) : mout (list (bytes * node)) :=
  match l with
  | [] => MOk acc
  | (x, v) :: r => mbind (f v) (fun n => cmar_entries f (mset beqb acc (ktext KTStr x) n) r)
  end.
(* enc/handler.go:278-316 *)
Fixpoint cmar_fields (fs : list (fld * (val -> mout node))) (vs : list val) : mout (list (bytes * bytes * node)) :=
  match fs, vs with
  | (f, g) :: fs', v :: vs' =>
      if f_exported f then
        match parseTag f with
        | Panic => MPanic
        | Ok tg =>
            if g_skip tg then cmar_fields fs' vs'
            else mbind (g v) (fun n => mbind (cmar_fields fs' vs') (fun ps => MOk (if g_omit tg && is_empty n then ps else ((f_name f, g_json tg), n) :: ps)))
        end
      else cmar_fields fs' vs'
  | _, _ => MOk []
  end.
(* enc/list.go:49-56 *)
Fixpoint cunm_elems (f : node -> ures) (l : list node) : eres (list val) :=
  match l with
  | [] => EOk []
  | n :: r => match f n with
              | UOk v => match cunm_elems f r with EOk vs => EOk (v :: vs) | x => x end
              | UErr _ => EErr
              | UPanic => EPanic
              end
  end.
(* enc/map.go:55-85 *)
Fixpoint cunm_entries (f : node -> ures) (acc : list (key * val)) (m : list (bytes * node)) : eres (list (key * val)) :=
  match m with
  | [] => EOk acc
  | (s, n) :: r => match f n with
                   | UOk v => cunm_entries f (kset acc (KStr s) v) r
                   | UErr _ => EErr
                   | UPanic => EPanic
                   end
  end.
(* enc/map.go:92-106 *)
Fixpoint cunm_fields (m : list (bytes * node)) (fs : list (fld * (node -> val -> ures))) (vs : list val) : eres unit * list val :=
  match fs, vs with
  | (f, g) :: fs', v :: vs' =>
      let skip (w : val) := let '(e, r) := cunm_fields m fs' vs' in (e, w :: r) in
      if f_exported f then
        match parseTag f with
        | Panic => (EPanic, v :: vs')
        | Ok tg =>
            match mget beqb m (g_json tg) with
            | None => skip v
            | Some n => match g n v with
                        | UOk w => skip w
                        | UErr w => (EErr, w :: vs')
                        | UPanic => (EPanic, v :: vs')
                        end
            end
        end
      else skip v
  | _, _ => (EOk tt, vs)
  end.

Section Cu.
  Context (decls : nat -> decl).
  (* What the methods do.  A method with a pointer receiver may be called with nil, which is None.  The one for MarshalJSON is followed by
     JSON.Decode (enc/handler.go:191-195); the one for UnmarshalJSON gets the JSON of the node (enc/handler.go:84,89,100).  They do not change the
     value they write. *)
  Context (run_node run_json : nat -> option val -> mout node).
  Context (run_unode run_ujson : nat -> node -> val -> ures).
  (* int64(f), uint64(f), as in MarModel *)
  Context (f2i f2u : floatv -> Z).

  (* the method is one of T; enc/handler.go:177-195 *)
  Definition in_set (r : option recv) : bool := match r with Some ByVal => true | _ => false end.
  (* a method of *T called with a pointer: one that is declared for T needs the value, and calling it with nil panics *)
  Definition through (r : recv) (f : option val -> mout node) (v : val) : mout node :=
    match v with
    | VPtr w => f (Some w)
    | VNil => match r with ByVal => MPanic | ByPtr => f None end
    | _ => MPanic
    end.
  (* enc/handler.go:177-198: the switch on the dynamic type *)
  Definition by_method (t : cty) (v : val) : option (mout node) :=
    match t with
    | CNamed id _ =>
        if in_set (d_node (decls id)) then Some (run_node id (Some v))
        else if in_set (d_json (decls id)) then Some (run_json id (Some v)) else None
    | CPtr (CNamed id _) =>
        match d_node (decls id) with
        | Some r => Some (through r (run_node id) v)
        | None => match d_json (decls id) with Some r => Some (through r (run_json id) v) | None => None end
        end
    | _ => None
    end.
  (* enc/handler.go:175-318 Handler.Marshal *)
  Fixpoint cmar (t : cty) (v : val) {struct t} : mout node :=
    match by_method t v with
    | Some r => r
    | None =>
        match t, v with
        | CBool, VBool b => MOk (NBool b)
        | CInt, VNum z => MOk (NInt z)
        | CStr, VStr s => MOk (NStr s)
        | CPtr _, VNil | CSlice _, VNil | CMap _, VNil => MOk NNil
        | CPtr t', VPtr w => cmar t' w
        | CSlice t', VList l => mbind (cmar_elems (cmar t') l) (fun ns => MOk (NList ns))
        | CMap t', VMap l => mbind (cmar_entries (cmar t') [] l) (fun m => MOk (NMap m))
        | CStruct fs, VStruct vs => mbind (cmar_fields (map (fun f => (fst f, cmar (snd f))) fs) vs) (fun ps => MOk (NPairs ps))
        | CNamed _ u, _ => cmar u v
        | _, _ => MPanic
        end
    end.

  (* enc/handler.go:51-160 Handler.unmarshal, without Debugf, Factory and UnhandledFields *)
  Fixpoint cunm (t : cty) (n : node) (old : val) {struct t} : ures :=
    let unmap (m : list (bytes * node)) : ures :=
      match t with
      | CMap t' => match cunm_entries (fun n => cunm t' n (czero t')) [] m with EOk l => UOk (VMap l) | EErr => UErr old | EPanic => UPanic end
      | CStruct fs =>
          match old with
          | VStruct vs => let '(e, vs') := cunm_fields m (map (fun f => (fst f, cunm (snd f))) fs) vs in
                          match e with EOk _ => UOk (VStruct vs') | EErr => UErr (VStruct vs') | EPanic => UPanic end
          | _ => UErr old
          end
      | _ => UErr old
      end in
    match t with
    | CPtr t' =>
        match n with
        | NNil => UOk VNil
        | _ => match cunm t' n (czero t') with UOk v => UOk (VPtr v) | UErr v => UErr (VPtr v) | UPanic => UPanic end
        end
    | CNamed id u =>
        if d_unode (decls id) then run_unode id n old
        else if d_ujson (decls id) then run_ujson id n old
        else cunm u n old
    | CBool => fst (unm f2i f2u None TBool [] n old)
    | CInt => fst (unm f2i f2u None (TInt W64) [] n old)
    | CStr => fst (unm f2i f2u None TStr [] n old)
    | _ =>
        match n with
        | NNil => UOk (czero t)
        | NList l => match t with
                     | CSlice t' => match cunm_elems (fun n => cunm t' n (czero t')) l with EOk vs => UOk (VList vs) | EErr => UErr old | EPanic => UPanic end
                     | _ => UErr old
                     end
        | NMap m => unmap m
        | NPairs ps => unmap (AsMap ps)
        | _ => UErr old
        end
    end.
End Cu.

(* ---- sync.Map[string, int64] ---- *)
(* utils/sync/map.go:10-12: one field that is not exported; its value is the content as a map *)
Definition smap : cty := CStruct [(Fld (B "m") false [], CMap CInt)].
(* see above *)
Definition smap_val (l : list (key * val)) : val := VStruct [match l with [] => VNil | _ => VMap l end].
(* its methods are declared for the pointer (utils/sync/map.go:26,31) *)
Definition smap_decl : decl := Decl (Some ByPtr) None true false.
(* the content: none before the first Store *)
Definition content (v : val) : list (key * val) := match v with VStruct [VMap l] => l | _ => [] end.
(* utils/sync/map.go:17-29 Map, MarshalNode *)
Definition smap_node (v : option val) : mout node :=
  match v with
  | Some v => match mar (TMap KTStr (TInt W64)) (VMap (content v)) with Ok n => MOk n | Panic => MPanic end
  | None => MPanic
  end.
(* utils/sync/map.go:31-41 UnmarshalNode *)
Definition smap_unode (f2i f2u : floatv -> Z) (n : node) (old : val) : ures :=
  match fst (unm f2i f2u None (TMap KTStr (TInt W64)) [PRoot] n VNil) with
  | UOk (VMap l) => UOk (smap_val (fold_left (fun m e => kset m (fst e) (snd e)) l (content old)))
  | UOk _ => UOk old
  | UErr _ => UErr old
  | UPanic => UPanic
  end.
