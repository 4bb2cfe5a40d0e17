(* Model of the paths that Handler.Unmarshal of /repo/enc gives to UnhandledFields, as the slices that they are: Append and append write
   into the array of the slice if it has room. *)
From Coq Require Import Bool Ascii String Arith NArith ZArith List.
From Verif Require Import Prelude Utf8Model DecModel DurModel EncModel JsonModel MarModel.
Import ListNotations.

(* the arrays behind the slices; the length of an array is the capacity of slices of it, which all begin at its begin.  enc/handler.go:23 *)
Definition heap := list (list pel).
(* a slice of type path (enc/enc.go:35): its array and its length; Handler.path, enc/handler.go:23 *)
Record slice := Sl { arr : nat; len : nat }.
(* its elements; enc/handler.go:23 *)
Definition read (h : heap) (s : slice) : list pel := firstn (len s) (nth (arr s) h []).
(* its capacity; enc/handler.go:26 *)
Definition capa (h : heap) (s : slice) : nat := length (nth (arr s) h []).
(* assignment to an element *)
Fixpoint put {A} (l : list A) (i : nat) (x : A) : list A :=
  match l, i with [], _ => [] | _ :: r, 0 => x :: r | y :: r, S i => y :: put r i x end.
(* a call of UnhandledFields: the slice that it gets, the elements that it sees, the node; enc/map.go:110 *)
Record mcall := MC { m_path : slice; m_seen : list pel; m_node : node }.

Section Unm.
  (* the capacity of the new array for a slice of this length that is full: append, enc/handler.go:26, enc/map.go:110.  (Elements that are
     not set yet are written PRoot.) *)
  Context (grow : nat -> nat).
  (* append(path, x); enc/handler.go:25-28, enc/map.go:110 *)
  Definition append (h : heap) (s : slice) (x : pel) : heap * slice :=
    if len s <? capa h s then (put h (arr s) (put (nth (arr s) h []) (len s) x), Sl (arr s) (S (len s)))
    else (h ++ [read h s ++ x :: repeat PRoot (grow (len s) - S (len s))], Sl (length h) (S (len s))).
  (* as unm_elems of MarModel; enc/list.go:49-56,66-72 *)
  Fixpoint munm_elems (f : slice -> node -> heap -> ures * list mcall * heap) (p : slice) (i : nat) (l : list node) (h : heap)
    : eres (list val) * list mcall * heap :=
    match l with
    | [] => (EOk [], [], h)
    | n :: r =>
        let (h1, q) := append h p (PIdx i) in
        match f q n h1 with
        | (UOk v, c, h2) => let '(e, c', h3) := munm_elems f p (S i) r h2 in
                            (match e with EOk vs => EOk (v :: vs) | x => x end, c ++ c', h3)
        | (UErr _, c, h2) => (EErr, c, h2)
        | (UPanic, c, h2) => (EPanic, c, h2)
        end
    end.
  (* as unm_entries; enc/map.go:55-85 *)
  Fixpoint munm_entries (k : kty) (f : slice -> node -> heap -> ures * list mcall * heap) (p : slice) (acc : list (key * val))
    (m : list (bytes * node)) (h : heap) : eres (list (key * val)) * list mcall * heap :=
    match m with
    | [] => (EOk acc, [], h)
    | (s, n) :: r =>
        match ukey k s with
        | None => (EErr, [], h)
        | Some x =>
            let (h1, q) := append h p PVal in
            match f q n h1 with
            | (UOk v, c, h2) => let '(e, c', h3) := munm_entries k f p (kset acc x v) r h2 in (e, c ++ c', h3)
            | (UErr _, c, h2) => (EErr, c, h2)
            | (UPanic, c, h2) => (EPanic, c, h2)
            end
        end
    end.
  (* as unm_fields; enc/map.go:92-106 *)
  Fixpoint munm_fields (p : slice) (m : list (bytes * node))
    (fs : list (fld * (slice -> node -> val -> heap -> ures * list mcall * heap))) (vs : list val) (h : heap) : eres unit * list val * list mcall * heap :=
    match fs, vs with
    | (f, g) :: fs', v :: vs' =>
        let skip (w : val) (c : list mcall) (h : heap) :=
          let '(e, r, c', h') := munm_fields p m fs' vs' h in (e, w :: r, c ++ c', h') in
        if f_exported f then
          match parseTag f with
          | Panic => (EPanic, v :: vs', [], h)
          | Ok tg =>
              match mget beqb m (g_json tg) with
              | None => skip v [] h
              | Some n =>
                  let (h1, q) := append h p (PName (f_name f)) in
                  match g q n v h1 with
                  | (UOk w, c, h2) => skip w c h2
                  | (UErr w, c, h2) => (EErr, w :: vs', c, h2)
                  | (UPanic, c, h2) => (EPanic, v :: vs', c, h2)
                  end
              end
          end
        else skip v [] h
    | _, _ => (EOk tt, vs, [], h)
    end.
  (* as unhandled; enc/map.go:107-116.  UnhandledFields only reads the path. *)
  Fixpoint munhandled (uf : list pel -> node -> bool) (p : slice) (names : list bytes) (m : list (bytes * node)) (h : heap)
    : bool * list mcall * heap :=
    match m with
    | [] => (false, [], h)
    | (k, n) :: r =>
        if existsb (beqb k) names then munhandled uf p names r h
        else
          let (h1, q) := append h p (PKey k) in
          let c := MC q (read h1 q) n in
          if uf (read h1 q) n then (true, [c], h1)
          else let '(e, cs, h2) := munhandled uf p names r h1 in (e, c :: cs, h2)
    end.
  Context (f2i f2u : floatv -> Z).
  Context (uf : option (list pel -> node -> bool)).
  (* as unm; enc/handler.go:51-160, and what it calls *)
  Fixpoint munm (t : ty) (p : slice) (n : node) (old : val) (h : heap) {struct t} : ures * list mcall * heap :=
    match t with
    | TPtr t' =>
        match n with
        | NNil => (UOk VNil, [], h)
        | _ => let '(u, c, h') := munm t' p n (zero t') h in
               (match u with UOk v => UOk (VPtr v) | UErr v => UErr (VPtr v) | UPanic => UPanic end, c, h')
        end
    | _ =>
        let unmap (m : list (bytes * node)) :=
          match t with
          | TMap k t' =>
              let '(e, c, h') := munm_entries k (fun p n h => munm t' p n (zero t') h) p [] m h in
              (match e with EOk l => UOk (VMap l) | EErr => UErr old | EPanic => UPanic end, c, h')
          | TStruct fs =>
              match old with
              | VStruct vs =>
                  let '(e, vs', c, h') := munm_fields p m (map (fun f => (fst f, munm (snd f))) fs) vs h in
                  match e with
                  | EOk _ =>
                      match uf with
                      | None => (UOk (VStruct vs'), c, h')
                      | Some f => let '(bad, c', h'') := munhandled f p (seen (map fst fs)) m h' in
                                  (if bad then UErr (VStruct vs') else UOk (VStruct vs'), c ++ c', h'')
                      end
                  | EErr => (UErr (VStruct vs'), c, h')
                  | EPanic => (UPanic, c, h')
                  end
              | _ => (UErr old, [], h)
              end
          | _ => (UErr old, [], h)
          end in
        match n with
        | NNil => (UOk (zero t), [], h)
        | NBool b => (match t with TBool => UOk (VBool b) | _ => UErr old end, [], h)
        | NInt z => (unm_num t old (decz z) (Some z) (Some (uwrap W64 z)), [], h)
        | NFloat f => (unm_num t old (f_str f) (Some (f2i f)) (Some (f2u f)), [], h)
        | NDigits s => (unm_num t old s (parse_int (trimDecimal s)) (parse_uint (trimDecimal s)), [], h)
        | NStr s => (match t with TStr => UOk (VStr s) | _ => UErr old end, [], h)
        | NTime _ => (UErr old, [], h)
        | NDur _ => (match t with TInt _ | TUint _ | TStr => UPanic | _ => UErr old end, [], h)
        | NList l =>
            match t with
            | TSlice t' =>
                let '(e, c, h') := munm_elems (fun p n h => munm t' p n (zero t') h) p 0 l h in
                (match e with EOk vs => UOk (VList vs) | EErr => UErr old | EPanic => UPanic end, c, h')
            | TArr k t' =>
                if length l =? k then
                  let '(e, c, h') := munm_elems (fun p n h => munm t' p n (zero t') h) p 0 l h in
                  (match e with EOk vs => UOk (VList vs) | EErr => UErr old | EPanic => UPanic end, c, h')
                else (UErr old, [], h)
            | _ => (UErr old, [], h)
            end
        | NMap m => unmap m
        | NPairs ps => unmap (AsMap ps)
        end
    end.
  (* Handler.Unmarshal of a handler that has no path yet: this.Append(v.Type()); enc/handler.go:43-49 *)
  Definition mUnmarshal (t : ty) (n : node) (old : val) : ures * list mcall * heap :=
    let (h, p) := append [[]] (Sl 0 0) PRoot in munm t p n old h.
End Unm.
(* runtime.growslice for elements of 16 bytes: twice as much (up to 256 elements; paths are as long as the type is deep, or less).
   enc/handler.go:26, enc/map.go:110 *)
Definition double (n : nat) : nat := 2 * n.
