(* Model of the typed map of /repo/utils/sync/map.go. *)
From Coq Require Import Bool Arith List.
From Verif Require Import Prelude.
Import ListNotations.

Section SMap.
  Context {K V : Type} (eqb : K -> K -> bool).
  (* nilk k, nilv v: the value is the nil of an interface type, so that it becomes the nil `any` when stored.  For key and
     value types that are not interfaces both are always false. *)
  Context (nilk : K -> bool) (nilv : V -> bool) (zero : V).

  (* The sync.Map of utils/sync/map.go:11: keys and values of type any.  One operation at a time; each is atomic. *)
  Definition smap := list (K * V).

  (* x.(V), x.(K) where x is the `any` made of a typed value: panics on the nil any.  utils/sync/map.go:49,67,76,85,94,102,118 *)
  Definition assertV (v : V) : res V := if nilv v then Panic else Ok v.
  (* see above; utils/sync/map.go:94,102 *)
  Definition assertK (k : K) : res K := if nilk k then Panic else Ok k.

  (* what Load of sync.Map gave: None when absent, and else the value; `val == nil` tests for both absence and nil.
     utils/sync/map.go:43-50 Get *)
  Definition sGet (m : smap) (k : K) : res V :=
    match mget eqb m k with
    | None => Ok zero
    | Some v => if nilv v then Ok zero else assertV v
    end.

  (* utils/sync/map.go:61-68 Load *)
  Definition sLoad (m : smap) (k : K) : res (V * bool) :=
    match mget eqb m k with
    | None => Ok (zero, false)
    | Some v => if nilv v then Ok (zero, true) else rbind (assertV v) (fun v => Ok (v, true))
    end.

  (* utils/sync/map.go:52-59 IsEmpty *)
  Definition sIsEmpty (m : smap) : bool := match m with [] => true | _ => false end.

  (* utils/sync/map.go:79-86 LoadOrStore *)
  Definition sLoadOrStore (m : smap) (k : K) (v : V) : smap * res (V * bool) :=
    let '(m', out, loaded) := match mget eqb m k with Some w => (m, w, true) | None => (mset eqb m k v, v, false) end in
    (m', if nilv out then Ok (zero, loaded) else rbind (assertV out) (fun w => Ok (w, loaded))).

  (* utils/sync/map.go:70-77 GetOrStore *)
  Definition sGetOrStore (m : smap) (k : K) (v : V) : smap * res V :=
    let '(m', out) := match mget eqb m k with Some w => (m, w) | None => (mset eqb m k v, v) end in
    (m', if nilv out then Ok zero else assertV out).

  (* utils/sync/map.go:88-90 Store *)
  Definition sStore (m : smap) (k : K) (v : V) : smap := mset eqb m k v.
  (* utils/sync/map.go:108-110 Delete *)
  Definition sDelete (m : smap) (k : K) : smap := mdel eqb m k.

  (* utils/sync/map.go:112-119 LoadAndDelete *)
  Definition sLoadAndDelete (m : smap) (k : K) : smap * res (V * bool) :=
    (mdel eqb m k,
     match mget eqb m k with
     | None => Ok (zero, false)
     | Some v => if nilv v then Ok (zero, true) else rbind (assertV v) (fun v => Ok (v, true))
     end).

  (* utils/sync/map.go:92-96 Range and sync.Map.Range: entries in the given order until the callback says false.  The
     callback has a state. *)
  Fixpoint sRange {S} (order : smap) (f : S -> K -> V -> S * bool) (s : S) : res S :=
    match order with
    | [] => Ok s
    | (k, v) :: t =>
        rbind (assertK k) (fun k => rbind (assertV v) (fun v =>
        let (s', go) := f s k v in if go then sRange t f s' else Ok s'))
    end.

  (* utils/sync/map.go:99-106 RangeErr *)
  Fixpoint range_err {S E} (order : smap) (f : S -> K -> V -> S * option E) (s : S) (err : option E) : res (S * option E) :=
    match order with
    | [] => Ok (s, err)
    | (k, v) :: t =>
        rbind (assertK k) (fun k => rbind (assertV v) (fun v =>
        let (s', e) := f s k v in match e with None => range_err t f s' None | Some _ => Ok (s', e) end))
    end.
  (* utils/sync/map.go:99-106 RangeErr *)
  Definition sRangeErr {S E} (order : smap) (f : S -> K -> V -> S * option E) (s : S) : res (S * option E) :=
    range_err order f s None.

  (* utils/sync/map.go:17-24 Map *)
  Definition sMap (order : smap) : res (list (K * V)) :=
    rbind (sRangeErr (E := unit) order (fun m k v => (mset eqb m k v, None)) []) (fun r => Ok (fst r)).

  (* a history of operations (utils/sync/map.go:43-119) and what each returns *)
  Inductive op := OStore (k : K) (v : V) | ODelete (k : K) | OLoad (k : K) | OGet (k : K) | OIsEmpty
                | OLoadOrStore (k : K) (v : V) | OGetOrStore (k : K) (v : V) | OLoadAndDelete (k : K).
  (* see above *)
  Inductive answer := ANone | AV (v : V) | AVB (v : V) (b : bool) | AB (b : bool).
  (* one operation; utils/sync/map.go:43-119 *)
  Definition sop (m : smap) (o : op) : smap * res answer :=
    match o with
    | OStore k v => (sStore m k v, Ok ANone)
    | ODelete k => (sDelete m k, Ok ANone)
    | OLoad k => (m, rbind (sLoad m k) (fun p => Ok (AVB (fst p) (snd p))))
    | OGet k => (m, rbind (sGet m k) (fun v => Ok (AV v)))
    | OIsEmpty => (m, Ok (AB (sIsEmpty m)))
    | OLoadOrStore k v => let (m', r) := sLoadOrStore m k v in (m', rbind r (fun p => Ok (AVB (fst p) (snd p))))
    | OGetOrStore k v => let (m', r) := sGetOrStore m k v in (m', rbind r (fun v => Ok (AV v)))
    | OLoadAndDelete k => let (m', r) := sLoadAndDelete m k in (m', rbind r (fun p => Ok (AVB (fst p) (snd p))))
    end.
  (* the map after a history and the answers, oldest first; utils/sync/map.go:43-119 *)
  Fixpoint srun (m : smap) (os : list op) : smap * list (res answer) :=
    match os with
    | [] => (m, [])
    | o :: t => let (m1, a) := sop m o in let (m2, l) := srun m1 t in (m2, a :: l)
    end.
End SMap.
