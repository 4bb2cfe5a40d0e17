(* Specification vocabulary for the LRU cache: a bounded queue of loaded entries. *)
From Coq Require Import Bool Arith ZArith List.
From Verif Require Import LruModel.
Import ListNotations.

Section Spec.
  Context {K V E : Type} (dec : forall x y : K, {x = y} + {x <> y}).

  (* A resident entry: key, value, size.  A cache content lists the entries from the
     oldest load to the newest. *)
  Definition content := list (K * V * Z).

  Definition total (s : content) : Z := fold_right Z.add 0%Z (map snd s).

  Fixpoint lookup (s : content) (k : K) : option V :=
    match s with
    | [] => None
    | (k', v, _) :: t => if dec k k' then Some v else lookup t k
    end.

  (* forget the oldest loads until the rest fits *)
  Fixpoint shrink (max : Z) (s : content) : content :=
    match s with
    | [] => []
    | _ :: t => if (max <? total s)%Z then shrink max t else s
    end.

  Definition spec_get (max : Z) (s : content) (k : K) (ld : loaded V E)
    : get_result K V E * content :=
    match lookup s k with
    | Some v => (GetResult v HIT None [], s)
    | None =>
        match lerr ld with
        | Some e => (GetResult (lval ld) ERR (Some e) [k], s)
        | None =>
            if Z.eq_dec (lsize ld) 0 then (GetResult (lval ld) NO None [k], s)
            else (GetResult (lval ld) MISS None [k], shrink max (s ++ [(k, lval ld, lsize ld)]))
        end
    end.

  Definition spec_invalidate (s : content) (k : K) : content :=
    filter (fun e => if dec k (fst (fst e)) then false else true) s.

  Definition spec_step (max : Z) (s : content) (o : op K V E)
    : option (get_result K V E) * content :=
    match o with
    | OGet k _ ld => let '(r, s') := spec_get max s k ld in (Some r, s')
    | OInvalidate k => (None, spec_invalidate s k)
    end.

  Fixpoint spec_run (max : Z) (s : content) (ops : list (op K V E))
    : list (option (get_result K V E)) * content :=
    match ops with
    | [] => ([], s)
    | o :: rest =>
        let '(r, s1) := spec_step max s o in
        let '(rs, s2) := spec_run max s1 rest in (r :: rs, s2)
    end.

  (* the clock readings of the calls are positive and strictly increase *)
  Fixpoint clock_increases (from : Z) (ops : list (op K V E)) : Prop :=
    match ops with
    | [] => True
    | OGet _ now _ :: rest => (from < now)%Z /\ clock_increases now rest
    | OInvalidate _ :: rest => clock_increases from rest
    end.

  (* an admissible call: a positive clock reading, otherwise arbitrary (repeated or going
     backwards included), and a loader that does not report a negative size *)
  Definition call_ok (o : op K V E) : Prop :=
    match o with OGet _ now ld => (0 < now)%Z /\ (0 <= lsize ld)%Z | OInvalidate _ => True end.

  (* What a least-recently-used cache would do on a hit: the entry becomes the newest.
     Used only to state what the code does not do. *)
  Definition lru_get (max : Z) (s : content) (k : K) (ld : loaded V E)
    : get_result K V E * content :=
    let '(r, s') := spec_get max s k ld in
    match rhit r with
    | HIT => (r, spec_invalidate s k ++ filter (fun e => if dec k (fst (fst e)) then true else false) s)
    | _ => (r, s')
    end.

  Fixpoint lru_run (max : Z) (s : content) (ops : list (op K V E))
    : list (option (get_result K V E)) * content :=
    match ops with
    | [] => ([], s)
    | o :: rest =>
        let '(r, s1) := match o with
                        | OGet k _ ld => let '(r, s') := lru_get max s k ld in (Some r, s')
                        | OInvalidate k => (None, spec_invalidate s k)
                        end in
        let '(rs, s2) := lru_run max s1 rest in (r :: rs, s2)
    end.

  (* the entries held by a cache, in no particular order *)
  Definition residents (c : lru K V) : content :=
    map (fun e => (key e, val e, size e)) (hlist (lheap c)).

  (* the value of the most recent load of k that was kept (Get returning MISS) in a
     history of calls with their results, newest first *)
  Fixpoint last_load (k : K) (newest_first : list (op K V E * option (get_result K V E))) : option V :=
    match newest_first with
    | [] => None
    | (OGet k' _ _, Some r) :: older =>
        match rhit r with
        | MISS => if dec k k' then Some (rval r) else last_load k older
        | _ => last_load k older
        end
    | _ :: older => last_load k older
    end.
End Spec.
