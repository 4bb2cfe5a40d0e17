(* Model of /repo/utils/caches/lru.go and of Go's container/heap, which it uses. *)
From Coq Require Import Bool Arith ZArith Lia List.
From Verif Require Import Prelude.
Import ListNotations.

(* utils/caches/cache.go:12-19 HitMiss *)
Inductive hitmiss := HIT | MISS | ERR | NO.

Section LRU.
  Context {K V E : Type} (eqb : K -> K -> bool).

  (* utils/caches/lru.go:116-121 lruEntry.  Times are integers, time.Time{} is 0. *)
  Record entry := Entry { key : K; val : V; last : Z; size : Z }.

  (* utils/caches/lru.go:111-114 lruHeap.  The index is never iterated: a function. *)
  Record heap := Heap { hlist : list entry; hindex : K -> option nat }.

  (* this.index[k] = i, a Go map assignment as used in utils/caches/lru.go:135,136,148 *)
  Definition iset (ix : K -> option nat) (k : K) (i : nat) : K -> option nat :=
    fun k' => if eqb k' k then Some i else ix k'.
  (* delete(this.index, k), as used in utils/caches/lru.go:57,142 *)
  Definition idel (ix : K -> option nat) (k : K) : K -> option nat :=
    fun k' => if eqb k' k then None else ix k'.

  (* utils/caches/lru.go:123-125 Len *)
  Definition Len (h : heap) : nat := length (hlist h).

  (* utils/caches/lru.go:127-129 Less; time.Time.Before is < on the clock *)
  Definition Less (h : heap) (i j : nat) : res bool :=
    match nth_error (hlist h) i, nth_error (hlist h) j with
    | Some a, Some b => Ok (last a <? last b)%Z
    | _, _ => Panic
    end.

  (* utils/caches/lru.go:131-137 Swap *)
  Definition Swap (h : heap) (i j : nat) : res heap :=
    rbind (swap (hlist h) i j) (fun l =>
      match nth_error l i, nth_error l j with
      | Some a, Some b => Ok (Heap l (iset (iset (hindex h) (key a) i) (key b) j))
      | _, _ => Panic
      end).

  (* utils/caches/lru.go:139-144 Pop (the method used by container/heap) *)
  Definition hPop (h : heap) : res (entry * heap) :=
    match nth_error (hlist h) (length (hlist h) - 1) with
    | None => Panic
    | Some e => Ok (e, Heap (firstn (length (hlist h) - 1) (hlist h)) (idel (hindex h) (key e)))
    end.

  (* utils/caches/lru.go:146-150 Push (the method used by container/heap) *)
  Definition hPush (h : heap) (e : entry) : heap :=
    Heap (hlist h ++ [e]) (iset (hindex h) (key e) (length (hlist h))).

  (* container/heap up(h, j), Go standard library heap.go; called through
     utils/caches/lru.go:54,69,89.  Fuel j+1 is enough; running out is a Panic, excluded by C08. *)
  Fixpoint up (fuel : nat) (h : heap) (j : nat) : res heap :=
    match fuel with
    | 0 => Panic
    | S fuel' =>
        let i := (j - 1) / 2 in
        if i =? j then Ok h
        else rbind (Less h j i) (fun lt =>
          if negb lt then Ok h
          else rbind (Swap h i j) (fun h' => up fuel' h' i))
    end.

  (* container/heap down(h, i0, n), the loop; returns the final i.  Called through
     utils/caches/lru.go:54,56,69,93.  Fuel n+1 is enough; running out is a Panic. *)
  Fixpoint down_loop (fuel : nat) (h : heap) (i n : nat) : res (heap * nat) :=
    match fuel with
    | 0 => Panic
    | S fuel' =>
        let j1 := 2 * i + 1 in
        if n <=? j1 then Ok (h, i)
        else
          let j2 := j1 + 1 in
          rbind (if j2 <? n then Less h j2 j1 else Ok false) (fun second =>
          let j := if second then j2 else j1 in
          rbind (Less h j i) (fun lt =>
            if negb lt then Ok (h, i)
            else rbind (Swap h i j) (fun h' => down_loop fuel' h' j n)))
    end.

  (* container/heap down, `return i > i0`; reached from utils/caches/lru.go:54,56,69,93 *)
  Definition down (h : heap) (i0 n : nat) : res (heap * bool) :=
    rbind (down_loop (S n) h i0 n) (fun '(h', i) => Ok (h', i0 <? i)).

  (* container/heap Push(h, x), called at utils/caches/lru.go:89 *)
  Definition Push (h : heap) (e : entry) : res heap :=
    let h' := hPush h e in up (Len h') h' (Len h' - 1).

  (* container/heap Pop(h), called at utils/caches/lru.go:56,93.  For an empty heap Go's Swap(0,-1)
     panics, as Swap 0 0 does here. *)
  Definition Pop (h : heap) : res (entry * heap) :=
    let n := Len h - 1 in
    rbind (Swap h 0 n) (fun h1 =>
    rbind (down h1 0 n) (fun '(h2, _) => hPop h2)).

  (* container/heap Fix(h, i), called at utils/caches/lru.go:54,69 *)
  Definition Fix (h : heap) (i : nat) : res heap :=
    rbind (down h i (Len h)) (fun '(h1, moved) =>
      if moved then Ok h1 else up (S i) h1 i).

  (* utils/caches/lru.go:12-20 LRU.  The mutex is held for the whole of every method, so that a
     method is one atomic step. *)
  Record lru := LRU { lheap : heap; MaxSize : Z; curSize : Z }.

  (* utils/caches/lru.go:22-32 NewLRU *)
  Definition NewLRU (maxSize : Z) : lru := LRU (Heap [] (fun _ => None)) maxSize 0.

  (* utils/caches/lru.go:34-43 Keys *)
  Definition Keys (c : lru) : list K := map key (hlist (lheap c)).

  (* utils/caches/lru.go:45-59 Invalidate *)
  Definition Invalidate (c : lru) (k : K) : res lru :=
    match hindex (lheap c) k with
    | None => Ok c
    | Some i =>
        match nth_error (hlist (lheap c)) i with
        | None => Panic
        | Some e =>
            let h0 := Heap (upd (hlist (lheap c)) i (Entry (key e) (val e) 0 (size e))) (hindex (lheap c)) in
            rbind (Fix h0 i) (fun h1 =>
            rbind (Pop h1) (fun '(e', h2) =>
            Ok (LRU (Heap (hlist h2) (idel (hindex h2) (key e'))) (MaxSize c) (curSize c - size e'))))
        end
    end.

  (* utils/caches/lru.go:92-96, the eviction loop.  Fuel is the number of entries plus one. *)
  Fixpoint evict (fuel : nat) (c : lru) : res lru :=
    match fuel with
    | 0 => Panic
    | S fuel' =>
        if (MaxSize c <? curSize c)%Z then
          rbind (Pop (lheap c)) (fun '(e, h) =>
            evict fuel' (LRU h (MaxSize c) (curSize c - size e)))
        else Ok c
    end.

  (* The outcome of OnMiss (utils/caches/lru.go:19): a value and a size, or a value and an error *)
  Record loaded := Loaded { lval : V; lsize : Z; lerr : option E }.

  (* What Get returns, with the list of keys for which OnMiss ran.; utils/caches/lru.go:61 *)
  Record get_result := GetResult { rval : V; rhit : hitmiss; rerr : option E; rloads : list K }.

  (* utils/caches/lru.go:61-98 Get.  `now` is the clock reading, `ld` what OnMiss returns if it is
     called.  On a hit the code updates a copy of the entry (line 67-68), so that the
     list is unchanged before Fix. *)
  Definition Get (c : lru) (k : K) (now : Z) (ld : loaded) : res (get_result * lru) :=
    match hindex (lheap c) k with
    | Some i =>
        match nth_error (hlist (lheap c)) i with
        | None => Panic
        | Some e =>
            rbind (Fix (lheap c) i) (fun h =>
            Ok (GetResult (val e) HIT None [], LRU h (MaxSize c) (curSize c)))
        end
    | None =>
        match lerr ld with
        | Some err => Ok (GetResult (lval ld) ERR (Some err) [k], c)
        | None =>
            if (lsize ld =? 0)%Z then Ok (GetResult (lval ld) NO None [k], c)
            else
              rbind (Push (lheap c) (Entry k (lval ld) now (lsize ld))) (fun h =>
              rbind (evict (S (Len h)) (LRU h (MaxSize c) (curSize c + lsize ld))) (fun c' =>
              Ok (GetResult (lval ld) MISS None [k], c')))
        end
    end.

  (* Calls on the cache: utils/caches/lru.go:61 Get, utils/caches/lru.go:45 Invalidate *)
  Inductive op := OGet (k : K) (now : Z) (ld : loaded) | OInvalidate (k : K).

  (* one call, with its result; Invalidate (utils/caches/lru.go:45) returns nothing *)
  Definition step (c : lru) (o : op) : res (option get_result * lru) :=
    match o with
    | OGet k now ld => rbind (Get c k now ld) (fun '(r, c') => Ok (Some r, c'))
    | OInvalidate k => rbind (Invalidate c k) (fun c' => Ok (None, c'))
    end.

  (* a history of calls (utils/caches/lru.go:45-98) from a state *)
  Fixpoint run (c : lru) (ops : list op) : res (list (option get_result) * lru) :=
    match ops with
    | [] => Ok ([], c)
    | o :: rest =>
        rbind (step c o) (fun '(r, c1) =>
        rbind (run c1 rest) (fun '(rs, c2) => Ok (r :: rs, c2)))
    end.
End LRU.
Arguments entry : clear implicits.
Arguments heap : clear implicits.
Arguments lru : clear implicits.
Arguments op : clear implicits.
Arguments loaded : clear implicits.
Arguments get_result : clear implicits.
