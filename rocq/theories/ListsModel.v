(* Model of /repo/utils/lists (group.go, lists.go, reverse.go, set.go). *)
From Coq Require Import Bool Arith ZArith Lia List.
From Verif Require Import Prelude.
Import ListNotations.

Section Lists.
  Context {T : Type}.

  (* utils/lists/reverse.go:5-9, the loop `for i < len(a)/2`; n is the number of iterations
     left (len(a)/2 - i).  Out of range indices panic, as in Go. *)
  Fixpoint reverse_loop (n i j : nat) (a : list T) : res (list T) :=
    match n with
    | 0 => Ok a
    | S n' => rbind (swap a i j) (fun a' => reverse_loop n' (i + 1) (j - 1) a')
    end.

  (* utils/lists/reverse.go:3-10 Reverse.  The result is the content of the slice after the
     call.  j starts at len(a)-1; for the empty slice Go has -1, never used. *)
  Definition Reverse (a : list T) : res (list T) :=
    reverse_loop (length a / 2) 0 (length a - 1) a.

  (* utils/lists/group.go:15-22, the loop of Split; n iterations left, i the loop variable. *)
  Fixpoint split_loop (input : list T) (chunkSize n i : nat) : res (list (list T)) :=
    match n with
    | 0 => Ok []
    | S n' =>
        let start := i * chunkSize in
        let stop0 := start + chunkSize in
        let stop := if length input <? stop0 then length input else stop0 in
        rbind (slice input start stop) (fun c =>
        rbind (split_loop input chunkSize n' (i + 1)) (fun rest => Ok (c :: rest)))
    end.

  (* utils/lists/group.go:3-25 Split.  Pieces are values: the sharing of memory between the
     pieces and the input is not modelled. *)
  Definition Split (input : list T) (maxSplitSize : Z) : res (list (list T)) :=
    if (maxSplitSize <=? 0)%Z then Panic
    else if (Z.of_nat (length input) <=? maxSplitSize)%Z then Ok [input]
    else
      let m := Z.to_nat maxSplitSize in
      let buckets := (length input + m - 1) / m in
      let chunkSize := (length input + buckets - 1) / buckets in
      split_loop input chunkSize buckets 0.

  (* utils/lists/group.go:27-33 Flatten *)
  Definition Flatten (groups : list (list T)) : list T :=
    fold_left (fun out group => out ++ group) groups [].

  Context (eqb : T -> T -> bool).

  (* utils/lists/lists.go:3-10 Contains *)
  Fixpoint Contains (a : list T) (i : T) : bool :=
    match a with
    | [] => false
    | e :: rest => if eqb e i then true else Contains rest i
    end.

  (* utils/lists/lists.go:12-17 AddUnique *)
  Definition AddUnique (a : list T) (i : T) : list T :=
    if Contains a i then a else a ++ [i].

  (* utils/lists/lists.go:19-23 Copy: a fresh slice of the same length filled by copy().
     copy writes min(len(out), len(a)) elements; out starts as len(a) zero values. *)
  Definition Copy (zero : T) (a : list T) : list T :=
    let out := repeat zero (length a) in
    let n := Nat.min (length out) (length a) in
    firstn n a ++ skipn n out.

  (* utils/lists/set.go:5-7 Set wraps a sync.Map whose keys are the elements and whose values
     are always true.  sync.Map is modelled as an association list with atomic
     operations. *)
  Definition set_state := list (T * bool).

  (* utils/lists/set.go:9-12 Add: LoadOrStore(t, true) returns the existing value or stores. *)
  Definition set_Add (s : set_state) (t : T) : bool * set_state :=
    match mget eqb s t with
    | Some _ => (negb true, s)
    | None => (negb false, mset eqb s t true)
    end.

  (* utils/lists/set.go:14-17 Has *)
  Definition set_Has (s : set_state) (t : T) : bool * set_state :=
    match mget eqb s t with Some _ => (true, s) | None => (false, s) end.

  (* utils/lists/set.go:19-21 Remove: CompareAndDelete(t, true) deletes when the stored value
     equals true. *)
  Definition set_Remove (s : set_state) (t : T) : bool * set_state :=
    match mget eqb s t with
    | Some v => if Bool.eqb v true then (true, mdel eqb s t) else (false, s)
    | None => (false, s)
    end.

  (* utils/lists/set.go:23-29 All, when sync.Map.Range visits the entries in the order given
     by the list `order` (some permutation of the entries). *)
  Definition set_All (order : set_state) : list T :=
    fold_left (fun l kv => l ++ [fst kv]) order [].

  (* Calls on a Set, one constructor per method of set.go.; utils/lists/set.go:9-21 *)
  Inductive set_op := SAdd (t : T) | SHas (t : T) | SRemove (t : T).

  (* dispatch of one call, utils/lists/set.go:9-21 *)
  Definition set_step (s : set_state) (o : set_op) : bool * set_state :=
    match o with
    | SAdd t => set_Add s t
    | SHas t => set_Has s t
    | SRemove t => set_Remove s t
    end.

  (* a history of calls (utils/lists/set.go:9-21), each atomic; collects the results. *)
  Fixpoint set_run (s : set_state) (ops : list set_op) : list bool * set_state :=
    match ops with
    | [] => ([], s)
    | o :: rest =>
        let '(b, s1) := set_step s o in
        let '(bs, s2) := set_run s1 rest in (b :: bs, s2)
    end.
End Lists.
