(* Model of Sort and SortFunc of /repo/utils/lists/sort.go, with sort.Slice of Go 1.20 (sort/slice.go, sort/zsortfunc.go: pdqsort). *)
From Coq Require Import Bool Arith List.
Import ListNotations.

Section Sort.
  Context {A : Type}.
  (* the parameter less, as a function of the two elements; utils/lists/sort.go:7 *)
  Context (lt : A -> A -> bool).
  (* the numbers of sort.xorshift, by the length of the part and the round of the loop: nothing depends on them; under
     utils/lists/sort.go:8 *)
  Context (rnd : nat -> nat -> nat).

  (* What works on the slice: None is an index out of range, or a loop of the model that ran out of its count. *)
  Definition M (X : Type) := list A -> option (X * list A).
  (* as above; utils/lists/sort.go:8 *)
  Definition ret {X} (x : X) : M X := fun l => Some (x, l).
  (* as above; utils/lists/sort.go:8 *)
  Definition bind {X Y} (m : M X) (f : X -> M Y) : M Y := fun l => match m l with Some (x, l') => f x l' | None => None end.
  Notation "x <- m ; f" := (bind m (fun x => f)) (at level 61, m at next level, right associativity).
  Notation "m ;; f" := (bind m (fun _ => f)) (at level 61, right associativity).
  (* the closure of utils/lists/sort.go:8-10: less of the elements that are at these indexes now *)
  Definition Less (i j : nat) : M bool := fun l => match nth_error l i, nth_error l j with Some x, Some y => Some (lt x y, l) | _, _ => None end.
  (* the slice with another element at an index; under utils/lists/sort.go:8 *)
  Fixpoint put (l : list A) (i : nat) (x : A) : list A :=
    match l, i with [], _ => [] | _ :: r, 0 => x :: r | y :: r, S i' => y :: put r i' x end.
  (* reflect.Swapper; under utils/lists/sort.go:8 *)
  Definition Swap (i j : nat) : M unit := fun l =>
    match nth_error l i, nth_error l j with Some x, Some y => Some (tt, put (put l i y) j x) | _, _ => None end.

  (* insertionSort_func, the inner loop, and the loop to the left of partialInsertionSort_func (with a = 0); under
     utils/lists/sort.go:8 *)
  Fixpoint ins (a j : nat) : M unit :=
    match j with
    | 0 => ret tt
    | S j' => if a <? j then b <- Less j j'; if b then Swap j j' ;; ins a j' else ret tt else ret tt
    end.
  (* for i := k; i < k+n; i++; under utils/lists/sort.go:8 *)
  Fixpoint for_up (n k : nat) (f : nat -> M unit) : M unit := match n with 0 => ret tt | S n' => f k ;; for_up n' (S k) f end.
  (* for i := n-1; i >= 0; i--; under utils/lists/sort.go:8 *)
  Fixpoint for_down (n : nat) (f : nat -> M unit) : M unit := match n with 0 => ret tt | S n' => f n' ;; for_down n' f end.
  (* insertionSort_func; under utils/lists/sort.go:8 *)
  Definition insertionSort (a b : nat) : M unit := for_up (b - (a + 1)) (a + 1) (ins a).

  (* siftDown_func; under utils/lists/sort.go:8 *)
  Fixpoint sift (fuel root hi first : nat) : M unit :=
    match fuel with
    | 0 => fun _ => None
    | S fuel' =>
        let child := 2 * root + 1 in
        if hi <=? child then ret tt
        else
          g <- (if child + 1 <? hi then Less (first + child) (first + child + 1) else ret false);
          let child := if g : bool then child + 1 else child in
          b <- Less (first + root) (first + child);
          if b : bool then Swap (first + root) (first + child) ;; sift fuel' child hi first else ret tt
    end.
  (* heapSort_func; under utils/lists/sort.go:8 *)
  Definition heapSort (a b : nat) : M unit :=
    let hi := b - a in
    for_down ((hi - 1) / 2 + 1) (fun i => sift (S hi) i hi a) ;;
    for_down hi (fun i => Swap a (a + i) ;; sift (S hi) 0 i a).

  (* the loops over i and over j of partition_func and partitionEqual_func, while the test holds; under utils/lists/sort.go:8 *)
  Fixpoint up (fuel i j : nat) (test : nat -> M bool) : M nat :=
    match fuel with
    | 0 => fun _ => None
    | S fuel' => if i <=? j then b <- test i; if b : bool then up fuel' (i + 1) j test else ret i else ret i
    end.
  (* as above; utils/lists/sort.go:8 *)
  Fixpoint down (fuel i j : nat) (test : nat -> M bool) : M nat :=
    match fuel with
    | 0 => fun _ => None
    | S fuel' => if i <=? j then b <- test j; if b : bool then down fuel' i (j - 1) test else ret j else ret j
    end.
  (* not; under utils/lists/sort.go:8 *)
  Definition Not (m : M bool) : M bool := b <- m; ret (negb b).
  (* the outer loop of these two; under utils/lists/sort.go:8 *)
  Fixpoint part_loop (fuel i j : nat) (ti tj : nat -> M bool) : M (nat * nat) :=
    match fuel with
    | 0 => fun _ => None
    | S fuel' =>
        i <- up (S (S j)) i j ti;
        j <- down (S (S j)) i j tj;
        if j <? i then ret (i, j) else Swap i j ;; part_loop fuel' (i + 1) (j - 1) ti tj
    end.
  (* partition_func: the first round, which tells whether all was in place, and the others; under utils/lists/sort.go:8 *)
  Definition partition (a b pivot : nat) : M (nat * bool) :=
    Swap a pivot ;;
    let ti := fun i => Less i a in
    let tj := fun j => Not (Less j a) in
    i <- up (S (S (b - 1))) (a + 1) (b - 1) ti;
    j <- down (S (S (b - 1))) i (b - 1) tj;
    if j <? i then Swap j a ;; ret (j, true)
    else
      Swap i j ;;
      ij <- part_loop (S (S b)) (i + 1) (j - 1) ti tj;
      Swap (snd ij) a ;; ret (snd ij, false).
  (* partitionEqual_func; under utils/lists/sort.go:8 *)
  Definition partitionEqual (a b pivot : nat) : M nat :=
    Swap a pivot ;;
    ij <- part_loop (S (S b)) (a + 1) (b - 1) (fun i => Not (Less a i)) (fun j => Less a j);
    ret (fst ij).

  (* partialInsertionSort_func: the loop to the right; under utils/lists/sort.go:8 *)
  Fixpoint shift_right (fuel j b : nat) : M unit :=
    match fuel with
    | 0 => fun _ => None
    | S fuel' => if j <? b then c <- Less j (j - 1); if c : bool then Swap j (j - 1) ;; shift_right fuel' (j + 1) b else ret tt else ret tt
    end.
  (* partialInsertionSort_func, the rounds of the outer loop; under utils/lists/sort.go:8 *)
  Fixpoint partial_rounds (n i a b : nat) : M bool :=
    match n with
    | 0 => ret false
    | S n' =>
        i <- up (S b) i (b - 1) (fun i => Not (Less i (i - 1)));
        if i =? b then ret true
        else if b - a <? 50 then ret false
        else
          Swap i (i - 1) ;;
          (if 2 <=? i - a then ins 0 (i - 1) else ret tt) ;;
          (if 2 <=? b - i then shift_right (S b) (i + 1) b else ret tt) ;;
          partial_rounds n' i a b
    end.
  (* partialInsertionSort_func; under utils/lists/sort.go:8 *)
  Definition partialInsertionSort (a b : nat) : M bool := partial_rounds 5 (a + 1) a b.

  (* breakPatterns_func; under utils/lists/sort.go:8 *)
  Definition breakPatterns (a b : nat) : M unit :=
    let length := b - a in
    if 8 <=? length then
      let idx := a + length / 4 * 2 - 1 in
      for_up 3 0 (fun i =>
        let o := rnd length i mod 2 ^ S (Nat.log2 length) in
        let other := if length <=? o then o - length else o in
        Swap (idx - 1 + i) (a + other))
    else ret tt.
  (* reverseRange_func; under utils/lists/sort.go:8 *)
  Fixpoint reverse_loop (fuel i j : nat) : M unit :=
    match fuel with 0 => fun _ => None | S fuel' => if i <? j then Swap i j ;; reverse_loop fuel' (i + 1) (j - 1) else ret tt end.
  (* as above; utils/lists/sort.go:8 *)
  Definition reverseRange (a b : nat) : M unit := reverse_loop (S b) a (b - 1).
  (* order2_func, with the count of the swaps; under utils/lists/sort.go:8 *)
  Definition order2 (a b swaps : nat) : M (nat * nat * nat) := c <- Less b a; ret (if c : bool then (b, a, swaps + 1) else (a, b, swaps)).
  (* median_func; under utils/lists/sort.go:8 *)
  Definition median (a b c swaps : nat) : M (nat * nat) :=
    r <- order2 a b swaps; let '(a, b, swaps) := r in
    r <- order2 b c swaps; let '(b, c, swaps) := r in
    r <- order2 a b swaps; let '(a, b, swaps) := r in
    ret (b, swaps).
  (* sortedHint; under utils/lists/sort.go:8 *)
  Inductive hint := Unknown | Increasing | Decreasing.
  (* choosePivot_func; under utils/lists/sort.go:8 *)
  Definition choosePivot (a b : nat) : M (nat * hint) :=
    let l := b - a in
    let i := a + l / 4 * 1 in
    let j := a + l / 4 * 2 in
    let k := a + l / 4 * 3 in
    r <- (if 8 <=? l then
            r <- (if 50 <=? l then
                    r <- median (i - 1) i (i + 1) 0; let '(i, swaps) := r in
                    r <- median (j - 1) j (j + 1) swaps; let '(j, swaps) := r in
                    r <- median (k - 1) k (k + 1) swaps; let '(k, swaps) := r in
                    ret (i, j, k, swaps)
                  else ret (i, j, k, 0));
            let '(i, j, k, swaps) := r in median i j k swaps
          else ret (j, 0));
    ret (fst r, if snd r =? 0 then Increasing else if snd r =? 12 then Decreasing else Unknown).

  (* pdqsort_func: each round of its loop and each of its calls is for a shorter part; under utils/lists/sort.go:8 *)
  Fixpoint pdqsort (fuel a b limit : nat) (wasBalanced wasPartitioned : bool) : M unit :=
    match fuel with
    | 0 => fun _ => None
    | S fuel' =>
        let length := b - a in
        if length <=? 12 then insertionSort a b
        else if limit =? 0 then heapSort a b
        else
          (if wasBalanced then ret tt else breakPatterns a b) ;;
          let limit := if wasBalanced then limit else limit - 1 in
          r <- choosePivot a b;
          let '(pivot, h) := r in
          r <- (match h with Decreasing => reverseRange a b ;; ret ((b - 1) - (pivot - a), Increasing) | _ => ret (pivot, h) end);
          let '(pivot, h) := r in
          done <- (match h with Increasing => if wasBalanced && wasPartitioned then partialInsertionSort a b else ret false | _ => ret false end);
          if done : bool then ret tt
          else
            eq <- (if 0 <? a then Not (Less (a - 1) pivot) else ret false);
            if eq : bool then
              mid <- partitionEqual a b pivot;
              pdqsort fuel' mid b limit wasBalanced wasPartitioned
            else
              r <- partition a b pivot;
              let '(mid, already) := r in
              if mid - a <? b - mid then
                pdqsort fuel' a mid limit true true ;;
                pdqsort fuel' (mid + 1) b limit (length / 8 <=? mid - a) already
              else
                pdqsort fuel' (mid + 1) b limit true true ;;
                pdqsort fuel' a mid limit (length / 8 <=? b - mid) already
    end.
  (* bits.Len; under utils/lists/sort.go:8 *)
  Definition bits_len (n : nat) : nat := match n with 0 => 0 | _ => S (Nat.log2 n) end.
  (* utils/lists/sort.go:7-11 Sort; None: a panic *)
  Definition Sort (l : list A) : option (list A) :=
    match pdqsort (S (length l)) 0 (length l) (bits_len (length l)) true true l with Some (_, l') => Some l' | None => None end.
End Sort.
(* utils/lists/sort.go:17-23 SortFunc, for scores that are compared by slt (Go's <) *)
Definition SortFunc {A S : Type} (slt : S -> S -> bool) (rnd : nat -> nat -> nat) (score : A -> S) (l : list A) : option (list A) :=
  Sort (fun x y => slt (score x) (score y)) rnd l.
