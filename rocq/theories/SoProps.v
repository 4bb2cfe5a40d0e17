(* Property C138: /repo/utils/lists/sort.go, over sort.Slice of Go's library. *)
From Coq Require Import Bool Arith ZArith Lia List Permutation.
From Verif Require Import SoModel SoSpec SoProofs.
Import ListNotations.

(* Sort returns and only rearranges the slice, whatever less and the random numbers are *)
Theorem C138_rearranges : forall (A : Type) (lt : A -> A -> bool) (rnd : nat -> nat -> nat) l, exists l', Sort lt rnd l = Some l' /\ Permutation l l'.
Proof.
  intros A lt rnd [|d r]. { exists []. split; [reflexivity|constructor]. } set (l := d :: r).
  assert (H := pdq_ok lt rnd d (S (length l)) 0 (length l) (bits_len (length l)) true true l ltac:(lia) ltac:(lia) ltac:(lia)).
  unfold wp in H. unfold Sort. destruct (pdqsort _ _ _ _ _ _ _ _ l) as [[u l']|]; [|contradiction]. exists l'. split; auto. exact (proj1 H).
Qed.
(* and if less is a strict weak order, no element is less than one before it afterwards *)
Theorem C138_partial : forall (A : Type) (lt : A -> A -> bool) (rnd : nat -> nat -> nat) l, strict_weak lt ->
  exists l', Sort lt rnd l = Some l' /\ Permutation l l' /\ in_order lt l'.
Proof.
  intros A lt rnd [|d r] W. { exists []. split; [reflexivity|]. split; auto. intros i j x y _ E. destruct i; discriminate. } set (l := d :: r).
  assert (H := pdq_ok lt rnd d (S (length l)) 0 (length l) (bits_len (length l)) true true l ltac:(lia) ltac:(lia) ltac:(lia)).
  unfold wp in H. unfold Sort. destruct (pdqsort _ _ _ _ _ _ _ _ l) as [[u l']|]; [|contradiction]. destruct H as [P H]. exists l'. split; auto. split; auto.
  destruct (H (sw_of lt W)) as [_ O]; [intros Z; inversion Z|]. assert (L := Permutation_length P). intros i j x y Hij Ex Ey.
  assert (Hj : j < length l') by (apply nth_error_Some; congruence). assert (Q := O i j ltac:(lia) Hij ltac:(lia)). unfold le in Q.
  rewrite (nth_error_nth _ _ d Ex), (nth_error_nth _ _ d Ey) in Q. exact Q.
Qed.
(* SortFunc puts the elements in the order of their scores: ints and strings are ordered by <, and so are floats that are not NaN *)
Theorem C138_func : forall (A S : Type) (slt : S -> S -> bool) (rnd : nat -> nat -> nat) (score : A -> S) l, strict_weak slt ->
  exists l', SortFunc slt rnd score l = Some l' /\ Permutation l l' /\ in_order (fun x y => slt (score x) (score y)) l'.
Proof. intros A S slt rnd score l (W1 & W2 & W3). apply C138_partial. split; [|split]; intros; eauto. Qed.
(* more often: the scores of the result go up *)
Theorem C138_int : forall (A : Type) rnd (score : A -> Z) l,
  exists l', SortFunc Z.ltb rnd score l = Some l' /\ Permutation l l' /\ forall l1 x l2 y l3, l' = l1 ++ x :: l2 ++ y :: l3 -> (score x <= score y)%Z.
Proof.
  intros A rnd score l. destruct (C138_func A Z Z.ltb rnd score l) as (l' & E & P & O).
  { split; [|split]; intros *; rewrite ?Z.ltb_lt, ?Z.ltb_ge; lia. }
  exists l'. split; auto. split; auto. intros l1 x l2 y l3 ->. apply Z.ltb_ge. apply (O (length l1) (length l1 + S (length l2))); [lia| |].
  - rewrite nth_error_app2, Nat.sub_diag; auto.
  - rewrite nth_error_app2 by lia. replace (length l1 + S (length l2) - length l1) with (S (length l2)) by lia. cbn. rewrite nth_error_app2, Nat.sub_diag; auto.
Qed.

(* < of float64, as far as NaN (None) goes *)
Definition flt (x y : option Z) : bool := match x, y with Some x, Some y => (x <? y)%Z | _, _ => false end.
(* a score that is NaN keeps larger scores before smaller ones *)
Theorem C138_nan_refuted : exists l : list (option Z), forall rnd, exists l' i j x y, SortFunc flt rnd (fun x => x) l = Some l' /\ i < j /\
  nth_error l' i = Some (Some x) /\ nth_error l' j = Some (Some y) /\ (y < x)%Z.
Proof. exists [Some 2; None; Some 1]%Z. intros rnd. exists [Some 2; None; Some 1]%Z, 0, 2, 2%Z, 1%Z. repeat split; auto. Qed.
(* elements of the same score need not keep their order: from 13 elements on *)
Theorem C138_stable_refuted : exists l : list (nat * nat), forall rnd, exists l' i j p q, SortFunc Nat.ltb rnd fst l = Some l' /\
  i < j /\ nth_error l i = Some p /\ nth_error l j = Some q /\ fst p = fst q /\ exists i' j', j' < i' /\ nth_error l' i' = Some p /\ nth_error l' j' = Some q /\ NoDup l.
Proof.
  exists (combine [1;0;1;0;1;0;1;0;1;0;1;0;1] (seq 0 13)). intros rnd.
  exists [(0, 9); (0, 1); (0, 3); (0, 5); (0, 7); (0, 11); (1, 2); (1, 4); (1, 6); (1, 8); (1, 0); (1, 10); (1, 12)], 1, 9, (0, 1), (0, 9).
  split; [vm_compute; reflexivity|]. repeat split; [lia|]. exists 1, 0. repeat split; auto. cbn. repeat constructor; cbn; intuition discriminate.
Qed.

(* 40 numbers, sorted by a less that compares them without their last digit *)
Definition so_lt (x y : nat) : bool := x / 10 <? y / 10.
Definition so_list : list nat := map (fun i => (i * 37 + 11) mod 101) (seq 0 40).
Example C138_example : strict_weak so_lt /\ exists l', Sort so_lt (fun n i => n + i) so_list = Some l' /\ in_order so_lt l' /\ l' <> so_list.
Proof.
  assert (W : strict_weak so_lt).
  { unfold so_lt. split; [|split]; intros *; rewrite ?Nat.ltb_lt, ?Nat.ltb_ge; lia. }
  split; auto. destruct (C138_partial nat so_lt (fun n i => n + i) so_list W) as (l' & E & _ & O). exists l'. split; auto. split; auto.
  intros ->. specialize (O 0 3 11 21). vm_compute in E. discriminate.
Qed.

Print Assumptions C138_rearranges.
Print Assumptions C138_partial.
Print Assumptions C138_func.
Print Assumptions C138_int.
Print Assumptions C138_nan_refuted.
Print Assumptions C138_stable_refuted.
