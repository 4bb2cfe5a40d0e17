(* Theorems about the LRU cache: C07, C08, C09, C10. *)
From Coq Require Import Bool Arith ZArith Lia List Permutation.
From Verif Require Import Prelude LruModel LruSpec LruProofs.
Import ListNotations.

(* C07: after any history, one more Get.  A resident key is a HIT: the loader does not run,
   and the value is the one of the last load of this key that was kept.  Any other key runs
   the loader once, for that key, and returns what the loader returned; a failed load or a
   load of size zero leaves the cache as it was. *)
Theorem C07_get : forall (K V E : Type) (eqb : K -> K -> bool), eqb_ok eqb ->
  forall (dec : forall x y : K, {x = y} + {x <> y}) max (ops : list (op K V E)) rs c k now (ld : loaded V E),
  (0 <= max)%Z -> Forall call_ok ops -> run eqb (NewLRU max) ops = Ok (rs, c) -> (0 < now)%Z ->
  exists r c', Get eqb c k now ld = Ok (r, c') /\
    (In k (Keys c) -> rhit r = HIT /\ rloads r = [] /\ rerr r = None /\
       last_load dec k (rev (combine ops rs)) = Some (rval r) /\
       Permutation (residents c') (residents c)) /\
    (~ In k (Keys c) -> rloads r = [k] /\ rval r = lval ld /\ rerr r = lerr ld /\
       rhit r = (match lerr ld with Some _ => ERR | None => if (lsize ld =? 0)%Z then NO else MISS end) /\
       (rhit r <> MISS -> c' = c)).
Proof. exact @get_after. Qed.
Print Assumptions C07_get.

Definition ld (v : nat) (sz : Z) : loaded nat nat := Loaded v sz None.

Example C07_ex : exists rs c,
  run Nat.eqb (NewLRU 5) [OGet 1 10 (ld 7 2); OGet 2 10 (ld 8 2); OGet 1 9 (ld 99 1)] = Ok (rs, c) /\
  In 1 (Keys c) /\ nth 2 rs None = Some (GetResult 7 HIT None []).
Proof. eexists _, _. split; [vm_compute; reflexivity|]. vm_compute. auto. Qed.

(* C08: no history panics; the keys are distinct; the size kept by the cache is the sum over
   the residents and stays within the budget; the index names each resident's place. *)
Theorem C08_budget : forall (K V E : Type) (eqb : K -> K -> bool), eqb_ok eqb ->
  (forall x y : K, {x = y} + {x <> y}) ->
  forall max (ops : list (op K V E)), (0 <= max)%Z -> Forall call_ok ops ->
  exists rs c, run eqb (NewLRU max) ops = Ok (rs, c) /\
    NoDup (Keys c) /\ curSize c = total (residents c) /\ (total (residents c) <= max)%Z /\
    (forall k i, hindex (lheap c) k = Some i <-> nth_error (Keys c) i = Some k).
Proof. exact @budget. Qed.
Print Assumptions C08_budget.

(* Whatever the sizes, negative ones included, nothing panics and the size is the sum. *)
Theorem C08_bookkeeping : forall (K V E : Type) (eqb : K -> K -> bool), eqb_ok eqb ->
  (forall x y : K, {x = y} + {x <> y}) ->
  forall max (ops : list (op K V E)), (0 <= max)%Z ->
  Forall (fun o => match o with OGet _ now _ => (0 < now)%Z | OInvalidate _ => True end) ops ->
  exists rs c, run eqb (NewLRU max) ops = Ok (rs, c) /\ NoDup (Keys c) /\ curSize c = total (residents c).
Proof. exact @any_size. Qed.
Print Assumptions C08_bookkeeping.

Example C08_ex : exists rs c,
  run Nat.eqb (NewLRU 5) [OGet 1 10 (ld 7 2); OGet 2 10 (ld 8 2); OGet 3 11 (ld 9 3); OInvalidate 3; OGet 4 3 (ld 1 6)]
  = Ok (rs, c) /\ Keys c = [2] /\ curSize c = 2%Z.
Proof. eexists _, _. split; [vm_compute; reflexivity|]. vm_compute. auto. Qed.

(* The hypothesis on sizes is needed: with a negative size an Invalidate can leave the cache
   over its budget. *)
Example C08_negative_size : exists rs c,
  run Nat.eqb (NewLRU 6) [OGet 1 10 (ld 7 (-5)); OGet 2 11 (ld 8 10); OInvalidate 1] = Ok (rs, c) /\
  (6 < total (residents c))%Z.
Proof. eexists _, _. split; [vm_compute; reflexivity|]. vm_compute. auto. Qed.

(* C09 is about which entries go when the budget is exceeded.  As stated (least recently
   used) it is false of the code: a hit does not refresh the entry. *)
Theorem C09_least_recently_used_refuted :
  ~ (forall max (ops : list (op nat nat nat)), (0 <= max)%Z -> clock_increases 0 ops ->
     exists c, run Nat.eqb (NewLRU max) ops = Ok (fst (lru_run Nat.eq_dec max [] ops), c) /\
       Permutation (residents c) (snd (lru_run Nat.eq_dec max [] ops))).
Proof.
  intros H.
  destruct (H 2%Z [OGet 1 1 (ld 10 1); OGet 2 2 (ld 20 1); OGet 1 3 (ld 0 1); OGet 3 4 (ld 30 1)]
    ltac:(lia) ltac:(cbn; lia)) as (c & Hr & Hp).
  vm_compute in Hr. inversion Hr; subst c; clear Hr. vm_compute in Hp.
  clear H. apply Permutation_in with (x := (2, 20, 1%Z)) in Hp.
  - cbn in Hp. intuition discriminate.
  - cbn. auto.
Qed.
Print Assumptions C09_least_recently_used_refuted.

(* What does hold: entries leave in the order in which they were loaded, as few as make the
   rest fit, and every answer of every history is the one of that bounded queue. *)
Theorem C09_oldest_load_partial : forall (K V E : Type) (eqb : K -> K -> bool), eqb_ok eqb ->
  forall (dec : forall x y : K, {x = y} + {x <> y}) max (ops : list (op K V E)),
  (0 <= max)%Z -> clock_increases 0 ops ->
  exists c, run eqb (NewLRU max) ops = Ok (fst (spec_run dec max [] ops), c) /\
    Permutation (residents c) (snd (spec_run dec max [] ops)).
Proof. exact @queue_refinement. Qed.
Print Assumptions C09_oldest_load_partial.

(* The same for clocks that repeat or go backwards: what is evicted was not loaded later,
   by the clock, than what stays, and each eviction was needed. *)
Theorem C09_evicts_oldest_reading_partial : forall (K V E : Type) (eqb : K -> K -> bool), eqb_ok eqb ->
  (forall x y : K, {x = y} + {x <> y}) ->
  forall max (ops : list (op K V E)) rs c k now (ld : loaded V E), (0 <= max)%Z -> Forall call_ok ops ->
  run eqb (NewLRU max) ops = Ok (rs, c) -> (0 < now)%Z ->
  ~ In k (Keys c) -> lerr ld = None -> lsize ld <> 0%Z ->
  exists r c' ev, Get eqb c k now ld = Ok (r, c') /\
    Permutation (Entry k (lval ld) now (lsize ld) :: hlist (lheap c)) (ev ++ hlist (lheap c')) /\
    (forall x y, In x ev -> In y (hlist (lheap c')) -> (last x <= last y)%Z) /\
    (total (residents c') <= max)%Z /\
    (forall d, d < length ev ->
       (max < total (residents c) + lsize ld - fold_right Z.add 0 (map size (firstn d ev)))%Z).
Proof. exact @evicts_oldest. Qed.
Print Assumptions C09_evicts_oldest_reading_partial.

Example C09_ex :
  let ops := [OGet 1 1 (ld 10 1); OGet 2 2 (ld 20 1); OGet 1 3 (ld 0 1); OGet 3 4 (ld 30 1); OGet 1 5 (ld 11 1)] in
  clock_increases 0 ops /\
  snd (spec_run Nat.eq_dec 2 [] ops) = [(3, 30, 1%Z); (1, 11, 1%Z)].
Proof. split; [cbn; lia|reflexivity]. Qed.

(* C10: Invalidate removes exactly its key; an absent key is no change at all. *)
Theorem C10_invalidate : forall (K V E : Type) (eqb : K -> K -> bool), eqb_ok eqb ->
  forall (dec : forall x y : K, {x = y} + {x <> y}) max (ops : list (op K V E)) rs c k,
  (0 <= max)%Z -> Forall call_ok ops -> run eqb (NewLRU max) ops = Ok (rs, c) ->
  exists c', Invalidate eqb c k = Ok c' /\ ~ In k (Keys c') /\
    (forall k' v sz, k' <> k -> (In (k', v, sz) (residents c') <-> In (k', v, sz) (residents c))) /\
    (~ In k (Keys c) -> c' = c).
Proof. exact @invalidate_after. Qed.
Print Assumptions C10_invalidate.

Example C10_ex : exists rs c c',
  run Nat.eqb (NewLRU 9) [OGet 1 10 (ld 7 2); OGet 2 10 (ld 8 2); OGet 3 11 (ld 9 3)] = Ok (rs, c) /\
  Invalidate Nat.eqb c 2 = Ok c' /\ Keys c' = [1; 3].
Proof. eexists _, _, _. split; [vm_compute; reflexivity|]. vm_compute. auto. Qed.
