(* Properties C01-C05: utils/lists. *)
From Coq Require Import Bool Arith ZArith Lia List Permutation Factorial.
From Verif Require Import Prelude PreludeFacts ListsModel ListsSpec ListsProofs PermModel PermProofs.
Import ListNotations.

(* C01: Reverse never panics and leaves the reversed slice. *)
Theorem C01_reverse : forall (T : Type) (a : list T), Reverse a = Ok (rev a).
Proof. exact @Reverse_rev. Qed.
Print Assumptions C01_reverse.

Theorem C01_reverse_twice : forall (T : Type) (a b : list T),
  Reverse a = Ok b -> Reverse b = Ok a.
Proof. exact @Reverse_twice. Qed.
Print Assumptions C01_reverse_twice.

Example C01_ex : Reverse [1; 2; 3; 4; 5] = Ok [5; 4; 3; 2; 1] /\ Reverse [1; 2] = Ok [2; 1].
Proof. vm_compute. auto. Qed.

(* C02: Split is a balanced partition into the least possible number of pieces. *)
Theorem C02_split : forall (T : Type) (l : list T) (max : Z), (0 < max)%Z ->
  exists out, Split l max = Ok out /\
    (* nothing lost, nothing reordered *)
    concat out = l /\
    (* no piece is too long *)
    Forall (fun c => (Z.of_nat (length c) <= max)%Z) out /\
    (* no piece is empty *)
    (l <> [] -> Forall (fun c => c <> []) out) /\
    (* no other partition has fewer pieces *)
    (forall out', l <> [] -> concat out' = l ->
       Forall (fun c => (Z.of_nat (length c) <= max)%Z) out' -> length out <= length out') /\
    (* all pieces but the last have the length of the first, the last is not longer *)
    (exists init lst, out = init ++ [lst] /\
       Forall (fun c => length c = length (hd [] out)) init /\
       length lst <= length (hd [] out)) /\
    (* no other partition into that many pieces has a shorter longest piece *)
    (forall out', concat out' = l -> length out' = length out ->
       Exists (fun c => length (hd [] out) <= length c) out').
Proof. exact @split_spec. Qed.
Print Assumptions C02_split.

Theorem C02_split_panics : forall (T : Type) (l : list T) (max : Z),
  Split l max = Panic <-> (max <= 0)%Z.
Proof. exact @split_panics_iff. Qed.
Print Assumptions C02_split_panics.

Theorem C02_flatten_split : forall (T : Type) (l : list T) (max : Z) out,
  Split l max = Ok out -> Flatten out = l.
Proof. exact @flatten_split. Qed.
Print Assumptions C02_flatten_split.

Example C02_ex :
  Split [1;2;3;4;5;6;7;8;9;10] 4 = Ok [[1;2;3;4]; [5;6;7;8]; [9;10]] /\
  Split [1;2;3;4;5;6;7] 6 = Ok [[1;2;3;4]; [5;6;7]].
Proof. vm_compute. auto. Qed.

(* C03: the iterator shows every ordering exactly once, then false for ever.
   `orders` lists the orderings as lists of original positions.  The observation of
   the i-th call (from 0) is the boolean returned and the content of the slice. *)
Theorem C03_permute : forall (T : Type) (a : list T),
  exists orders : list (list nat),
    hd [] orders = seq 0 (length a) /\
    length orders = fact (length a) /\
    NoDup orders /\
    (forall o, In o orders <-> Permutation (seq 0 (length a)) o) /\
    forall k, exists obs, calls k (Permute a) = Ok obs /\ length obs = k /\
      forall i b s, nth_error obs i = Some (b, s) ->
        b = (i <? length orders) /\
        map Some s = map (nth_error a) (nth (Nat.min i (length orders - 1)) orders []).
Proof. exact @permute_calls. Qed.
Print Assumptions C03_permute.

Example C03_ex : calls 8 (Permute [1; 2; 3]) = Ok
  [(true, [1;2;3]); (true, [1;3;2]); (true, [3;1;2]); (true, [3;2;1]); (true, [2;3;1]);
   (true, [2;1;3]); (false, [2;1;3]); (false, [2;1;3])].
Proof. vm_compute. reflexivity. Qed.

(* C04 *)
Theorem C04_contains : forall (T : Type) (eqb : T -> T -> bool), eqb_ok eqb ->
  forall a i, Contains eqb a i = true <-> In i a.
Proof. exact @contains_in. Qed.
Print Assumptions C04_contains.

(* Any sequence of AddUnique calls yields the distinct elements in order of first
   occurrence (nodup keeps last occurrences, hence the two reversals). *)
Theorem C04_add_unique : forall (T : Type) (eqb : T -> T -> bool), eqb_ok eqb ->
  forall (dec : forall x y : T, {x = y} + {x <> y}) xs,
  fold_left (AddUnique eqb) xs [] = rev (nodup dec (rev xs)).
Proof. exact @fold_add_unique. Qed.
Print Assumptions C04_add_unique.

(* Starting from any list: what was there stays in front. *)
Theorem C04_add_unique_from : forall (T : Type) (eqb : T -> T -> bool), eqb_ok eqb ->
  forall xs a, NoDup a ->
  let r := fold_left (AddUnique eqb) xs a in
  NoDup r /\ (forall x, In x r <-> In x a \/ In x xs) /\ exists t, r = a ++ t.
Proof. exact @add_unique_all. Qed.
Print Assumptions C04_add_unique_from.

Theorem C04_copy : forall (T : Type) (zero : T) a, Copy zero a = a.
Proof. exact @copy_id. Qed.
Print Assumptions C04_copy.

Example C04_ex : fold_left (AddUnique Nat.eqb) [3; 1; 3; 2; 1] [] = [3; 1; 2] /\ eqb_ok Nat.eqb.
Proof. split; [reflexivity|]. exact Nat.eqb_eq. Qed.

(* C05: every answer of every history is the one of a mathematical set, and All
   lists the members once whatever the iteration order of the underlying map. *)
Theorem C05_set : forall (T : Type) (eqb : T -> T -> bool), eqb_ok eqb ->
  forall (dec : forall x y : T, {x = y} + {x <> y}) ops order,
  fst (set_run eqb [] ops) = answers dec [] ops /\
  (Permutation order (snd (set_run eqb [] ops)) ->
   NoDup (set_All order) /\ forall x, In x (set_All order) <-> present dec x (rev ops) = true).
Proof. exact @set_history. Qed.
Print Assumptions C05_set.

Example C05_ex :
  set_run Nat.eqb [] [SAdd 1; SAdd 2; SAdd 1; SRemove 1; SHas 1; SRemove 1; SHas 2]
  = ([true; true; false; true; false; false; true], [(2, true)]).
Proof. vm_compute. reflexivity. Qed.
