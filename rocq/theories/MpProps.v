(* C153: the pairs of a map. *)
From Coq Require Import Bool Ascii String Arith NArith ZArith Lia List Permutation.
From Verif Require Import Prelude DurModel DurProofs MpModel.
Import ListNotations.

Section Mp.
  Context {K V : Type}.
  Implicit Types l m : list (K * V).
  Lemma pairs_id l : Pairs l = l.
  Proof.
    unfold Pairs. assert (H : forall acc, fold_left (fun out p => out ++ [(fst p, snd p)]) l acc = acc ++ l).
    { induction l as [|[k v] l IH]; intros acc; cbn; [now rewrite app_nil_r|]. rewrite IH, <- app_assoc. reflexivity. }
    now rewrite H.
  Qed.
  Lemma set_mid {T} (a b : list T) y x : set_at (a ++ y :: b) (length a) x = a ++ x :: b.
  Proof. induction a as [|z a IH]; cbn; [reflexivity|now rewrite IH]. Qed.
  Lemma fill_map {T} (zero : T) f l : fill zero f l = map f l.
  Proof.
    unfold fill. assert (H : forall l done, snd (fold_left (fun st p => (S (fst st), set_at (snd st) (fst st) (f p))) l (length done, done ++ repeat zero (length l))) = done ++ map f l).
    { clear l. induction l as [|p l IH]; intros done; cbn [length repeat fold_left map fst snd]; [reflexivity|]. rewrite set_mid. specialize (IH (done ++ [f p])). rewrite app_length in IH. cbn [length] in IH. rewrite Nat.add_1_r in IH. rewrite <- !app_assoc in IH. exact IH. }
    exact (H l []).
  Qed.
End Mp.

(* m is what the map holds, each key once; in whatever order its entries are visited: the pairs are those entries, each once, and Keys and Values
   have key and value of each pair at its place. *)
Theorem C153 : forall {K V : Type} (k0 : K) (v0 : V) (m visited : list (K * V)), NoDup (map fst m) -> Permutation visited m ->
  let p := Pairs visited in
  length p = length m /\ NoDup (Keys k0 p) /\ (forall k v, In (k, v) p <-> In (k, v) m) /\
  length (Keys k0 p) = length p /\ length (Values v0 p) = length p /\
  (forall i k v, nth_error p i = Some (k, v) <-> nth_error (Keys k0 p) i = Some k /\ nth_error (Values v0 p) i = Some v).
Proof.
  intros K V k0 v0 m visited N P p. unfold p. rewrite pairs_id. unfold Keys, Values. rewrite !fill_map, !map_length. split; [now apply Permutation_length|]. split.
  - apply (Permutation_NoDup (l := map fst m)); [now apply Permutation_map, Permutation_sym|exact N].
  - split; [intros k v; split; apply Permutation_in; [exact P|now apply Permutation_sym]|]. split; [reflexivity|]. split; [reflexivity|]. intros i k v. rewrite !nth_error_map. destruct (nth_error visited i) as [[a b]|]; cbn; split; try (intros [= -> ->]; auto); try discriminate; try (intros [H1 H2]; congruence); intros [H1 H2]; discriminate.
Qed.
(* So two calls may differ in the order only. *)
Theorem C153_again : forall {K V : Type} (m o1 o2 : list (K * V)), Permutation o1 m -> Permutation o2 m -> Permutation (Pairs o1) (Pairs o2).
Proof. intros K V m o1 o2 P1 P2. rewrite !pairs_id. exact (Permutation_trans P1 (Permutation_sym P2)). Qed.

Example C153_ex : let m := [(B "a", 1); (B "b", 2)] in let o := [(B "b", 2); (B "a", 1)] in NoDup (map fst m) /\ Permutation o m /\ Keys [] (Pairs o) = [B "b"; B "a"] /\ Values 0 (Pairs o) = [2; 1].
Proof. cbv zeta. split; [repeat constructor; cbn; intuition discriminate|]. split; [apply perm_swap|]. split; reflexivity. Qed.

Print Assumptions C153.
Print Assumptions C153_again.
Print Assumptions C153_ex.
