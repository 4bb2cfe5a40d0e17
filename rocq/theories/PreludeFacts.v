(* Lemmas about Prelude. *)
From Coq Require Import Bool Ascii String Arith ZArith Lia List Permutation.
From Verif Require Import Prelude.
Import ListNotations.

Lemma upd_length {A} (l : list A) i x : length (upd l i x) = length l.
Proof. revert i; induction l as [|a l IH]; intros [|i]; cbn; auto. Qed.

Lemma nth_error_upd {A} (l : list A) i x p :
  nth_error (upd l i x) p =
  if (p =? i) && (i <? length l) then Some x else nth_error l p.
Proof.
  revert i p; induction l as [|a l IH]; intros i p; cbn.
  - rewrite Bool.andb_false_r. destruct i, p; reflexivity.
  - destruct i as [|i], p as [|p]; cbn; auto. rewrite IH.
    change (S p =? S i) with (p =? i). change (S i <? S (length l)) with (i <? length l). reflexivity.
Qed.

Lemma nth_error_upd_eq {A} (l : list A) i x : i < length l -> nth_error (upd l i x) i = Some x.
Proof. intros H. rewrite nth_error_upd, Nat.eqb_refl. apply Nat.ltb_lt in H. now rewrite H. Qed.

Lemma nth_error_upd_ne {A} (l : list A) i x p : p <> i -> nth_error (upd l i x) p = nth_error l p.
Proof. intros H. rewrite nth_error_upd. apply Nat.eqb_neq in H. now rewrite H. Qed.

Lemma nth_error_ext {A} (l l' : list A) :
  (forall i, nth_error l i = nth_error l' i) -> l = l'.
Proof.
  revert l'; induction l as [|a l IH]; intros [|b l'] H; auto.
  - specialize (H 0); discriminate.
  - specialize (H 0); discriminate.
  - pose proof (H 0) as H0; cbn in H0; inversion H0; subst. f_equal. apply IH.
    intros i. apply (H (S i)).
Qed.

Lemma nth_error_lt {A} (l : list A) i : i < length l -> exists x, nth_error l i = Some x.
Proof. intros H. destruct (nth_error l i) eqn:E; eauto. apply nth_error_None in E; lia. Qed.

Lemma nth_error_some_lt {A} (l : list A) i x : nth_error l i = Some x -> i < length l.
Proof. intros H. apply nth_error_Some. congruence. Qed.

Lemma swap_ok {A} (l : list A) i j :
  i < length l -> j < length l -> exists l', swap l i j = Ok l'.
Proof.
  intros Hi Hj. unfold swap.
  destruct (nth_error_lt l i Hi) as [x ->], (nth_error_lt l j Hj) as [y ->]. eauto.
Qed.

Lemma swap_inv {A} (l : list A) i j l' :
  swap l i j = Ok l' -> i < length l /\ j < length l /\ length l' = length l.
Proof.
  unfold swap. destruct (nth_error l i) eqn:Ei; [|discriminate].
  destruct (nth_error l j) eqn:Ej; [|discriminate]. intros H; inversion H; subst.
  rewrite !upd_length. apply nth_error_some_lt in Ei, Ej. auto.
Qed.

Lemma swap_nth {A} (l : list A) i j l' p :
  swap l i j = Ok l' ->
  nth_error l' p = if p =? j then nth_error l i else if p =? i then nth_error l j else nth_error l p.
Proof.
  intros H. pose proof (swap_inv _ _ _ _ H) as (Hi & Hj & _). unfold swap in H.
  destruct (nth_error l i) as [x|] eqn:Ei; [|discriminate].
  destruct (nth_error l j) as [y|] eqn:Ej; [|discriminate]. inversion H; subst; clear H.
  rewrite nth_error_upd, upd_length. destruct (p =? j) eqn:E1.
  - apply Nat.ltb_lt in Hj. now rewrite Hj.
  - cbn [andb]. rewrite nth_error_upd. destruct (p =? i) eqn:E2; cbn [andb]; auto.
    apply Nat.ltb_lt in Hi. now rewrite Hi.
Qed.

Lemma upd_app_r {A} (l1 : list A) x l2 y : upd (l1 ++ x :: l2) (length l1) y = l1 ++ y :: l2.
Proof. induction l1 as [|a l1 IH]; cbn; congruence. Qed.

Lemma nth_error_mid {A} (l1 : list A) x l2 : nth_error (l1 ++ x :: l2) (length l1) = Some x.
Proof. rewrite nth_error_app2 by lia. now rewrite Nat.sub_diag. Qed.

Lemma upd_permutation {A} (l : list A) i x y :
  nth_error l i = Some x -> Permutation (y :: l) (x :: upd l i y).
Proof.
  intros H. destruct (nth_error_split l i H) as (l1 & l2 & -> & <-).
  rewrite upd_app_r. rewrite <- !Permutation_middle. apply perm_swap.
Qed.

Lemma swap_permutation {A} (l : list A) i j l' : swap l i j = Ok l' -> Permutation l l'.
Proof.
  unfold swap. destruct (nth_error l i) as [x|] eqn:Ei; [|discriminate].
  destruct (nth_error l j) as [y|] eqn:Ej; [|discriminate]. intros H; inversion H; subst; clear H.
  assert (H1 : Permutation (y :: l) (x :: upd l i y)) by (apply upd_permutation; auto).
  destruct (Nat.eq_dec i j) as [->|Hne].
  - assert (x = y) by congruence; subst.
    apply Permutation_cons_inv in H1.
    assert (H2 : Permutation (y :: upd l j y) (y :: upd (upd l j y) j y)).
    { apply upd_permutation. apply nth_error_upd_eq. eapply nth_error_some_lt; eauto. }
    apply Permutation_cons_inv in H2. etransitivity; eauto.
  - assert (H2 : Permutation (x :: upd l i y) (y :: upd (upd l i y) j x)).
    { apply upd_permutation. rewrite nth_error_upd_ne; auto. }
    apply (Permutation_cons_inv (a := y)). etransitivity; eauto.
Qed.

Lemma slice_ok {A} (l : list A) s e :
  s <= e -> e <= length l -> slice l s e = Ok (firstn (e - s) (skipn s l)).
Proof.
  intros H1 H2. unfold slice. apply Nat.leb_le in H1, H2. now rewrite H1, H2.
Qed.

(* Association maps. *)
Section AssocMapFacts.
  Context {K V : Type} (eqb : K -> K -> bool) (Heq : eqb_ok eqb).
  Implicit Types (m : list (K * V)).

  Lemma eqb_refl_ok x : eqb x x = true.
  Proof. now apply Heq. Qed.
  Lemma eqb_ne x y : x <> y -> eqb x y = false.
  Proof. intros H. destruct (eqb x y) eqn:E; auto. apply Heq in E. contradiction. Qed.
  Lemma eqb_false_ne x y : eqb x y = false -> x <> y.
  Proof. intros H ->. rewrite eqb_refl_ok in H. discriminate. Qed.
  Lemma key_dec (x y : K) : {x = y} + {x <> y}.
  Proof. destruct (eqb x y) eqn:E; [left; now apply Heq | right; now apply eqb_false_ne]. Qed.

  Lemma mget_mset_eq m k v : mget eqb (mset eqb m k v) k = Some v.
  Proof.
    induction m as [|[k' v'] m IH]; cbn; [now rewrite eqb_refl_ok|].
    destruct (eqb k k') eqn:E; cbn; rewrite E; auto.
  Qed.
  Lemma mget_mset_ne m k k' v : k <> k' -> mget eqb (mset eqb m k v) k' = mget eqb m k'.
  Proof.
    intros Hne. induction m as [|[k2 v2] m IH]; cbn.
    - rewrite (eqb_ne k' k); auto.
    - destruct (eqb k k2) eqn:E; cbn.
      + apply Heq in E; subst. rewrite (eqb_ne k' k2); auto.
      + destruct (eqb k' k2); auto.
  Qed.
  Lemma mget_in m k v : NoDup (map fst m) -> (mget eqb m k = Some v <-> In (k, v) m).
  Proof.
    induction m as [|[k' v'] m IH]; cbn; intros Hnd; [split; [discriminate|tauto]|].
    inversion Hnd as [|? ? Hni Hnd']; subst. destruct (eqb k k') eqn:E.
    - apply Heq in E; subst. split.
      + intros H; inversion H; auto.
      + intros [H|H]; [congruence|]. exfalso. apply Hni. apply in_map_iff. now exists (k', v).
    - apply eqb_false_ne in E. rewrite IH by auto. split; auto. intros [H|H]; auto. congruence.
  Qed.
  Lemma mget_none m k : mget eqb m k = None <-> ~ In k (map fst m).
  Proof.
    induction m as [|[k' v'] m IH]; cbn; [tauto|]. destruct (eqb k k') eqn:E.
    - apply Heq in E; subst. split; [discriminate|tauto].
    - apply eqb_false_ne in E. rewrite IH. intuition congruence.
  Qed.
  Lemma mset_keys_in m k v x : In x (map fst (mset eqb m k v)) <-> x = k \/ In x (map fst m).
  Proof.
    induction m as [|[k' v'] m IH]; cbn; [intuition|]. destruct (eqb k k') eqn:E; cbn.
    - apply Heq in E; subst. intuition.
    - rewrite IH. intuition.
  Qed.
  Lemma mset_nodup m k v : NoDup (map fst m) -> NoDup (map fst (mset eqb m k v)).
  Proof.
    induction m as [|[k' v'] m IH]; cbn; intros Hnd; [constructor; [tauto|constructor]|].
    inversion Hnd as [|? ? Hni Hnd']; subst. destruct (eqb k k') eqn:E; cbn; constructor; auto.
    rewrite mset_keys_in. apply eqb_false_ne in E. intuition.
  Qed.
  Lemma mdel_in m k x : In x (mdel eqb m k) -> In x m.
  Proof.
    induction m as [|[k' v'] m IH]; cbn; auto. destruct (eqb k k'); cbn; intuition.
  Qed.
  Lemma mdel_nodup m k : NoDup (map fst m) -> NoDup (map fst (mdel eqb m k)).
  Proof.
    induction m as [|[k' v'] m IH]; cbn; intros Hnd; auto.
    inversion Hnd as [|? ? Hni Hnd']; subst. destruct (eqb k k'); cbn; auto. constructor; auto.
    intros H. apply Hni. apply in_map_iff in H as ([a b] & Hf & Hin). apply mdel_in in Hin.
    apply in_map_iff. exists (a, b); auto.
  Qed.
  Lemma mget_mdel_eq m k : NoDup (map fst m) -> mget eqb (mdel eqb m k) k = None.
  Proof.
    induction m as [|[k' v'] m IH]; cbn; intros Hnd; auto.
    inversion Hnd as [|? ? Hni Hnd']; subst. destruct (eqb k k') eqn:E; cbn.
    - apply Heq in E; subst. now apply mget_none.
    - rewrite E. auto.
  Qed.
  Lemma mget_mdel_ne m k k' : k <> k' -> mget eqb (mdel eqb m k) k' = mget eqb m k'.
  Proof.
    intros Hne. induction m as [|[k2 v2] m IH]; cbn; auto.
    destruct (eqb k k2) eqn:E; cbn.
    - apply Heq in E; subst. rewrite (eqb_ne k' k2); auto.
    - destruct (eqb k' k2); auto.
  Qed.
End AssocMapFacts.

Lemma skipn_skipn {A} (x y : nat) (l : list A) : skipn x (skipn y l) = skipn (x + y) l.
Proof.
  revert l; induction y as [|y IH]; intros l; [now rewrite Nat.add_0_r|].
  rewrite Nat.add_succ_r. destruct l as [|a l]; cbn; [now rewrite skipn_nil|]. apply IH.
Qed.

Lemma fold_left_app_acc {A B} (f : A -> list B) l : forall acc,
  fold_left (fun out x => out ++ f x) l acc = acc ++ concat (map f l).
Proof.
  induction l as [|x l IH]; cbn; intros acc; [now rewrite app_nil_r|].
  rewrite IH. now rewrite app_assoc.
Qed.
