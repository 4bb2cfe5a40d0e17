From Coq Require Import Bool Arith ZArith Lia List Permutation Factorial.
From Verif Require Import Prelude PreludeFacts PermModel.
Import ListNotations.

Notation origs := (map orig).

(* ---------- swap and map ---------- *)
Lemma upd_map {A C} (f : A -> C) l i x : upd (map f l) i (f x) = map f (upd l i x).
Proof. revert i; induction l as [|a l IH]; intros [|i]; cbn; congruence. Qed.

Lemma swap_map {A C} (f : A -> C) l i j :
  swap (map f l) i j = match swap l i j with Ok l' => Ok (map f l') | Panic => Panic end.
Proof.
  unfold swap. rewrite !nth_error_map.
  destruct (nth_error l i) as [x|]; cbn; [|reflexivity].
  destruct (nth_error l j) as [y|]; cbn; [|reflexivity].
  now rewrite !upd_map.
Qed.

Lemma swap_mid {A} (l1 : list A) x y l2 :
  swap (l1 ++ x :: y :: l2) (length l1) (length l1 + 1) = Ok (l1 ++ y :: x :: l2).
Proof.
  unfold swap. rewrite nth_error_mid.
  replace (nth_error (l1 ++ x :: y :: l2) (length l1 + 1)) with (Some y).
  2:{ rewrite nth_error_app2 by lia. now replace (length l1 + 1 - length l1) with 1 by lia. }
  rewrite upd_app_r. f_equal.
  replace (l1 ++ y :: y :: l2) with ((l1 ++ [y]) ++ y :: l2) by (now rewrite <- app_assoc).
  replace (length l1 + 1) with (length (l1 ++ [y])) by (rewrite app_length; cbn; lia).
  rewrite upd_app_r. now rewrite <- app_assoc.
Qed.

Lemma swap_mid' {A} (l1 : list A) x y l2 :
  swap (l1 ++ x :: y :: l2) (length l1 + 1) (length l1) = Ok (l1 ++ y :: x :: l2).
Proof.
  unfold swap. rewrite nth_error_mid.
  replace (nth_error (l1 ++ x :: y :: l2) (length l1 + 1)) with (Some y).
  2:{ rewrite nth_error_app2 by lia. now replace (length l1 + 1 - length l1) with 1 by lia. }
  f_equal.
  replace (l1 ++ x :: y :: l2) with ((l1 ++ [x]) ++ y :: l2) by (now rewrite <- app_assoc).
  replace (length l1 + 1) with (length (l1 ++ [x])) by (rewrite app_length; cbn; lia).
  rewrite upd_app_r. rewrite <- app_assoc. cbn. now rewrite upd_app_r.
Qed.

Lemma upd_app_l {A} (l1 l2 : list A) i x : i < length l1 -> upd (l1 ++ l2) i x = upd l1 i x ++ l2.
Proof.
  revert i; induction l1 as [|a l1 IH]; intros i H; cbn in *; [lia|].
  destruct i; cbn; auto. rewrite IH by lia. reflexivity.
Qed.

Lemma swap_app_l {A} (l1 l2 : list A) i j : i < length l1 -> j < length l1 ->
  swap (l1 ++ l2) i j = match swap l1 i j with Ok l' => Ok (l' ++ l2) | Panic => Panic end.
Proof.
  intros Hi Hj. unfold swap. rewrite !nth_error_app1 by auto.
  destruct (nth_error_lt l1 i Hi) as [x ->], (nth_error_lt l1 j Hj) as [y ->].
  rewrite !upd_app_l; rewrite ?upd_length; auto.
Qed.

Lemma swap_cons {A} (a : A) l i j :
  swap (a :: l) (S i) (S j) = match swap l i j with Ok l' => Ok (a :: l') | Panic => Panic end.
Proof. unfold swap. cbn. destruct (nth_error l i), (nth_error l j); reflexivity. Qed.

(* ---------- movability ---------- *)
Lemma can_move_split l1 e l2 :
  can_move (l1 ++ e :: l2) (length l1) =
  match (if right e then hd_error l2 else hd_error (rev l1)) with
  | None => false
  | Some e' => if orig e <? orig e' then false else true
  end.
Proof.
  unfold can_move. rewrite nth_error_mid. destruct (right e).
  - rewrite app_length. cbn [length]. destruct l2 as [|y l2]; cbn [hd_error length].
    + replace (length l1 =? length l1 + 1 - 1) with true by (symmetry; apply Nat.eqb_eq; lia). reflexivity.
    + replace (length l1 =? length l1 + S (S (length l2)) - 1) with false by (symmetry; apply Nat.eqb_neq; lia).
      replace (nth_error (l1 ++ e :: y :: l2) (length l1 + 1)) with (Some y); [reflexivity|].
      rewrite nth_error_app2 by lia. now replace (length l1 + 1 - length l1) with 1 by lia.
  - destruct (rev l1) as [|y r] eqn:Er; cbn [hd_error].
    + apply (f_equal (@rev _)) in Er. rewrite rev_involutive in Er. subst. reflexivity.
    + apply (f_equal (@rev _)) in Er. rewrite rev_involutive in Er. cbn in Er. subst.
      rewrite app_length. cbn [length]. replace (length (rev r) + 1 =? 0) with false by (symmetry; apply Nat.eqb_neq; lia).
      rewrite <- app_assoc. cbn [app].
      replace (length (rev r) + 1 - 1) with (length (rev r)) by lia.
      now rewrite nth_error_mid.
Qed.

Lemma can_move_lt es i : can_move es i = true -> i < length es.
Proof.
  unfold can_move. destruct (nth_error es i) eqn:E; [|discriminate]. intros _.
  eapply nth_error_some_lt; eauto.
Qed.

(* ---------- the scan finds the largest movable element ---------- *)
Definition best_in (es : list permElem) (P : nat -> Prop) (r : option (nat * nat)) : Prop :=
  match r with
  | None => forall i, P i -> can_move es i = false
  | Some (b, bo) =>
      can_move es b = true /\ (exists e, nth_error es b = Some e /\ orig e = bo) /\
      forall i e, P i -> can_move es i = true -> nth_error es i = Some e -> orig e <= bo
  end.

Lemma scan_fold es n :
  best_in es (fun i => i < n) (fold_left (scan_step es) (seq 0 n) None).
Proof.
  induction n as [|n IH].
  - cbn. intros i Hi; lia.
  - rewrite seq_S, fold_left_app. cbn [fold_left plus].
    set (acc := fold_left (scan_step es) (seq 0 n) None) in *. clearbody acc.
    unfold scan_step. destruct (can_move es n) eqn:Ec.
    + destruct (nth_error es n) as [el|] eqn:En.
      2:{ exfalso. apply can_move_lt in Ec. apply nth_error_None in En. lia. }
      destruct acc as [[b bo]|]; cbn in IH.
      * destruct IH as (H1 & (e0 & H2 & H3) & H4). destruct (bo <? orig el) eqn:Eb.
        -- apply Nat.ltb_lt in Eb. cbn. split; auto. split; [eauto|].
           intros i e Hi Hm Hn. destruct (Nat.eq_dec i n) as [->|].
           ++ rewrite En in Hn. inversion Hn; lia.
           ++ assert (orig e <= bo) by (eapply H4; eauto; lia). lia.
        -- apply Nat.ltb_ge in Eb. cbn. split; auto. split; [eauto|].
           intros i e Hi Hm Hn. destruct (Nat.eq_dec i n) as [->|].
           ++ rewrite En in Hn. inversion Hn; subst; lia.
           ++ eapply H4; eauto; lia.
      * cbn. split; auto. split; [eauto|]. intros i e Hi Hm Hn.
        destruct (Nat.eq_dec i n) as [->|].
        -- rewrite En in Hn. inversion Hn; lia.
        -- rewrite IH in Hm by lia. discriminate.
    + destruct acc as [[b bo]|]; cbn in IH |- *.
      * destruct IH as (H1 & H2 & H4). split; auto. split; auto. intros i e Hi Hm Hn.
        destruct (Nat.eq_dec i n) as [->|]; [congruence|]. eapply H4; eauto; lia.
      * intros i Hi. destruct (Nat.eq_dec i n) as [->|]; auto. apply IH; lia.
Qed.

Lemma scan_spec es : best_in es (fun i => i < length es) (scan es).
Proof. apply scan_fold. Qed.

Lemma nodup_origs_index es i j e e' :
  NoDup (origs es) -> nth_error es i = Some e -> nth_error es j = Some e' ->
  orig e = orig e' -> i = j.
Proof.
  intros Hnd Hi Hj Ho. rewrite NoDup_nth_error in Hnd. apply Hnd.
  - rewrite map_length. eapply nth_error_some_lt; eauto.
  - rewrite !nth_error_map, Hi, Hj. cbn. congruence.
Qed.

Lemma scan_is es b e : NoDup (origs es) -> can_move es b = true -> nth_error es b = Some e ->
  (forall i e', can_move es i = true -> nth_error es i = Some e' -> orig e' <= orig e) ->
  scan es = Some (b, orig e).
Proof.
  intros Hnd Hm Hn Hmax. pose proof (scan_spec es) as Hs.
  destruct (scan es) as [[b' bo']|]; cbn in Hs.
  - destruct Hs as (H1 & (e' & H2 & H3) & H4). subst bo'.
    assert (orig e <= orig e') by exact (H4 b e (nth_error_some_lt _ _ _ Hn) Hm Hn).
    assert (orig e' <= orig e) by exact (Hmax b' e' H1 H2).
    assert (b' = b) by (eapply nodup_origs_index; eauto; lia). subst.
    do 2 f_equal. lia.
  - rewrite Hs in Hm; [discriminate|]. eapply nth_error_some_lt; eauto.
Qed.

Lemma scan_is_none es : (forall i, can_move es i = false) -> scan es = None.
Proof.
  intros H. pose proof (scan_spec es) as Hs. destruct (scan es) as [[b bo]|]; auto.
  destruct Hs as (H1 & _). rewrite H in H1. discriminate.
Qed.

(* ---------- the element part of next ---------- *)
Definition enext (es : list permElem) : option (list permElem) :=
  match scan es with
  | None => None
  | Some (best, bo) =>
      match nth_error es best with
      | None => None
      | Some b =>
          match swap es best (if right b then best + 1 else best - 1) with
          | Ok es' => Some (flip_bigger bo es')
          | Panic => None
          end
      end
  end.

Lemma can_move_other es b e : can_move es b = true -> nth_error es b = Some e ->
  (if right e then b + 1 else b - 1) < length es /\ (right e = false -> 0 < b).
Proof.
  intros Hm Hn. unfold can_move in Hm. rewrite Hn in Hm.
  pose proof (nth_error_some_lt _ _ _ Hn). destruct (right e).
  - destruct (b =? length es - 1) eqn:E; [discriminate|]. apply Nat.eqb_neq in E. split; [lia|discriminate].
  - destruct (b =? 0) eqn:E; [discriminate|]. apply Nat.eqb_neq in E. split; [lia|]. lia.
Qed.

Lemma flip_origs bo es : origs (flip_bigger bo es) = origs es.
Proof.
  unfold flip_bigger. rewrite map_map. apply map_ext. intros e. destruct (bo <? orig e); reflexivity.
Qed.

Lemma next_enext {T} (f : nat -> T) es :
  next es (map f (origs es)) =
  match enext es with
  | None => Ok (false, es, map f (origs es))
  | Some es' => Ok (true, es', map f (origs es'))
  end.
Proof.
  unfold next, enext. pose proof (scan_spec es) as Hs. destruct (scan es) as [[b bo]|]; [|reflexivity].
  destruct Hs as (Hm & (e & Hn & Ho) & _). rewrite Hn.
  pose proof (can_move_other _ _ _ Hm Hn) as [Hlt _]. pose proof (nth_error_some_lt _ _ _ Hn).
  set (o := if right e then b + 1 else b - 1) in *.
  rewrite map_map, swap_map. destruct (swap_ok es b o) as [es' Hsw]; auto.
  rewrite Hsw. cbn [rbind]. rewrite flip_origs, map_map. reflexivity.
Qed.

Lemma enext_perm es es' : enext es = Some es' -> Permutation (origs es) (origs es').
Proof.
  unfold enext. destruct (scan es) as [[b bo]|]; [|discriminate].
  destruct (nth_error es b) as [e|]; [|discriminate].
  destruct (swap es b _) as [l|] eqn:E; [|discriminate]. intros H; inversion H; subst.
  rewrite flip_origs. apply Permutation_map. eapply swap_permutation; eauto.
Qed.

(* ---------- the largest element ---------- *)
Definition Lf (n : nat) := PE false n.
Definition Rt (n : nat) := PE true n.

Lemma flip_id n es : Forall (fun e => orig e <= n) es -> flip_bigger n es = es.
Proof.
  induction 1 as [|e es He _ IH]; cbn [flip_bigger map]; auto.
  replace (n <? orig e) with false by (symmetry; apply Nat.ltb_ge; lia). f_equal. exact IH.
Qed.

Lemma nth_error_Forall {A} (P : A -> Prop) l i x : Forall P l -> nth_error l i = Some x -> P x.
Proof. intros H1 H2. rewrite Forall_forall in H1. apply H1. eapply nth_error_In; eauto. Qed.

Lemma sweep_left l1 x l2 n :
  Forall (fun e => orig e < n) (l1 ++ x :: l2) -> NoDup (origs (l1 ++ x :: l2)) ->
  enext (l1 ++ x :: Lf n :: l2) = Some (l1 ++ Lf n :: x :: l2).
Proof.
  intros Hf Hnd. unfold enext.
  assert (Hall : Forall (fun e => orig e <= n) (l1 ++ x :: Lf n :: l2)).
  { apply Forall_app in Hf as [Hf1 Hf2]. inversion Hf2; subst. apply Forall_app; split.
    - eapply Forall_impl; [|exact Hf1]. cbn; intros; lia.
    - constructor; [lia|]. constructor; [cbn; lia|]. eapply Forall_impl; [|eassumption]. cbn; intros; lia. }
  assert (Hnth : nth_error (l1 ++ x :: Lf n :: l2) (length l1 + 1) = Some (Lf n)).
  { rewrite nth_error_app2 by lia. now replace (length l1 + 1 - length l1) with 1 by lia. }
  rewrite (scan_is _ (length l1 + 1) (Lf n)); auto.
  - rewrite Hnth. cbn [right Lf orig]. replace (length l1 + 1 - 1) with (length l1) by lia.
    rewrite swap_mid'. rewrite flip_id; auto.
    eapply Permutation_Forall; [|exact Hall]. apply Permutation_app_head, perm_swap.
  - assert (Hp : Permutation (n :: origs (l1 ++ x :: l2)) (origs (l1 ++ x :: Lf n :: l2))).
    { rewrite !map_app. cbn [map Lf orig].
      replace (origs l1 ++ orig x :: n :: origs l2) with ((origs l1 ++ [orig x]) ++ n :: origs l2)
        by (now rewrite <- app_assoc).
      apply Permutation_cons_app. now rewrite <- app_assoc. }
    eapply Permutation_NoDup; [exact Hp|]. constructor; auto.
    intros Hin. apply in_map_iff in Hin as (e & He & Hin). rewrite Forall_forall in Hf.
    apply Hf in Hin. lia.
  - replace (l1 ++ x :: Lf n :: l2) with ((l1 ++ [x]) ++ Lf n :: l2) by (now rewrite <- app_assoc).
    replace (length l1 + 1) with (length (l1 ++ [x])) by (rewrite app_length; cbn; lia).
    rewrite can_move_split. cbn [right Lf]. rewrite rev_app_distr. cbn [rev app hd_error orig Lf].
    apply Forall_app in Hf as [_ Hf]. inversion Hf; subst.
    replace (n <? orig x) with false by (symmetry; apply Nat.ltb_ge; lia). reflexivity.
  - intros i e' _ Hi. exact (nth_error_Forall _ _ _ _ Hall Hi).
Qed.

Lemma sweep_right l1 x l2 n :
  Forall (fun e => orig e < n) (l1 ++ x :: l2) -> NoDup (origs (l1 ++ x :: l2)) ->
  enext (l1 ++ Rt n :: x :: l2) = Some (l1 ++ x :: Rt n :: l2).
Proof.
  intros Hf Hnd. unfold enext.
  assert (Hall : Forall (fun e => orig e <= n) (l1 ++ Rt n :: x :: l2)).
  { apply Forall_app in Hf as [Hf1 Hf2]. inversion Hf2; subst. apply Forall_app; split.
    - eapply Forall_impl; [|exact Hf1]. cbn; intros; lia.
    - constructor; [cbn; lia|]. constructor; [lia|]. eapply Forall_impl; [|eassumption]. cbn; intros; lia. }
  rewrite (scan_is _ (length l1) (Rt n)); auto.
  - rewrite nth_error_mid. cbn [right Rt orig]. rewrite swap_mid. rewrite flip_id; auto.
    eapply Permutation_Forall; [|exact Hall]. apply Permutation_app_head, perm_swap.
  - assert (Hp : Permutation (n :: origs (l1 ++ x :: l2)) (origs (l1 ++ Rt n :: x :: l2))).
    { rewrite !map_app. cbn [map Rt orig]. apply Permutation_middle. }
    eapply Permutation_NoDup; [exact Hp|]. constructor; auto.
    intros Hin. apply in_map_iff in Hin as (e & He & Hin). rewrite Forall_forall in Hf.
    apply Hf in Hin. lia.
  - rewrite can_move_split. cbn [right Rt hd_error orig].
    apply Forall_app in Hf as [_ Hf]. inversion Hf; subst.
    replace (n <? orig x) with false by (symmetry; apply Nat.ltb_ge; lia). reflexivity.
  - apply nth_error_mid.
  - intros i e' _ Hi. exact (nth_error_Forall _ _ _ _ Hall Hi).
Qed.

(* n stuck at the left border *)
Lemma can_move_cons n es i : Forall (fun e => orig e < n) es ->
  can_move (Lf n :: es) (S i) = can_move es i.
Proof.
  intros Hf. destruct (nth_error es i) as [e|] eqn:E.
  - destruct (nth_error_split es i E) as (l1 & l2 & -> & <-).
    change (Lf n :: l1 ++ e :: l2) with ((Lf n :: l1) ++ e :: l2).
    change (S (length l1)) with (length (Lf n :: l1)). rewrite !can_move_split.
    destruct (right e); auto. cbn [rev]. destruct (rev l1); cbn [app hd_error Lf orig]; auto.
    apply Forall_app in Hf as [_ Hf]. inversion Hf; subst.
    replace (orig e <? n) with true by (symmetry; apply Nat.ltb_lt; lia). reflexivity.
  - unfold can_move. cbn [nth_error]. now rewrite E.
Qed.

Lemma can_move_snoc n es i : Forall (fun e => orig e < n) es -> i < length es ->
  can_move (es ++ [Rt n]) i = can_move es i.
Proof.
  intros Hf Hi. destruct (nth_error_lt es i Hi) as [e E].
  destruct (nth_error_split es i E) as (l1 & l2 & -> & <-).
  rewrite <- app_assoc. cbn [app]. rewrite !can_move_split.
  destruct (right e); auto. destruct l2; cbn [app hd_error Rt orig]; auto.
  apply Forall_app in Hf as [_ Hf]. inversion Hf; subst.
  replace (orig e <? n) with true by (symmetry; apply Nat.ltb_lt; lia). reflexivity.
Qed.

Lemma stuck_left n es : Forall (fun e => orig e < n) es -> NoDup (origs es) ->
  enext (Lf n :: es) = option_map (fun es' => Rt n :: es') (enext es).
Proof.
  intros Hf Hnd. unfold enext at 2. pose proof (scan_spec es) as Hs.
  assert (H0 : can_move (Lf n :: es) 0 = false) by reflexivity.
  destruct (scan es) as [[b bo]|].
  - destruct Hs as (Hm & (e & Hn & Ho) & Hmax). subst bo. rewrite Hn.
    assert (Hlt : orig e < n) by exact (nth_error_Forall _ _ _ _ Hf Hn).
    destruct (can_move_other _ _ _ Hm Hn) as [Hot Hpos].
    unfold enext. rewrite (scan_is _ (S b) e).
    + cbn [nth_error]. rewrite Hn.
      replace (if right e then S b + 1 else S b - 1) with (S (if right e then b + 1 else b - 1)).
      2:{ destruct (right e); [lia|]. specialize (Hpos eq_refl). lia. }
      rewrite swap_cons. destruct (swap es b _) as [l|]; [|reflexivity].
      unfold option_map. f_equal. cbn [flip_bigger map].
      cbn [orig Lf right]. replace (orig e <? n) with true by (symmetry; apply Nat.ltb_lt; lia).
      reflexivity.
    + cbn. constructor; auto. intros Hin. apply in_map_iff in Hin as (e' & He' & Hin).
      rewrite Forall_forall in Hf. apply Hf in Hin. lia.
    + rewrite can_move_cons; auto.
    + exact Hn.
    + intros [|i] e' Hmi Hni; [congruence|]. rewrite can_move_cons in Hmi by auto. cbn in Hni.
      exact (Hmax i e' (nth_error_some_lt _ _ _ Hni) Hmi Hni).
  - unfold enext. rewrite scan_is_none; [reflexivity|].
    intros [|i]; auto. rewrite can_move_cons by auto.
    destruct (can_move es i) eqn:E; auto. rewrite Hs in E; [discriminate|]. now apply can_move_lt.
Qed.

Lemma stuck_right n es : Forall (fun e => orig e < n) es -> NoDup (origs es) ->
  enext (es ++ [Rt n]) = option_map (fun es' => es' ++ [Lf n]) (enext es).
Proof.
  intros Hf Hnd. unfold enext at 2. pose proof (scan_spec es) as Hs.
  assert (H0 : can_move (es ++ [Rt n]) (length es) = false) by (rewrite can_move_split; reflexivity).
  assert (Hcase : forall i, can_move (es ++ [Rt n]) i = true -> i < length es).
  { intros i Hi. pose proof (can_move_lt _ _ Hi) as Hl. rewrite app_length in Hl. cbn in Hl.
    destruct (Nat.eq_dec i (length es)) as [->|]; [congruence|lia]. }
  destruct (scan es) as [[b bo]|].
  - destruct Hs as (Hm & (e & Hn & Ho) & Hmax). subst bo. rewrite Hn.
    assert (Hlt : orig e < n) by exact (nth_error_Forall _ _ _ _ Hf Hn).
    destruct (can_move_other _ _ _ Hm Hn) as [Hot Hpos].
    pose proof (nth_error_some_lt _ _ _ Hn) as Hbl.
    assert (Hn' : nth_error (es ++ [Rt n]) b = Some e) by (rewrite nth_error_app1; auto).
    unfold enext. rewrite (scan_is _ b e); auto.
    + rewrite Hn'. rewrite swap_app_l by auto. destruct (swap es b _) as [l|]; [|reflexivity].
      unfold option_map. f_equal. unfold flip_bigger. rewrite map_app. f_equal. cbn [map Rt orig right negb].
      replace (orig e <? n) with true by (symmetry; apply Nat.ltb_lt; lia). reflexivity.
    + rewrite map_app. cbn. apply (NoDup_Add (Add_app n (origs es) [])). rewrite app_nil_r. split; auto.
      intros Hin. apply in_map_iff in Hin as (e' & He' & Hin).
      rewrite Forall_forall in Hf. apply Hf in Hin. lia.
    + rewrite can_move_snoc; auto.
    + intros i e' Hmi Hni. pose proof (Hcase _ Hmi). rewrite can_move_snoc in Hmi by auto.
      rewrite nth_error_app1 in Hni by auto. exact (Hmax i e' (nth_error_some_lt _ _ _ Hni) Hmi Hni).
  - unfold enext. rewrite scan_is_none; [reflexivity|].
    intros i. destruct (can_move (es ++ [Rt n]) i) eqn:E; auto. pose proof (Hcase _ E).
    rewrite can_move_snoc in E by auto. rewrite Hs in E; auto.
Qed.

(* ---------- complete runs ---------- *)
Inductive Run : list permElem -> list (list permElem) -> Prop :=
| Run_end es : enext es = None -> Run es [es]
| Run_step es es' L : enext es = Some es' -> Run es' L -> Run es (es :: L).

Definition ins {A} (p : nat) (x : A) (l : list A) := firstn p l ++ x :: skipn p l.

Definition down (k : nat) := rev (seq 0 (S k)).
Lemma down_S k : down (S k) = S k :: down k.
Proof. unfold down. rewrite (seq_S (S k) 0), rev_app_distr. reflexivity. Qed.

Lemma ins_S_l {A} (l : list A) p n : S p <= length l -> exists l1 x l2,
  l = l1 ++ x :: l2 /\ length l1 = p /\ ins (S p) n l = l1 ++ x :: n :: l2 /\ ins p n l = l1 ++ n :: x :: l2.
Proof.
  intros H. destruct (nth_error_lt l p) as [x Hx]; [lia|].
  destruct (nth_error_split l p Hx) as (l1 & l2 & -> & <-). exists l1, x, l2.
  split; auto. split; auto. unfold ins.
  rewrite !firstn_app, !skipn_app, !skipn_all2, !firstn_all2 by lia.
  replace (S (length l1) - length l1) with 1 by lia. rewrite Nat.sub_diag. cbn.
  rewrite <- !app_assoc, firstn_all, skipn_all. cbn. auto.
Qed.

Lemma run_left n es rest : Forall (fun e => orig e < n) es -> NoDup (origs es) ->
  forall p, p <= length es ->
  Run (ins 0 (Lf n) es) (ins 0 (Lf n) es :: rest) ->
  Run (ins p (Lf n) es) (map (fun p => ins p (Lf n) es) (down p) ++ rest).
Proof.
  intros Hf Hnd p. induction p as [|p IH]; intros Hp Hr; [exact Hr|].
  rewrite down_S. cbn [map app]. econstructor; [|apply IH; auto; lia].
  destruct (ins_S_l es p (Lf n)) as (l1 & x & l2 & -> & Hl & -> & ->); [lia|].
  now apply sweep_left.
Qed.

Lemma run_right n es rest : Forall (fun e => orig e < n) es -> NoDup (origs es) ->
  forall k p, p + k = length es ->
  Run (ins (length es) (Rt n) es) (ins (length es) (Rt n) es :: rest) ->
  Run (ins p (Rt n) es) (map (fun p => ins p (Rt n) es) (seq p (S k)) ++ rest).
Proof.
  intros Hf Hnd k. induction k as [|k IH]; intros p Hp Hr.
  - replace p with (length es) by lia. exact Hr.
  - rewrite <- cons_seq. cbn [map app]. econstructor; [|apply IH; auto; lia].
    destruct (ins_S_l es p (Rt n)) as (l1 & x & l2 & -> & Hl & -> & ->); [lia|].
    now apply sweep_right.
Qed.

Definition sweep (b : bool) n (es : list permElem) :=
  if b then map (fun p => ins p (Rt n) es) (seq 0 (S (length es)))
  else map (fun p => ins p (Lf n) es) (down (length es)).

Fixpoint expand (b : bool) n (L : list (list permElem)) :=
  match L with [] => [] | es :: L' => sweep b n es ++ expand (negb b) n L' end.

Lemma ins_0 {A} (x : A) l : ins 0 x l = x :: l.
Proof. reflexivity. Qed.
Lemma ins_len {A} (x : A) l : ins (length l) x l = l ++ [x].
Proof. unfold ins. rewrite firstn_all, skipn_all. reflexivity. Qed.

Lemma run_head es L : Run es L -> exists L', L = es :: L'.
Proof. destruct 1; eauto. Qed.

Lemma sweep_true_head n es : exists r, sweep true n es = ins 0 (Rt n) es :: r.
Proof. unfold sweep. rewrite <- cons_seq. cbn [map]. eauto. Qed.
Lemma sweep_false_head n es : exists r, sweep false n es = ins (length es) (Lf n) es :: r.
Proof.
  unfold sweep. destruct (length es) as [|k]; [cbn; eauto|]. rewrite down_S. cbn [map]. eauto.
Qed.

Lemma run_expand n es L : Run es L -> Forall (fun e => orig e < n) es -> NoDup (origs es) ->
  Run (es ++ [Lf n]) (expand false n L) /\ Run (Rt n :: es) (expand true n L).
Proof.
  intros Hr. induction Hr as [es Hn|es es' L Hn Hr IH]; intros Hf Hnd.
  - cbn [expand]. rewrite !app_nil_r. split.
    + rewrite <- ins_len. rewrite <- (app_nil_r (sweep false n es)). apply run_left; auto.
      constructor. rewrite ins_0, stuck_left, Hn by auto. reflexivity.
    + rewrite <- ins_0. rewrite <- (app_nil_r (sweep true n es)). apply run_right; auto.
      constructor. rewrite ins_len, stuck_right, Hn by auto. reflexivity.
  - pose proof (enext_perm _ _ Hn) as Hp.
    destruct IH as [IH1 IH2].
    + rewrite Forall_forall in *. intros e He.
      assert (Hin : In (orig e) (origs es)).
      { eapply Permutation_in; [symmetry; exact Hp|]. now apply in_map. }
      apply in_map_iff in Hin as (e0 & He0 & Hin0). rewrite <- He0. auto.
    + eapply Permutation_NoDup; eauto.
    + cbn [expand negb]. split.
      * rewrite <- ins_len. unfold sweep. apply run_left; auto.
        econstructor; [|exact IH2]. rewrite ins_0, stuck_left, Hn by auto. reflexivity.
      * rewrite <- ins_0. unfold sweep. apply run_right; auto.
        econstructor; [|exact IH1]. rewrite ins_len, stuck_right, Hn by auto. reflexivity.
Qed.

(* ---------- counting the orderings ---------- *)
Definition osweep (b : bool) n (o : list nat) :=
  map (fun p => ins p n o) (if b then seq 0 (S (length o)) else down (length o)).
Fixpoint oexpand (b : bool) n (L : list (list nat)) :=
  match L with [] => [] | o :: L' => osweep b n o ++ oexpand (negb b) n L' end.

Lemma map_ins {A C} (f : A -> C) p x l : map f (ins p x l) = ins p (f x) (map f l).
Proof. unfold ins. now rewrite map_app, firstn_map; cbn; rewrite skipn_map. Qed.

Lemma sweep_origs b n es : map origs (sweep b n es) = osweep b n (origs es).
Proof.
  unfold sweep, osweep. rewrite map_length. destruct b; rewrite map_map; apply map_ext;
    intros p; now rewrite map_ins.
Qed.

Lemma expand_origs n L : forall b, map origs (expand b n L) = oexpand b n (map origs L).
Proof.
  induction L as [|es L IH]; intros b; cbn [expand oexpand map]; auto.
  rewrite map_app, sweep_origs, IH. reflexivity.
Qed.

Lemma in_osweep b n o x : In x (osweep b n o) <-> exists p, p <= length o /\ x = ins p n o.
Proof.
  unfold osweep, down. rewrite in_map_iff. split.
  - intros (p & <- & Hin). exists p. split; auto.
    destruct b; [|apply in_rev in Hin]; apply in_seq in Hin; lia.
  - intros (p & Hp & ->). exists p. split; auto.
    destruct b; [|rewrite <- in_rev]; apply in_seq; lia.
Qed.

Lemma in_oexpand n L x : forall b,
  In x (oexpand b n L) <-> exists o p, In o L /\ p <= length o /\ x = ins p n o.
Proof.
  induction L as [|o L IH]; intros b; cbn [oexpand].
  - split; [intros []|intros (? & ? & [] & _)].
  - rewrite in_app_iff, in_osweep, IH. split.
    + intros [(p & Hp & ->)|(o' & p & Hin & Hp & ->)]; [exists o, p|exists o', p]; cbn; auto.
    + intros (o' & p & [<-|Hin] & Hp & ->); [left; eauto|right; eauto].
Qed.

Lemma ins_remove n p o : ~ In n o -> filter (fun x => negb (x =? n)) (ins p n o) = o.
Proof.
  intros Hni. unfold ins. rewrite filter_app. cbn. rewrite Nat.eqb_refl. cbn.
  rewrite <- filter_app, firstn_skipn.
  induction o as [|a o IH]; cbn; auto. cbn in Hni.
  replace (a =? n) with false by (symmetry; apply Nat.eqb_neq; tauto). cbn. f_equal. apply IH. tauto.
Qed.

Lemma firstn_prefix_in (n : nat) p q (o1 o2 : list nat) : p < q -> ~ In n o1 -> p <= length o1 ->
  ins p n o1 = ins q n o2 -> q <= length o2 -> ~ In n o2 -> False.
Proof.
  intros Hpq Hni Hp He Hq Hni2.
  assert (H : nth_error (ins p n o1) p = Some n).
  { unfold ins. rewrite nth_error_app2; rewrite firstn_length; [|lia].
    now replace (p - Nat.min p (length o1)) with 0 by lia. }
  rewrite He in H. unfold ins in H. rewrite nth_error_app1 in H by (rewrite firstn_length; lia).
  apply nth_error_In in H. apply Hni2. rewrite <- (firstn_skipn q o2). apply in_or_app; auto.
Qed.

Lemma ins_inj (n : nat) p q o1 o2 : ~ In n o1 -> ~ In n o2 -> p <= length o1 -> q <= length o2 ->
  ins p n o1 = ins q n o2 -> p = q /\ o1 = o2.
Proof.
  intros H1 H2 Hp Hq He. split.
  - destruct (lt_eq_lt_dec p q) as [[Hlt|]|Hlt]; auto; exfalso.
    + exact (firstn_prefix_in n p q o1 o2 Hlt H1 Hp He Hq H2).
    + exact (firstn_prefix_in n q p o2 o1 Hlt H2 Hq (eq_sym He) Hp H1).
  - rewrite <- (ins_remove n p o1 H1), <- (ins_remove n q o2 H2), He. reflexivity.
Qed.

Lemma nodup_app {A} (l1 l2 : list A) : NoDup l1 -> NoDup l2 ->
  (forall x, In x l1 -> In x l2 -> False) -> NoDup (l1 ++ l2).
Proof.
  induction 1 as [|x l1 Hx Hnd IH]; cbn; auto. intros H2 Hd. constructor.
  - rewrite in_app_iff. intros [H|H]; [auto|]. eapply Hd; eauto.
  - apply IH; auto. intros y Hy Hy'. eapply Hd; eauto.
Qed.

Lemma nodup_map_inj {A C} (f : A -> C) l : (forall x y, In x l -> In y l -> f x = f y -> x = y) ->
  NoDup l -> NoDup (map f l).
Proof.
  intros Hi Hnd. induction Hnd as [|x l Hx Hnd IH]; cbn; constructor.
  - intros H. apply in_map_iff in H as (y & He & Hin). assert (y = x) by (apply Hi; cbn; auto). subst; auto.
  - apply IH. intros a b Ha Hb. apply Hi; cbn; auto.
Qed.

Lemma osweep_nodup b n o : ~ In n o -> NoDup (osweep b n o).
Proof.
  intros Hni. unfold osweep. apply nodup_map_inj.
  - intros p q Hp Hq He.
    assert (p <= length o /\ q <= length o) as [Hp' Hq'].
    { destruct b; [|unfold down in *; apply in_rev in Hp; apply in_rev in Hq];
      apply in_seq in Hp; apply in_seq in Hq; lia. }
    eapply ins_inj; eauto.
  - destruct b; [apply seq_NoDup|]. unfold down. apply NoDup_rev, seq_NoDup.
Qed.

Lemma oexpand_nodup n L : forall b, NoDup L -> Forall (fun o => ~ In n o) L -> NoDup (oexpand b n L).
Proof.
  induction L as [|o L IH]; intros b Hnd Hf; cbn [oexpand]; [constructor|].
  inversion Hnd as [|? ? Hni Hnd']; subst. inversion Hf as [|? ? Hno Hf']; subst.
  apply nodup_app.
  - now apply osweep_nodup.
  - now apply IH.
  - intros x H1 H2. apply in_osweep in H1 as (p & Hp & ->).
    apply in_oexpand in H2 as (o' & q & Hin & Hq & He).
    apply ins_inj in He; auto.
    + destruct He as [_ <-]. contradiction.
    + rewrite Forall_forall in Hf'. auto.
Qed.

Lemma osweep_length b n o : length (osweep b n o) = S (length o).
Proof. unfold osweep, down. rewrite map_length. destruct b; rewrite ?rev_length, seq_length; auto. Qed.

Lemma oexpand_length n m L : forall b, Forall (fun o => length o = m) L ->
  length (oexpand b n L) = S m * length L.
Proof.
  induction L as [|o L IH]; intros b Hf; cbn [oexpand length]; [lia|].
  inversion Hf; subst. rewrite app_length, osweep_length, IH by auto. lia.
Qed.

Lemma ins_permutation n p (o : list nat) : Permutation (ins p n o) (n :: o).
Proof.
  unfold ins. rewrite <- Permutation_middle. now rewrite firstn_skipn.
Qed.

Definition init_elems n := map (fun i => PE false i) (seq 0 n).

Lemma init_S n : init_elems (S n) = init_elems n ++ [Lf n].
Proof. unfold init_elems. rewrite seq_S, map_app. reflexivity. Qed.

Lemma init_origs n : origs (init_elems n) = seq 0 n.
Proof. unfold init_elems. rewrite map_map. cbn. apply map_id. Qed.

Lemma all_orders n : exists L, Run (init_elems n) L /\ length L = fact n /\
  NoDup (map origs L) /\ (forall o, In o (map origs L) <-> Permutation (seq 0 n) o).
Proof.
  induction n as [|n (L & Hrun & Hlen & Hnd & Hin)].
  - exists [[]]. split; [constructor; reflexivity|]. split; [reflexivity|]. cbn. split.
    + constructor; [tauto|constructor].
    + intros o. split; [intros [<-|[]]; constructor|]. intros Hp. apply Permutation_nil in Hp. auto.
  - exists (expand false n L).
    assert (Hf : Forall (fun e => orig e < n) (init_elems n)).
    { apply Forall_forall. intros e He. unfold init_elems in He. apply in_map_iff in He as (i & <- & Hi).
      apply in_seq in Hi. cbn. lia. }
    assert (Hni : forall o, In o (map origs L) -> ~ In n o).
    { intros o Ho Hn. apply Hin in Ho. apply (Permutation_in (l' := seq 0 n)) in Hn; [|now symmetry].
      apply in_seq in Hn. lia. }
    assert (Hlo : forall o, In o (map origs L) -> length o = n).
    { intros o Ho. apply Hin in Ho. apply Permutation_length in Ho. now rewrite seq_length in Ho. }
    split; [|split; [|split]].
    + rewrite init_S. apply run_expand; auto. rewrite init_origs. apply seq_NoDup.
    + rewrite <- (map_length origs), expand_origs, (oexpand_length n n).
      * rewrite map_length, Hlen. reflexivity.
      * apply Forall_forall. auto.
    + rewrite expand_origs. apply oexpand_nodup; auto. apply Forall_forall; auto.
    + intros o. rewrite expand_origs, in_oexpand. split.
      * intros (o' & p & Ho & Hp & ->). rewrite ins_permutation. apply Hin in Ho.
        rewrite seq_S. cbn [plus]. rewrite Permutation_app_comm. cbn. now constructor.
      * intros Hp. assert (Hn : In n o).
        { eapply Permutation_in; [exact Hp|]. apply in_seq. lia. }
        apply in_split in Hn as (l1 & l2 & ->). exists (l1 ++ l2), (length l1). split; [|split].
        -- apply Hin. rewrite seq_S in Hp. cbn [plus] in Hp.
           apply Permutation_app_inv in Hp. now rewrite app_nil_r in Hp.
        -- rewrite app_length. lia.
        -- unfold ins. rewrite firstn_app, skipn_app, Nat.sub_diag, firstn_all, skipn_all. cbn.
           now rewrite app_nil_r.
Qed.

(* ---------- calls of the closure ---------- *)
Section Calls.
  Context {T : Type}.
  Implicit Types f : nat -> T.

  Lemma calls_exhausted f es k : enext es = None ->
    calls k (Gen false (map f (origs es)) es) = Ok (repeat (false, map f (origs es)) k).
  Proof.
    intros Hn. induction k as [|k IH]; [reflexivity|]. cbn [calls call first inplace elems].
    rewrite next_enext, Hn. cbn [rbind]. rewrite IH. reflexivity.
  Qed.

  Lemma calls_run f es L : Run es L -> forall k,
    exists lst, (exists L0, L = L0 ++ [lst]) /\
    calls k (Gen false (map f (origs es)) es) =
      Ok (firstn k (map (fun e => (true, map f (origs e))) (tl L)) ++
          repeat (false, map f (origs lst)) (k - length (tl L))).
  Proof.
    induction 1 as [es Hn|es es' L Hn Hr IH]; intros k.
    - exists es. split; [exists []; reflexivity|]. cbn [tl map length]. rewrite firstn_nil, Nat.sub_0_r.
      now apply calls_exhausted.
    - destruct (run_head _ _ Hr) as [L' ->].
      destruct (IH (k - 1)) as (lst & (L0 & HL0) & Hc). exists lst. split.
      { exists (es :: L0). now rewrite HL0. }
      destruct k as [|k]; [reflexivity|].
      cbn [calls call first inplace elems]. rewrite next_enext, Hn. cbn [rbind].
      replace (S k - 1) with k in Hc by lia. cbn [inplace]. rewrite Hc. cbn [rbind tl map firstn length].
      reflexivity.
  Qed.

  Definition pick (a : list T) (o : list nat) : list (option T) := map (nth_error a) o.

  Lemma pick_nth d (a : list T) (o : list nat) : (forall i, In i o -> i < length a) ->
    pick a o = map Some (map (fun i => nth i a d) o).
  Proof.
    intros H. unfold pick. rewrite map_map. apply map_ext_in. intros i Hi.
    now apply nth_error_nth', H.
  Qed.

  Lemma map_nth_seq d (a : list T) : map (fun i => nth i a d) (seq 0 (length a)) = a.
  Proof.
    apply nth_error_ext. intros p. rewrite nth_error_map.
    destruct (lt_dec p (length a)) as [Hp|Hp].
    - rewrite (nth_error_nth' (seq 0 (length a)) 0) by (now rewrite seq_length). cbn.
      rewrite seq_nth by auto. cbn. symmetry. now apply nth_error_nth'.
    - rewrite (proj2 (nth_error_None (seq 0 (length a)) p)) by (rewrite seq_length; lia).
      cbn. symmetry. apply nth_error_None. lia.
  Qed.
End Calls.

Lemma map_eq_last {A} (l0 l1 : list A) x y : l0 ++ [x] = l1 ++ [y] -> l0 = l1 /\ x = y.
Proof. apply app_inj_tail. Qed.

(* The complete behaviour of the iterator. *)
Lemma permute_calls {T} (a : list T) :
  exists orders : list (list nat),
    hd [] orders = seq 0 (length a) /\
    length orders = fact (length a) /\
    NoDup orders /\
    (forall o, In o orders <-> Permutation (seq 0 (length a)) o) /\
    forall k, exists obs, calls k (Permute a) = Ok obs /\ length obs = k /\
      forall i b s, nth_error obs i = Some (b, s) ->
        b = (i <? length orders) /\
        map Some s = pick a (nth (Nat.min i (length orders - 1)) orders []).
Proof.
  destruct (all_orders (length a)) as (L & Hrun & Hlen & Hnd & Hin).
  exists (map origs L). destruct (run_head _ _ Hrun) as [L' HL].
  split. { rewrite HL. cbn. apply init_origs. }
  split. { now rewrite map_length. }
  split; auto. split; auto.
  destruct a as [|d a0] eqn:Ea.
  - (* no element: the slice never changes *)
    assert (HLe : L = [[]]).
    { inversion Hrun as [? ? H1|? ? ? H1]; subst; auto. discriminate. }
    rewrite HLe. clear.
    assert (Hc : forall k, calls k (@Gen T false [] []) = Ok (repeat (false, []) k)).
    { induction k as [|k IH]; [reflexivity|]. cbn [calls call first inplace elems].
      change (next [] (@nil T)) with (Ok (false, @nil permElem, @nil T)). cbn [rbind].
      rewrite IH. reflexivity. }
    intros [|k].
    { exists []. split; [reflexivity|]. split; [reflexivity|]. intros [|i]; discriminate. }
    cbn [calls call Permute first inplace elems length seq map rbind]. rewrite Hc. cbn [rbind].
    eexists. split; [reflexivity|]. split; [cbn; now rewrite repeat_length|].
    intros [|i] b s Hn; cbn [nth_error] in Hn.
    + inversion Hn; subst. split; reflexivity.
    + apply nth_error_In, repeat_spec in Hn. inversion Hn; subst. split; [reflexivity|].
      reflexivity.
  - rewrite <- Ea in *. clear Ea a0.
    set (f := fun i => nth i a d).
    assert (Hpick : forall o, In o (map origs L) -> map Some (map f o) = pick a o).
    { intros o Ho. symmetry. apply pick_nth. intros i Hi. apply Hin in Ho.
      apply (Permutation_in (l' := seq 0 (length a))) in Hi; [|now symmetry].
      apply in_seq in Hi. lia. }
    assert (Hstart : Permute a = Gen true (map f (origs (init_elems (length a)))) (init_elems (length a))).
    { unfold Permute. rewrite init_origs. unfold f. rewrite map_nth_seq. reflexivity. }
    intros [|k].
    { exists []. split; [reflexivity|]. split; [reflexivity|]. intros [|i]; discriminate. }
    destruct (calls_run f _ _ Hrun k) as (lst & (L0 & HL0) & Hc).
    rewrite Hstart. cbn [calls call first inplace elems rbind]. rewrite Hc. cbn [rbind].
    eexists. split; [reflexivity|].
    assert (Hlast : nth (length L - 1) (map origs L) [] = origs lst).
    { rewrite HL0, map_app, app_length. cbn. rewrite app_nth2; rewrite map_length; [|lia].
      replace (length L0 + 1 - 1 - length L0) with 0 by lia. reflexivity. }
    assert (Hlst_in : In (origs lst) (map origs L)).
    { rewrite HL0, map_app. apply in_or_app. cbn; auto. }
    rewrite HL in *. cbn [tl] in *. cbn [length] in *.
    set (n := length L') in *.
    split. { cbn. rewrite app_length, firstn_length, repeat_length, map_length. fold n. lia. }
    intros [|i] b s Hn; cbn [nth_error] in Hn.
    + inversion Hn; subst. rewrite map_length. cbn [length]. split; [reflexivity|].
      cbn [Nat.min map nth]. apply Hpick. cbn; auto.
    + rewrite map_length. cbn [length]. fold n. replace (S n - 1) with n in * by lia.
      destruct (lt_dec i (Nat.min k n)) as [Hi|Hi].
      * rewrite nth_error_app1 in Hn by (rewrite firstn_length, map_length; fold n; lia).
        assert (Hn2 : nth_error (map (fun e => (true, map f (origs e))) L') i = Some (b, s)).
        { rewrite <- Hn. clear -Hi. revert L' n k Hi. induction i as [|i IH]; intros [|x L'] n [|k] Hi; cbn in *; try lia; auto.
          apply (IH L' k). lia. }
        rewrite nth_error_map in Hn2. destruct (nth_error L' i) as [e|] eqn:Ee; [|discriminate].
        cbn in Hn2. inversion Hn2; subst. replace (S i <? S n) with true by (symmetry; apply Nat.ltb_lt; lia).
        split; auto. replace (Nat.min (S i) n) with (S i) by lia. cbn [map nth].
        rewrite (nth_indep _ [] (origs [])) by (rewrite map_length; fold n; lia).
        rewrite map_nth. rewrite (nth_error_nth _ _ _ Ee). apply Hpick. cbn. right.
        apply in_map. eapply nth_error_In; eauto.
      * rewrite nth_error_app2 in Hn by (rewrite firstn_length, map_length; fold n; lia).
        pose proof (nth_error_some_lt _ _ _ Hn) as Hlt. rewrite repeat_length in Hlt.
        apply nth_error_In, repeat_spec in Hn. inversion Hn; subst b s.
        replace (S i <? S n) with false by (symmetry; apply Nat.ltb_ge; lia). split; auto.
        replace (Nat.min (S i) n) with n by lia. rewrite Hlast. now apply Hpick.
Qed.
