From Coq Require Import Bool Arith ZArith Lia List Permutation.
From Verif Require Import Prelude PreludeFacts ListsModel ListsSpec.
Import ListNotations.

(* ---------- Reverse ---------- *)
Section Rev.
  Context {T : Type}.
  Implicit Types a : list T.

  Lemma nth_error_rev a p :
    nth_error (rev a) p = if p <? length a then nth_error a (length a - 1 - p) else None.
  Proof.
    destruct (p <? length a) eqn:E.
    - apply Nat.ltb_lt in E. destruct a as [|x0 a0] eqn:Ea; [cbn in E; lia|]. rewrite <- Ea in *.
      rewrite (nth_error_nth' (rev a) x0) by (rewrite rev_length; lia).
      rewrite rev_nth by lia.
      rewrite (nth_error_nth' a x0) by lia. do 2 f_equal. lia.
    - apply Nat.ltb_ge in E. apply nth_error_None. rewrite rev_length. lia.
  Qed.

  Lemma reverse_loop_ok a0 n : forall i a,
    length a = length a0 ->
    i + n = length a0 / 2 ->
    (forall p, p < length a0 -> nth_error a p =
      if (p <? i) || (length a0 - i <=? p) then nth_error a0 (length a0 - 1 - p) else nth_error a0 p) ->
    reverse_loop n i (length a0 - 1 - i) a = Ok (rev a0).
  Proof.
    induction n as [|n IH]; intros i a Hlen Hin Hinv; cbn [reverse_loop].
    - f_equal. apply nth_error_ext. intros p. rewrite nth_error_rev.
      destruct (p <? length a0) eqn:E.
      + apply Nat.ltb_lt in E. rewrite Hinv by auto.
        destruct (p <? i) eqn:E1; cbn; auto. destruct (length a0 - i <=? p) eqn:E2; auto.
        apply Nat.ltb_ge in E1. apply Nat.leb_gt in E2.
        pose proof (Nat.div_mod (length a0) 2 ltac:(lia)) as Hd.
        pose proof (Nat.mod_upper_bound (length a0) 2 ltac:(lia)). f_equal. lia.
      + apply Nat.ltb_ge in E. apply nth_error_None. lia.
    - pose proof (Nat.div_mod (length a0) 2 ltac:(lia)) as Hd.
      pose proof (Nat.mod_upper_bound (length a0) 2 ltac:(lia)) as Hm.
      assert (Hi : i < length a) by lia.
      assert (Hj : length a0 - 1 - i < length a) by lia.
      destruct (swap_ok a i (length a0 - 1 - i) Hi Hj) as [a' Ha']. rewrite Ha'. cbn [rbind].
      pose proof (swap_inv _ _ _ _ Ha') as (_ & _ & Hl).
      replace (length a0 - 1 - i - 1) with (length a0 - 1 - (i + 1)) by lia.
      apply IH; [lia|lia|].
      intros p Hp. rewrite (swap_nth _ _ _ _ p Ha').
      destruct (p =? length a0 - 1 - i) eqn:E1.
      + apply Nat.eqb_eq in E1. rewrite Hinv by lia.
        replace (i <? i) with false by (symmetry; apply Nat.ltb_ge; lia).
        replace (length a0 - i <=? i) with false by (symmetry; apply Nat.leb_gt; lia). cbn [orb].
        replace (length a0 - (i + 1) <=? p) with true by (symmetry; apply Nat.leb_le; lia).
        rewrite orb_true_r. f_equal. lia.
      + apply Nat.eqb_neq in E1. destruct (p =? i) eqn:E2.
        * apply Nat.eqb_eq in E2. subst p. rewrite Hinv by lia.
          replace (length a0 - 1 - i <? i) with false by (symmetry; apply Nat.ltb_ge; lia).
          replace (length a0 - i <=? length a0 - 1 - i) with false by (symmetry; apply Nat.leb_gt; lia).
          cbn [orb]. replace (i <? i + 1) with true by (symmetry; apply Nat.ltb_lt; lia). reflexivity.
        * apply Nat.eqb_neq in E2. rewrite Hinv by lia.
          replace (p <? i + 1) with (p <? i)
            by (destruct (p <? i) eqn:?, (p <? i + 1) eqn:?; auto;
                repeat match goal with
                | H : (_ <? _) = true |- _ => apply Nat.ltb_lt in H
                | H : (_ <? _) = false |- _ => apply Nat.ltb_ge in H end; lia).
          replace (length a0 - (i + 1) <=? p) with (length a0 - i <=? p)
            by (destruct (length a0 - i <=? p) eqn:?, (length a0 - (i + 1) <=? p) eqn:?; auto;
                repeat match goal with
                | H : (_ <=? _) = true |- _ => apply Nat.leb_le in H
                | H : (_ <=? _) = false |- _ => apply Nat.leb_gt in H end; lia).
          reflexivity.
  Qed.

  Lemma Reverse_rev a : Reverse a = Ok (rev a).
  Proof.
    unfold Reverse. replace (length a - 1) with (length a - 1 - 0) by lia.
    apply reverse_loop_ok; auto. intros p Hp. cbn [Nat.ltb Nat.leb orb].
    replace (length a - 0 <=? p) with false by (symmetry; apply Nat.leb_gt; lia). reflexivity.
  Qed.
End Rev.

(* ---------- Split ---------- *)
Section SplitProofs.
  Context {T : Type}.
  Implicit Types l : list T.

  Definition ceil (n m : nat) := (n + m - 1) / m.

  Lemma ceil_spec n m : 0 < m -> 0 < n -> (ceil n m - 1) * m < n /\ n <= ceil n m * m /\ 0 < ceil n m.
  Proof.
    intros Hm Hn. unfold ceil.
    pose proof (Nat.div_mod (n + m - 1) m ltac:(lia)) as Hd.
    pose proof (Nat.mod_upper_bound (n + m - 1) m ltac:(lia)) as Hr.
    set (q := (n + m - 1) / m) in *. set (r := (n + m - 1) mod m) in *.
    assert (0 < q) by (destruct q; nia). split; [nia|]. split; [nia|lia].
  Qed.

  Lemma split_loop_spec l c n : forall i,
    0 < c -> (i + n - 1) * c < length l -> length l <= (i + n) * c -> 0 < n ->
    exists out, split_loop l c n i = Ok out /\ length out = n /\
      concat out = skipn (i * c) l /\
      exists init lst, out = init ++ [lst] /\
        Forall (fun x => length x = c) init /\ 0 < length lst <= c.
  Proof.
    induction n as [|n IH]; intros i Hc H1 H2 Hn; [lia|].
    cbn [split_loop].
    set (stop := if length l <? i * c + c then length l else i * c + c).
    assert (Hstop : stop = Nat.min (length l) (i * c + c)).
    { unfold stop. destruct (length l <? i * c + c) eqn:E;
        [apply Nat.ltb_lt in E|apply Nat.ltb_ge in E]; lia. }
    assert (Hs : i * c < length l) by nia.
    rewrite slice_ok by lia. cbn [rbind].
    destruct n as [|n].
    - cbn [split_loop rbind]. eexists; split; [reflexivity|]. split; [reflexivity|].
      replace stop with (length l) by nia. rewrite <- skipn_length.
      rewrite firstn_all. split; [cbn; now rewrite app_nil_r|].
      exists [], (skipn (i * c) l). split; [reflexivity|]. split; [constructor|].
      rewrite skipn_length. nia.
    - destruct (IH (i + 1)) as (out & Ho & Hlen & Hcat & init & lst & Hsp & Hall & Hlst);
        [lia|nia|nia|lia|].
      rewrite Ho. cbn [rbind]. eexists; split; [reflexivity|]. split; [cbn; lia|].
      assert (Hst : stop = i * c + c) by nia.
      split.
      + cbn [concat]. rewrite Hcat, Hst.
        replace (i * c + c - i * c) with c by lia.
        replace ((i + 1) * c) with (c + i * c) by lia.
        rewrite <- (firstn_skipn c (skipn (i * c) l)) at 2.
        rewrite skipn_skipn. reflexivity.
      + exists (firstn (stop - i * c) (skipn (i * c) l) :: init), lst.
        rewrite Hsp. split; [reflexivity|]. split; auto. constructor; auto.
        rewrite firstn_length, skipn_length. lia.
  Qed.

  Lemma concat_length_le (out : list (list T)) m :
    Forall (fun c => length c <= m) out -> length (concat out) <= length out * m.
  Proof. induction 1; cbn; [lia|]. rewrite app_length. lia. Qed.

  Lemma split_spec l max : (0 < max)%Z ->
    exists out, Split l max = Ok out /\
      concat out = l /\
      Forall (fun c => (Z.of_nat (length c) <= max)%Z) out /\
      (l <> [] -> Forall (fun c => c <> []) out) /\
      (forall out', l <> [] -> concat out' = l ->
         Forall (fun c => (Z.of_nat (length c) <= max)%Z) out' -> length out <= length out') /\
      (exists init lst, out = init ++ [lst] /\
         Forall (fun c => length c = length (hd [] out)) init /\
         length lst <= length (hd [] out)) /\
      (forall out', concat out' = l -> length out' = length out ->
         Exists (fun c => length (hd [] out) <= length c) out').
  Proof.
    intros Hmax. unfold Split.
    replace (max <=? 0)%Z with false by (symmetry; apply Z.leb_gt; lia).
    destruct (Z.of_nat (length l) <=? max)%Z eqn:E.
    - apply Z.leb_le in E. exists [l]. split; [reflexivity|]. cbn [concat hd].
      rewrite app_nil_r. split; [reflexivity|]. split; [auto|]. split; [auto|].
      split.
      { intros out' Hne Hc _. cbn. destruct out'; cbn in *; [congruence|lia]. }
      split. { exists [], l. split; auto. }
      intros out' Hc Hl. destruct out' as [|x [|]]; cbn in Hl; try lia.
      cbn in Hc. rewrite app_nil_r in Hc. subst. constructor. lia.
    - apply Z.leb_gt in E.
      set (m := Z.to_nat max). assert (Hm : 0 < m) by lia. assert (Hlm : m < length l) by lia.
      change ((length l + m - 1) / m) with (ceil (length l) m).
      destruct (ceil_spec (length l) m) as (Hb1 & Hb2 & Hb3); [lia|lia|].
      set (b := ceil (length l) m) in *.
      change ((length l + b - 1) / b) with (ceil (length l) b).
      destruct (ceil_spec (length l) b) as (Hc1 & Hc2 & Hc3); [lia|lia|].
      set (c := ceil (length l) b) in *.
      assert (Hcm : c <= m) by nia.
      destruct (split_loop_spec l c b 0) as (out & Ho & Hlen & Hcat & init & lst & Hsp & Hall & Hlst);
        [lia|nia|nia|lia|].
      exists out. split; auto.
      assert (Hfirst : init <> [] -> length (hd [] out) = c).
      { intros Hne. destruct init as [|x init]; [congruence|]. subst out. cbn.
        inversion Hall; auto. }
      assert (Hinit : init <> []).
      { intros ->. cbn in Hsp. subst out. cbn in Hlen. cbn in Hcat. rewrite app_nil_r in Hcat.
        subst lst. nia. }
      specialize (Hfirst Hinit).
      split; [rewrite Hcat; reflexivity|].
      split.
      { subst out. apply Forall_app; split; [|repeat constructor; lia].
        eapply Forall_impl; [|exact Hall]. cbn; intros; lia. }
      split.
      { intros _. subst out. apply Forall_app; split.
        - eapply Forall_impl; [|exact Hall]. cbn; intros a Ha ->. cbn in Ha. lia.
        - repeat constructor. intros ->. cbn in Hlst. lia. }
      split.
      { intros out' _ Hc' Hf. rewrite Hlen.
        assert (Hle : length (concat out') <= length out' * m).
        { apply concat_length_le. eapply Forall_impl; [|exact Hf]. cbn; intros; lia. }
        rewrite Hc' in Hle. nia. }
      split.
      { exists init, lst. rewrite Hfirst. split; auto. split; auto. lia. }
      intros out' Hc' Hl'. rewrite Hfirst.
      destruct (Exists_dec (fun x : list T => c <= length x) out') as [He|Hn]; [intros x; destruct (le_lt_dec c (length x)); [left|right]; lia|exact He|].
      exfalso. apply Forall_Exists_neg in Hn.
      assert (Hle : length (concat out') <= length out' * (c - 1)).
      { apply concat_length_le. eapply Forall_impl; [|exact Hn]. cbn; intros; lia. }
      rewrite Hc', Hl', Hlen in Hle. nia.
  Qed.

  Lemma split_panics l max : (max <= 0)%Z -> Split l max = Panic.
  Proof. intros H. unfold Split. apply Z.leb_le in H. now rewrite H. Qed.

  Lemma flatten_concat (g : list (list T)) : Flatten g = concat g.
  Proof.
    unfold Flatten. assert (H : forall acc, fold_left (fun out group => out ++ group) g acc = acc ++ concat g).
    { induction g as [|x g IH]; cbn; intros acc; [now rewrite app_nil_r|].
      rewrite IH. now rewrite app_assoc. }
    apply (H []).
  Qed.
End SplitProofs.

(* ---------- Contains, AddUnique, Copy ---------- *)
Section Uniq.
  Context {T : Type} (eqb : T -> T -> bool) (Heq : eqb_ok eqb).

  Lemma contains_in a i : Contains eqb a i = true <-> In i a.
  Proof.
    induction a as [|e a IH]; cbn; [split; [discriminate|tauto]|].
    destruct (eqb e i) eqn:E.
    - apply Heq in E. subst. split; auto.
    - rewrite IH. split; auto. intros [->|H]; auto. exfalso.
      assert (eqb i i = true) by (now apply Heq). congruence.
  Qed.

  Lemma add_unique_in a i : In i a -> AddUnique eqb a i = a.
  Proof. intros H. unfold AddUnique. apply contains_in in H. now rewrite H. Qed.

  Lemma add_unique_notin a i : ~ In i a -> AddUnique eqb a i = a ++ [i].
  Proof.
    intros H. unfold AddUnique. destruct (Contains eqb a i) eqn:E; auto.
    apply contains_in in E. contradiction.
  Qed.

  Lemma copy_id zero (a : list T) : Copy zero a = a.
  Proof.
    unfold Copy. rewrite repeat_length, Nat.min_id, firstn_all.
    rewrite skipn_all2 by (rewrite repeat_length; lia). apply app_nil_r.
  Qed.

  (* position of the first occurrence *)
  Lemma add_unique_all (xs : list T) : forall a,
    NoDup a ->
    let r := fold_left (AddUnique eqb) xs a in
    NoDup r /\ (forall x, In x r <-> In x a \/ In x xs) /\ exists t, r = a ++ t.
  Proof.
    induction xs as [|x xs IH]; intros a Hnd; cbn.
    - split; auto. split; [tauto|]. exists []. now rewrite app_nil_r.
    - assert (Hd : {In x a} + {~ In x a}).
      { destruct (Contains eqb a x) eqn:E; [left; now apply contains_in|].
        right. intros H. apply contains_in in H. congruence. }
      destruct Hd as [Hin|Hni].
      + rewrite (add_unique_in a x Hin). destruct (IH a Hnd) as (H1 & H2 & H3).
        split; auto. split; auto. intros y. rewrite H2. intuition (subst; auto).
      + rewrite (add_unique_notin a x Hni).
        assert (Hnd' : NoDup (a ++ [x])).
        { apply (NoDup_Add (Add_app x a [])). rewrite app_nil_r. auto. }
        destruct (IH _ Hnd') as (H1 & H2 & t & H3). split; auto. split.
        * intros y. rewrite H2, in_app_iff. cbn. intuition.
        * exists (x :: t). rewrite H3. now rewrite <- app_assoc.
  Qed.

  Lemma fold_add_unique (dec : forall x y : T, {x = y} + {x <> y}) (xs : list T) :
    fold_left (AddUnique eqb) xs [] = rev (nodup dec (rev xs)).
  Proof.
    induction xs as [|x xs IH] using rev_ind; [reflexivity|].
    rewrite fold_left_app, rev_app_distr. cbn [fold_left rev app nodup]. rewrite IH.
    destruct (in_dec dec x (rev xs)) as [Hin|Hni].
    - apply add_unique_in. rewrite <- in_rev. now apply nodup_In.
    - cbn [rev]. apply add_unique_notin. rewrite <- in_rev. rewrite nodup_In. auto.
  Qed.
End Uniq.

(* ---------- Set ---------- *)
Section SetProofs.
  Context {T : Type} (eqb : T -> T -> bool) (Heq : eqb_ok eqb).
  Context (dec : forall x y : T, {x = y} + {x <> y}).

  Definition set_rel (s : @set_state T) (hist : list (@set_op T)) : Prop :=
    NoDup (map fst s) /\
    forall x, mget eqb s x = if present dec x hist then Some true else None.

  Lemma set_step_rel s hist o : set_rel s hist ->
    fst (set_step eqb s o) = answer dec hist o /\
    set_rel (snd (set_step eqb s o)) (o :: hist).
  Proof.
    intros [Hnd Hg]. destruct o as [t|t|t]; cbn [set_step answer].
    - unfold set_Add. pose proof (Hg t) as Ht. destruct (present dec t hist) eqn:Ep; rewrite Ht; cbn [fst snd].
      + split; auto. split; auto. intros x. cbn. destruct (dec t x) as [<-|Hne]; auto.
      + split; auto. split; [now apply mset_nodup|]. intros x. cbn. destruct (dec t x) as [<-|Hne].
        * now apply mget_mset_eq.
        * rewrite mget_mset_ne; auto.
    - unfold set_Has. rewrite Hg. destruct (present dec t hist) eqn:Ep; cbn [fst snd]; split; auto;
        split; auto.
    - unfold set_Remove. pose proof (Hg t) as Ht. destruct (present dec t hist) eqn:Ep; rewrite Ht; cbn [fst snd Bool.eqb].
      + split; auto. split; [now apply mdel_nodup|]. intros x. cbn. destruct (dec t x) as [<-|Hne].
        * now apply mget_mdel_eq.
        * rewrite mget_mdel_ne; auto.
      + split; auto. split; auto. intros x. cbn. destruct (dec t x) as [<-|Hne]; auto.
  Qed.

  Lemma set_run_rel ops : forall s hist, set_rel s hist ->
    fst (set_run eqb s ops) = answers dec hist ops /\
    set_rel (snd (set_run eqb s ops)) (rev ops ++ hist).
  Proof.
    induction ops as [|o ops IH]; intros s hist Hr; cbn [set_run answers rev app]; [auto|].
    destruct (set_step_rel s hist o Hr) as [H1 H2].
    destruct (set_step eqb s o) as [b s1]. cbn [fst snd] in *.
    destruct (IH s1 (o :: hist) H2) as [H3 H4].
    destruct (set_run eqb s1 ops) as [bs s2]. cbn [fst snd] in *.
    split; [congruence|]. rewrite <- app_assoc. exact H4.
  Qed.

  Lemma set_init_rel : set_rel [] [].
  Proof. split; [constructor|reflexivity]. Qed.

  Lemma set_all_keys (order : @set_state T) : set_All order = map fst order.
  Proof.
    unfold set_All. rewrite (fold_left_app_acc (fun kv => [fst kv])). cbn.
    induction order; cbn; congruence.
  Qed.

  Lemma set_all_spec s hist order : set_rel s hist -> Permutation order s ->
    NoDup (set_All order) /\ forall x, In x (set_All order) <-> present dec x hist = true.
  Proof.
    intros [Hnd Hg] Hp. rewrite set_all_keys. split.
    - eapply Permutation_NoDup; [|exact Hnd]. apply Permutation_map. now symmetry.
    - intros x. transitivity (In x (map fst s)).
      + split; apply Permutation_in; apply Permutation_map; [exact Hp|now symmetry].
      + specialize (Hg x). destruct (present dec x hist).
        * split; auto. intros _. destruct (in_dec dec x (map fst s)); auto.
          apply (mget_none eqb Heq) in n. congruence.
        * apply (mget_none eqb Heq) in Hg. split; [contradiction|discriminate].
  Qed.

  Lemma set_history ops order :
    fst (set_run eqb [] ops) = answers dec [] ops /\
    (Permutation order (snd (set_run eqb [] ops)) ->
     NoDup (set_All order) /\ forall x, In x (set_All order) <-> present dec x (rev ops) = true).
  Proof.
    destruct (set_run_rel ops [] [] set_init_rel) as [H1 H2]. rewrite app_nil_r in H2.
    split; auto. intros Hp. eapply set_all_spec; eauto.
  Qed.
End SetProofs.

Lemma Reverse_twice {T} (a b : list T) : Reverse a = Ok b -> Reverse b = Ok a.
Proof.
  rewrite Reverse_rev. intros H; inversion H; subst. rewrite Reverse_rev, rev_involutive. reflexivity.
Qed.

Lemma split_panics_iff {T} (l : list T) (max : Z) : Split l max = Panic <-> (max <= 0)%Z.
Proof.
  split; [|apply split_panics]. intros H. destruct (Z_le_gt_dec max 0) as [|Hgt]; auto.
  destruct (split_spec l max) as (out & Ho & _); [lia|]. congruence.
Qed.

Lemma flatten_split {T} (l : list T) (max : Z) out : Split l max = Ok out -> Flatten out = l.
Proof.
  intros H. rewrite flatten_concat. destruct (Z_le_gt_dec max 0) as [Hle|Hgt].
  - rewrite split_panics in H by auto. discriminate.
  - destruct (split_spec l max) as (out' & Ho & Hc & _); [lia|]. congruence.
Qed.
