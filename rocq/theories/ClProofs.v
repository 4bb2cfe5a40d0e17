From Coq Require Import Bool Arith ZArith List Lia.
From Verif Require Import Prelude ClModel ClSpec.
Import ListNotations.

Lemma nobody_false : forall z b w, nobody z b w = false <-> has_content z b w.
Proof.
  intros z b w. unfold nobody, has_content, contentless. rewrite !orb_false_iff, !Z.eqb_neq, andb_false_iff.
  destruct b; split.
  - intros [[A B] [C|C]]; [|discriminate]. split; [tauto|auto].
  - intros [A [C|C]]; [congruence|]. tauto.
  - intros [[A B] C]. split; [tauto|left; discriminate].
  - intros [A _]. tauto.
Qed.
Lemma good_iff : forall z, good z = true <-> success z.
Proof. intros z. unfold good, success. rewrite orb_true_iff, !Z.eqb_eq. tauto. Qed.
Lemma content_nobody : forall z b w, nobody z b w = true -> content z b w [].
Proof.
  intros z b w H. unfold nobody in H. unfold content, contentless. apply orb_true_iff in H. destruct H as [H|H].
  - left. apply orb_true_iff in H. rewrite !Z.eqb_eq in H. auto.
  - apply andb_true_iff in H. destruct H as [-> H]. destruct b; [|discriminate]. destruct (Z.eq_dec z 204), (Z.eq_dec z 304); intuition.
Qed.
Lemma content_body : forall z b, nobody z b true = false -> content z b true b.
Proof. intros z b H. apply nobody_false in H. destruct H as [H _]. right. auto. Qed.

Lemma nth_set : forall s i x y j, nth_error (calls s) i = Some x -> nth_error (calls (set s i y)) j = if Nat.eqb j i then Some y else nth_error (calls s) j.
Proof.
  intros s i x y j H. cbn. revert i H j. induction (calls s) as [|a l IH]; intros [|i] H j; cbn in H; try discriminate.
  - destruct j; reflexivity.
  - destruct j; [reflexivity|]. cbn. apply (IH i H j).
Qed.
Lemma len_set : forall s i x y, nth_error (calls s) i = Some x -> length (calls (set s i y)) = length (calls s).
Proof.
  intros s i x y H. cbn. revert i H. induction (calls s) as [|a l IH]; intros [|i] H; cbn in H; try discriminate; cbn; [reflexivity|].
  f_equal. apply (IH i H).
Qed.

Section Client.
  Context (use : bytes -> bool).
  Lemma exec_app : forall ls s ls', exec use s (ls ++ ls') = match exec use s ls with Some s' => exec use s' ls' | None => None end.
  Proof. induction ls as [|l ls IH]; intros s ls'; [reflexivity|]. cbn. destruct (step use s l); [apply IH|reflexivity]. Qed.

  Definition holds (ls : list label) (c : nat) (z : Z) (b : bytes) (w h : bool) : Prop := h = true <-> has_content z b w /\ ~ cancelled ls c.
  Definition only (ls : list label) (i : nat) (a : answer) : Prop := forall a', answered ls i a' <-> a' = a.
  Definition none (ls : list label) (i : nat) : Prop := forall a, ~ answered ls i a.
  Definition fine (ls : list label) (i : nat) (x : call) : Prop :=
    let c := c_ctx x in let h := c_held x in
    match c_stage x with
    | Ready => none ls i /\ h = false
    | Sent => none ls i /\ (h = true <-> ~ cancelled ls c)
    | Got z b w => only ls i (Answer z b w) /\ success z /\ (c_kind x = KApi -> z = 200%Z) /\ holds ls c z b w h
    | Read r => h = false /\ exists z b w, only ls i (Answer z b w) /\ success z /\ (c_kind x = KApi -> z = 200%Z) /\
        match r with Some b' => content z b w b' | None => has_content z b w /\ (w = false \/ cancelled ls c) end
    | Over (ROk b') => h = false /\ exists z b w, only ls i (Answer z b w) /\ success z /\ content z b w b' /\ (c_kind x = KApi -> z = 204%Z \/ use b' = true)
    | Over (RStatus z) => exists b w, only ls i (Answer z b w) /\ ~ success z /\ holds ls c z b w h
    | Over RFail => h = false /\
        (none ls i \/ only ls i NoAnswer \/
         exists z b w, only ls i (Answer z b w) /\ success z /\
           ((has_content z b w /\ (w = false \/ cancelled ls c)) \/ (c_kind x = KApi /\ z = 200%Z /\ exists b', content z b w b' /\ use b' = false)))
    end.
  Record inv (n : nat) (ls : list label) (s : st) : Prop := {
    i_limit : limit s = n;
    i_len : length (calls s) = length (begun ls);
    i_began : forall i x, nth_error (calls s) i = Some x -> began ls i (c_kind x) (c_ctx x);
    i_done : forall c, is_done s c = true <-> cancelled ls c;
    i_ans : forall i a, answered ls i a -> i < length (calls s);
    i_fine : forall i x, nth_error (calls s) i = Some x -> fine ls i x }.

  Lemma begun_app : forall a b, begun (a ++ b) = begun a ++ begun b.
  Proof. intros. unfold begun. apply flat_map_app. Qed.
  Lemma fine_ext : forall ls l i x, (forall a, l <> LAnswer i a) -> l <> LCancel (c_ctx x) -> fine ls i x -> fine (ls ++ [l]) i x.
  Proof.
    intros ls l i x A C F.
    assert (QA : forall a, answered (ls ++ [l]) i a <-> answered ls i a).
    { intros a. unfold answered. rewrite in_app_iff. cbn. split; [|auto]. intros [H|[H|[]]]; [auto|destruct (A _ H)]. }
    assert (QC : cancelled (ls ++ [l]) (c_ctx x) <-> cancelled ls (c_ctx x)).
    { unfold cancelled. rewrite in_app_iff. cbn. split; [|auto]. intros [H|[H|[]]]; [auto|destruct (C H)]. }
    assert (QN : none (ls ++ [l]) i <-> none ls i) by (unfold none; split; intros H a; specialize (H a); rewrite QA in *; exact H).
    assert (QO : forall a, only (ls ++ [l]) i a <-> only ls i a) by (intros a; unfold only; split; intros H a'; specialize (H a'); rewrite QA in *; exact H).
    assert (QH : forall z b w h, holds (ls ++ [l]) (c_ctx x) z b w h <-> holds ls (c_ctx x) z b w h) by (intros; unfold holds; rewrite QC; tauto).
    unfold fine in *. destruct (c_stage x) as [| |z b w|r|[b'|z|]].
    - rewrite QN. exact F.
    - rewrite QN, QC. exact F.
    - rewrite QO, QH. exact F.
    - destruct F as (Fh & z & b & w & F1 & F2 & F3 & F4). split; [exact Fh|]. exists z, b, w. rewrite QO. split; [exact F1|]. split; [exact F2|]. split; [exact F3|].
      destruct r; [exact F4|]. rewrite QC. exact F4.
    - destruct F as (Fh & z & b & w & F1 & F2). split; [exact Fh|]. exists z, b, w. rewrite QO. auto.
    - destruct F as (b & w & F1 & F2 & F3). exists b, w. rewrite QO, QH. auto.
    - destruct F as (Fh & F). split; [exact Fh|]. destruct F as [F|[F|(z & b & w & F1 & F2 & F3)]].
      + left. apply QN. exact F.
      + right. left. apply QO. exact F.
      + right. right. exists z, b, w. rewrite QO, QC. auto.
  Qed.
  Lemma fine_cancel : forall ls i x, fine ls i x ->
    fine (ls ++ [LCancel (c_ctx x)]) i (Call (c_kind x) (c_ctx x) (c_stage x) false).
  Proof.
    intros ls i x F.
    assert (QA : forall a, answered (ls ++ [LCancel (c_ctx x)]) i a <-> answered ls i a).
    { intros a. unfold answered. rewrite in_app_iff. cbn. split; [|auto]. intros [H|[H|[]]]; [auto|discriminate]. }
    assert (QC : cancelled (ls ++ [LCancel (c_ctx x)]) (c_ctx x)) by (unfold cancelled; rewrite in_app_iff; right; left; reflexivity).
    assert (QN : none ls i -> none (ls ++ [LCancel (c_ctx x)]) i) by (unfold none; intros H a; rewrite QA; apply H).
    assert (QO : forall a, only ls i a -> only (ls ++ [LCancel (c_ctx x)]) i a) by (intros a; unfold only; intros H a'; rewrite QA; apply H).
    unfold fine in *. cbn. destruct (c_stage x) as [| |z b w|r|[b'|z|]].
    - tauto.
    - destruct F as [F _]. split; [auto|]. split; [discriminate|tauto].
    - destruct F as (F1 & F2 & F3 & F4). split; [auto|]. split; [auto|]. split; [auto|]. unfold holds. split; [discriminate|tauto].
    - destruct F as (Fh & z & b & w & F1 & F2 & F3 & F4). split; [reflexivity|]. exists z, b, w. split; [auto|]. split; [auto|]. split; [auto|].
      destruct r; tauto.
    - destruct F as (Fh & z & b & w & F1 & F2). split; [reflexivity|]. exists z, b, w. auto.
    - destruct F as (b & w & F1 & F2 & F3). exists b, w. split; [auto|]. split; [auto|]. unfold holds. split; [discriminate|tauto].
    - destruct F as (Fh & F). split; [reflexivity|]. destruct F as [F|[F|(z & b & w & F1 & F2 & F3)]]; [auto|auto|].
      right. right. exists z, b, w. split; [auto|]. split; [auto|]. destruct F3 as [F3|F3]; [left; tauto|right; exact F3].
  Qed.

  (* a step of call i that is no answer, or one that is *)
  Lemma inv_set : forall n ls s l i x y, inv n ls s -> nth_error (calls s) i = Some x -> c_kind y = c_kind x -> c_ctx y = c_ctx x ->
    (forall c, l <> LCancel c) -> (forall k c, l <> LCall k c) -> (forall j a, l = LAnswer j a -> j = i) -> fine (ls ++ [l]) i y -> inv n (ls ++ [l]) (set s i y).
  Proof.
    intros n ls s l i x y V X K C NC NB NA F.
    assert (QB : begun (ls ++ [l]) = begun ls).
    { rewrite begun_app. destruct l; cbn; try (apply app_nil_r). destruct (NB _ _ eq_refl). }
    constructor.
    - exact (i_limit _ _ _ V).
    - rewrite (len_set s i x y X), QB. exact (i_len _ _ _ V).
    - intros j z Hj. rewrite (nth_set s i x y j X) in Hj. unfold began. rewrite QB. destruct (Nat.eqb_spec j i) as [->|D].
      + injection Hj as <-. rewrite K, C. exact (i_began _ _ _ V i x X).
      + exact (i_began _ _ _ V j z Hj).
    - intros c. change (is_done (set s i y) c) with (is_done s c). rewrite (i_done _ _ _ V c). unfold cancelled. rewrite in_app_iff. cbn.
      split; [auto|]. intros [H|[H|[]]]; [auto|destruct (NC _ H)].
    - intros j a H. rewrite (len_set s i x y X). unfold answered in H. rewrite in_app_iff in H. destruct H as [H|[H|[]]].
      + exact (i_ans _ _ _ V j a H).
      + rewrite (NA _ _ H). apply nth_error_Some. rewrite X. discriminate.
    - intros j z Hj. rewrite (nth_set s i x y j X) in Hj. destruct (Nat.eqb_spec j i) as [->|D].
      + injection Hj as <-. exact F.
      + apply fine_ext; [intros a E; apply D; exact (NA _ _ E)|apply NC|exact (i_fine _ _ _ V j z Hj)].
  Qed.

  Lemma none_ext : forall ls l i, (forall a, l <> LAnswer i a) -> none ls i -> none (ls ++ [l]) i.
  Proof. intros ls l i A H a. unfold answered. rewrite in_app_iff. intros [Q|[Q|[]]]; [exact (H a Q)|exact (A a Q)]. Qed.
  Lemma only_ext : forall ls l i a0, (forall a, l <> LAnswer i a) -> only ls i a0 -> only (ls ++ [l]) i a0.
  Proof.
    intros ls l i a0 A H a. unfold answered. rewrite in_app_iff. split; [intros [Q|[Q|[]]]; [apply H; exact Q|destruct (A a Q)]|].
    intros ->. left. apply (H a0). reflexivity.
  Qed.
  Lemma only_new : forall ls i a, none ls i -> only (ls ++ [LAnswer i a]) i a.
  Proof.
    intros ls i a H a'. unfold answered. rewrite in_app_iff. cbn. split; [intros [Q|[Q|[]]]; [destruct (H a' Q)|congruence]|].
    intros ->. auto.
  Qed.
  Lemma canc_ext : forall ls l c, (forall c, l <> LCancel c) -> (cancelled (ls ++ [l]) c <-> cancelled ls c).
  Proof. intros ls l c A. unfold cancelled. rewrite in_app_iff. cbn. split; [intros [Q|[Q|[]]]; [exact Q|destruct (A c Q)]|auto]. Qed.

  Lemma inv_step : forall n ls s l s', inv n ls s -> step use s l = Some s' -> inv n (ls ++ [l]) s'.
  Proof.
    intros n ls s l s' V H. destruct l as [k c|i|i a|i ok|i|c]; cbn [step] in H.
    - injection H as <-. constructor; cbn [calls limit].
      + exact (i_limit _ _ _ V).
      + rewrite begun_app, !app_length. cbn. rewrite (i_len _ _ _ V). reflexivity.
      + intros i x X. unfold began. rewrite begun_app. cbn [begun flat_map app]. destruct (Nat.lt_ge_cases i (length (calls s))) as [L|L].
        * rewrite nth_error_app1 in X by exact L. rewrite nth_error_app1 by (rewrite <- (i_len _ _ _ V); exact L). exact (i_began _ _ _ V i x X).
        * rewrite nth_error_app2 in X by exact L. rewrite nth_error_app2 by (rewrite <- (i_len _ _ _ V); exact L). rewrite <- (i_len _ _ _ V).
          destruct (i - length (calls s)) as [|m]; cbn in X |- *; [injection X as <-; reflexivity|destruct m; discriminate].
      + intros d. rewrite canc_ext by (intros; discriminate). exact (i_done _ _ _ V d).
      + intros i a Q. unfold answered in Q. rewrite in_app_iff in Q. destruct Q as [Q|[Q|[]]]; [|discriminate]. rewrite app_length. pose proof (i_ans _ _ _ V i a Q). lia.
      + intros i x X. destruct (Nat.lt_ge_cases i (length (calls s))) as [L|L].
        * rewrite nth_error_app1 in X by exact L. apply fine_ext; [discriminate|discriminate|exact (i_fine _ _ _ V i x X)].
        * rewrite nth_error_app2 in X by exact L. destruct (i - length (calls s)) as [|m] eqn:D; cbn in X; [|destruct m; discriminate]. injection X as <-.
          cbn. split; [|reflexivity]. apply none_ext; [discriminate|]. intros a Q. pose proof (i_ans _ _ _ V i a Q). lia.
    - destruct (nth_error (calls s) i) as [[k c [] h]|] eqn:X; try discriminate. pose proof (i_fine _ _ _ V i _ X) as F. cbn in F. destruct F as [Fn Fh].
      assert (N : none (ls ++ [LDial i]) i) by (apply none_ext; [discriminate|exact Fn]).
      destruct (is_done s c || (limit s <=? taken s)) eqn:D; injection H as <-; (eapply inv_set; [exact V|exact X|reflexivity|reflexivity|discriminate|discriminate|discriminate|]).
      + cbn. auto.
      + cbn. split; [exact N|]. rewrite canc_ext by discriminate. rewrite <- (i_done _ _ _ V c). apply orb_false_iff in D. destruct D as [D _]. rewrite D. split; [discriminate|reflexivity].
    - destruct (nth_error (calls s) i) as [[k c [] h]|] eqn:X; try discriminate. pose proof (i_fine _ _ _ V i _ X) as F. cbn in F. destruct F as [Fn Fh].
      pose proof (only_new ls i a Fn) as O. destruct a as [|z b w].
      { injection H as <-. eapply inv_set; [exact V|exact X|reflexivity|reflexivity|discriminate|discriminate|intros j a E; injection E; auto|]. cbn. auto. }
      destruct (z <? 200)%Z eqn:Z2; [discriminate|].
      assert (HH : holds (ls ++ [LAnswer i (Answer z b w)]) c z b w (h && negb (nobody z b w))).
      { unfold holds. rewrite canc_ext by discriminate. rewrite andb_true_iff, negb_true_iff, Fh, nobody_false. tauto. }
      destruct (good z) eqn:G.
      + apply good_iff in G. assert (G' := G). 
        destruct k; [| |destruct (Z.eqb_spec z 204) as [E|E]]; injection H as <-;
          (eapply inv_set; [exact V|exact X|reflexivity|reflexivity|discriminate|discriminate|intros j a' Ej; injection Ej; auto|]); cbn.
        * split; [exact O|]. split; [exact G|]. split; [discriminate|exact HH].
        * split; [exact O|]. split; [exact G|]. split; [discriminate|exact HH].
        * split. { subst z. unfold nobody. cbn. apply andb_false_r. }
          exists z, b, w. split; [exact O|]. split; [exact G|]. split; [left; split; [left; exact E|reflexivity]|auto].
        * split; [exact O|]. split; [exact G|]. split; [intros _; destruct G' as [G'|G']; [exact G'|destruct (E G')]|exact HH].
      + assert (NG : ~ success z) by (intros Q; apply good_iff in Q; congruence).
        injection H as <-. eapply inv_set; [exact V|exact X|reflexivity|reflexivity|discriminate|discriminate|intros j a' Ej; injection Ej; auto|].
        cbn. exists b, w. auto.
    - destruct (nth_error (calls s) i) as [[k c [| |z b w| |] h]|] eqn:X; try discriminate. pose proof (i_fine _ _ _ V i _ X) as F. cbn in F.
      destruct F as (F1 & F2 & F3 & F4).
      assert (O : only (ls ++ [LRead i ok]) i (Answer z b w)) by (apply only_ext; [discriminate|exact F1]).
      destruct (nobody z b w) eqn:NB.
      + destruct ok; [|discriminate]. injection H as <-. eapply inv_set; [exact V|exact X|reflexivity|reflexivity|discriminate|discriminate|discriminate|].
        cbn. split. { destruct h; [|reflexivity]. assert (Q : true = true) by reflexivity. apply F4 in Q. destruct Q as [Q _]. apply nobody_false in Q. congruence. }
        exists z, b, w. split; [exact O|]. split; [exact F2|]. split; [exact F3|]. apply content_nobody. exact NB.
      + assert (HC : has_content z b w) by (apply nobody_false; exact NB). destruct ok.
        * destruct w; [|discriminate]. injection H as <-. eapply inv_set; [exact V|exact X|reflexivity|reflexivity|discriminate|discriminate|discriminate|].
          cbn. split; [reflexivity|]. exists z, b, true. split; [exact O|]. split; [exact F2|]. split; [exact F3|]. apply content_body. exact NB.
        * destruct (negb w || is_done s c) eqn:D; [|discriminate]. injection H as <-. eapply inv_set; [exact V|exact X|reflexivity|reflexivity|discriminate|discriminate|discriminate|].
          cbn. split; [reflexivity|]. exists z, b, w. split; [exact O|]. split; [exact F2|]. split; [exact F3|]. split; [exact HC|].
          apply orb_true_iff in D. rewrite negb_true_iff in D. rewrite canc_ext by discriminate. rewrite <- (i_done _ _ _ V c). exact D.
    - destruct (nth_error (calls s) i) as [[k c [| | |r|] h]|] eqn:X; try discriminate. pose proof (i_fine _ _ _ V i _ X) as F. cbn in F.
      destruct F as (Fh & z & b & w & F1 & F2 & F3 & F4). subst h.
      assert (O : only (ls ++ [LClose i]) i (Answer z b w)) by (apply only_ext; [discriminate|exact F1]).
      assert (CE : cancelled (ls ++ [LClose i]) c <-> cancelled ls c) by (apply canc_ext; discriminate).
      destruct r as [b'|].
      + destruct k; [| |destruct (use b') eqn:U]; injection H as <-; (eapply inv_set; [exact V|exact X|reflexivity|reflexivity|discriminate|discriminate|discriminate|]); cbn;
          (split; [reflexivity|]).
        * exists z, b, w. split; [exact O|]. split; [exact F2|]. split; [exact F4|discriminate].
        * exists z, b, w. split; [exact O|]. split; [exact F2|]. split; [exact F4|discriminate].
        * exists z, b, w. split; [exact O|]. split; [exact F2|]. split; [exact F4|auto].
        * right. right. exists z, b, w. split; [exact O|]. split; [exact F2|]. right. split; [reflexivity|]. split; [auto|]. exists b'. auto.
      + destruct k; injection H as <-; (eapply inv_set; [exact V|exact X|reflexivity|reflexivity|discriminate|discriminate|discriminate|]); cbn;
          (split; [reflexivity|]); right; right; exists z, b, w; (split; [exact O|]); (split; [exact F2|]); left; rewrite CE; exact F4.
    - injection H as <-. constructor; cbn [calls limit].
      + exact (i_limit _ _ _ V).
      + rewrite map_length, begun_app. cbn. rewrite app_nil_r. exact (i_len _ _ _ V).
      + intros i x X. unfold began. rewrite begun_app. cbn. rewrite app_nil_r. rewrite nth_error_map in X. destruct (nth_error (calls s) i) as [y|] eqn:Y; [|discriminate].
        cbn in X. injection X as <-. pose proof (i_began _ _ _ V i y Y) as B. destruct (Nat.eqb (c_ctx y) c); exact B.
      + intros d. unfold is_done, cancelled. cbn. rewrite in_app_iff. cbn. rewrite orb_true_iff, Nat.eqb_eq. pose proof (i_done _ _ _ V d) as Q. unfold is_done, cancelled in Q. rewrite Q.
        split; [intros [->|P]; auto|]. intros [P|[P|[]]]; [auto|injection P; auto].
      + intros i a Q. unfold answered in Q. rewrite in_app_iff in Q. destruct Q as [Q|[Q|[]]]; [|discriminate]. rewrite map_length. exact (i_ans _ _ _ V i a Q).
      + intros i x X. rewrite nth_error_map in X. destruct (nth_error (calls s) i) as [y|] eqn:Y; [|discriminate]. cbn in X. injection X as <-.
        pose proof (i_fine _ _ _ V i y Y) as F. destruct (Nat.eqb_spec (c_ctx y) c) as [E|E].
        * subst c. apply fine_cancel. exact F.
        * apply fine_ext; [discriminate|congruence|exact F].
  Qed.
  Lemma inv_init : forall n, inv n [] (init n).
  Proof.
    intros n. constructor; cbn; try reflexivity.
    - intros [|i] x H; discriminate.
    - intros c. split; [discriminate|intros []].
    - intros i a [].
    - intros [|i] x H; discriminate.
  Qed.
  Lemma inv_exec : forall n ls s, exec use (init n) ls = Some s -> inv n ls s.
  Proof.
    intros n ls. induction ls as [|l ls IH] using rev_ind; intros s H.
    - injection H as <-. apply inv_init.
    - rewrite exec_app in H. destruct (exec use (init n) ls) as [s0|] eqn:E; [|discriminate]. cbn in H. destruct (step use s0 l) as [s1|] eqn:F; [|discriminate].
      injection H as <-. exact (inv_step _ _ _ _ _ (IH s0 eq_refl) F).
  Qed.

  (* calls that have returned and occupy a connection: only a done context frees it *)
  Definition stuck (x : call) : bool := c_held x && match c_stage x with Over _ => true | _ => false end.
  Definition nstuck (s : st) : nat := length (filter stuck (calls s)).
  Lemma filter_set : forall (f : call -> bool) l i x y, nth_error l i = Some x -> f x = false ->
    length (filter f l) <= length (filter f (firstn i l ++ y :: skipn (S i) l)).
  Proof.
    intros f l. induction l as [|a l IH]; intros [|i] x y H F; cbn in H; try discriminate.
    - injection H as ->. cbn. rewrite F. destruct (f y); cbn; lia.
    - cbn. specialize (IH i x y H F). cbn in IH. destruct (f a); cbn; lia.
  Qed.
  Lemma stuck_step : forall s l s', (forall c, l <> LCancel c) -> step use s l = Some s' -> nstuck s <= nstuck s'.
  Proof.
    intros s l s' NC H. unfold nstuck. destruct l as [k c|i|i a|i ok|i|c]; cbn [step] in H.
    - injection H as <-. cbn. rewrite filter_app, app_length. lia.
    - destruct (nth_error (calls s) i) as [[k c [] h]|] eqn:X; try discriminate.
      destruct (is_done s c || (limit s <=? taken s)); injection H as <-; cbn [calls set]; eapply filter_set; [exact X|apply andb_false_r|exact X|apply andb_false_r].
    - destruct (nth_error (calls s) i) as [[k c [] h]|] eqn:X; try discriminate.
      destruct a as [|z b w]; [|destruct (z <? 200)%Z; [discriminate|]; destruct (good z); [destruct k; [| |destruct (z =? 204)%Z]|]]; injection H as <-; cbn [calls set]; (eapply filter_set; [exact X|apply andb_false_r]).
    - destruct (nth_error (calls s) i) as [[k c [| |z b w| |] h]|] eqn:X; try discriminate.
      destruct (nobody z b w); [destruct ok; [|discriminate]|destruct ok; [destruct w; [|discriminate]|destruct (negb w || is_done s c); [|discriminate]]]; injection H as <-; cbn [calls set]; (eapply filter_set; [exact X|apply andb_false_r]).
    - destruct (nth_error (calls s) i) as [[k c [| | |r|] h]|] eqn:X; try discriminate.
      destruct k, r as [b|]; try destruct (use b); injection H as <-; cbn [calls set]; (eapply filter_set; [exact X|apply andb_false_r]).
    - destruct (NC c eq_refl).
  Qed.
  Lemma stuck_taken : forall s, nstuck s <= taken s.
  Proof.
    intros s. unfold nstuck, taken, stuck. induction (calls s) as [|x l IH]; cbn; [lia|]. destruct (c_held x); cbn; [|exact IH]. destruct (c_stage x); cbn; lia.
  Qed.
  Lemma step_limit : forall s l s', step use s l = Some s' -> limit s' = limit s.
  Proof.
    intros s l s' H. destruct l as [k c|i|i a|i ok|i|c]; cbn [step] in H; try (injection H as <-; reflexivity);
      destruct (nth_error (calls s) i) as [[k c [| |z b w|r|] h]|]; try discriminate.
    - destruct (is_done s c || (limit s <=? taken s)); injection H as <-; reflexivity.
    - destruct a as [|z b w]; [|destruct (z <? 200)%Z; [discriminate|]; destruct (good z); [destruct k; [| |destruct (z =? 204)%Z]|]]; injection H as <-; reflexivity.
    - destruct (nobody z b w); [destruct ok; [|discriminate]|destruct ok; [destruct w; [|discriminate]|destruct (negb w || is_done s c); [|discriminate]]]; injection H as <-; reflexivity.
    - destruct k, r as [b|]; try destruct (use b); injection H as <-; reflexivity.
  Qed.
  (* with all connections stuck, a call that has not begun to use one stays without *)
  Definition cold (x : call) : Prop := c_stage x = Ready \/ c_stage x = Over RFail.
  Lemma cold_step : forall s l s' m, (forall c, l <> LCancel c) -> limit s <= nstuck s -> step use s l = Some s' ->
    m <= length (calls s) -> (forall i x, m <= i -> nth_error (calls s) i = Some x -> cold x) -> m <= length (calls s') /\ (forall i x, m <= i -> nth_error (calls s') i = Some x -> cold x).
  Proof.
    intros s l s' m NC LM H ML CO. pose proof (stuck_taken s) as ST.
    assert (SET : forall i x y, nth_error (calls s) i = Some x -> (cold x -> cold y) -> m <= length (calls (set s i y)) /\ (forall j z, m <= j -> nth_error (calls (set s i y)) j = Some z -> cold z)).
    { intros i x y X C. split; [rewrite (len_set s i x y X); exact ML|]. intros j z Mj Hj. rewrite (nth_set s i x y j X) in Hj. destruct (Nat.eqb_spec j i) as [->|D].
      - injection Hj as <-. apply C. exact (CO i x Mj X).
      - exact (CO j z Mj Hj). }
    destruct l as [k c|i|i a|i ok|i|c]; cbn [step] in H.
    - injection H as <-. cbn. rewrite app_length. split; [lia|]. intros i x Mi X. destruct (Nat.lt_ge_cases i (length (calls s))) as [L|L].
      + rewrite nth_error_app1 in X by exact L. exact (CO i x Mi X).
      + rewrite nth_error_app2 in X by exact L. destruct (i - length (calls s)) as [|q]; cbn in X; [injection X as <-; left; reflexivity|destruct q; discriminate].
    - destruct (nth_error (calls s) i) as [[k c [] h]|] eqn:X; try discriminate.
      assert (D : (limit s <=? taken s) = true) by (apply Nat.leb_le; lia). rewrite D, orb_true_r in H. injection H as <-. eapply SET; [exact X|]. intros _. right. reflexivity.
    - destruct (nth_error (calls s) i) as [[k c [] h]|] eqn:X; try discriminate.
      destruct a as [|z b w]; [|destruct (z <? 200)%Z; [discriminate|]; destruct (good z); [destruct k; [| |destruct (z =? 204)%Z]|]]; injection H as <-; (eapply SET; [exact X|intros [Q|Q]; discriminate Q]).
    - destruct (nth_error (calls s) i) as [[k c [| |z b w| |] h]|] eqn:X; try discriminate.
      destruct (nobody z b w); [destruct ok; [|discriminate]|destruct ok; [destruct w; [|discriminate]|destruct (negb w || is_done s c); [|discriminate]]]; injection H as <-; (eapply SET; [exact X|intros [Q|Q]; discriminate Q]).
    - destruct (nth_error (calls s) i) as [[k c [| | |r|] h]|] eqn:X; try discriminate.
      destruct k, r as [b|]; try destruct (use b); injection H as <-; (eapply SET; [exact X|intros [Q|Q]; discriminate Q]).
    - destruct (NC c eq_refl).
  Qed.
  Lemma cold_exec : forall ls s s' m, (forall c, ~ In (LCancel c) ls) -> limit s <= nstuck s -> exec use s ls = Some s' ->
    m <= length (calls s) -> (forall i x, m <= i -> nth_error (calls s) i = Some x -> cold x) -> forall i x, m <= i -> nth_error (calls s') i = Some x -> cold x.
  Proof.
    induction ls as [|l ls IH]; intros s s' m NC LM H ML CO.
    - injection H as <-. exact CO.
    - cbn in H. destruct (step use s l) as [s1|] eqn:E; [|discriminate].
      assert (N1 : forall c, l <> LCancel c) by (intros c Q; apply (NC c); left; exact Q).
      destruct (cold_step s l s1 m N1 LM E ML CO) as [M1 C1].
      apply (IH s1 s' m); [intros c Q; apply (NC c); right; exact Q| |exact H|exact M1|exact C1].
      rewrite (step_limit _ _ _ E). pose proof (stuck_step _ _ _ N1 E). lia.
  Qed.
End Client.
