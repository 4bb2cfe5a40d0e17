(* Lemmas about the calendar: Go's arithmetic counts days. *)
From Coq Require Import Bool ZArith Lia List.
From Verif Require Import Prelude TimeModel TimeSpec.
Import ListNotations.
Local Open Scope Z_scope.

Definition yearlen (y : Z) : Z := if isLeap y then 366 else 365.
Lemma isLeap_ok y : isLeap y = true <-> leap y.
Proof.
  unfold isLeap, leap. rewrite andb_true_iff, orb_true_iff, negb_true_iff, !Z.eqb_eq, Z.eqb_neq, <- !Z.mod_divide by lia. tauto.
Qed.
Lemma leap_shift k : isLeap (k + zeroYear) = ((k mod 4 =? 3) && (negb (k mod 100 =? 99) || (k mod 400 =? 399))).
Proof.
  unfold isLeap, zeroYear. f_equal; [|f_equal; [f_equal|]]; apply Bool.eq_iff_eq_true; rewrite !Z.eqb_eq; Z.div_mod_to_equations; lia.
Qed.
Lemma daysSince_split a b c e : 0 <= b <= 3 -> 0 <= c <= 24 -> 0 <= e <= 3 ->
  daysSinceEpoch (400 * a + 100 * b + 4 * c + e + zeroYear) = 146097 * a + 36524 * b + 1461 * c + 365 * e.
Proof.
  intros Hb Hc He. unfold daysSinceEpoch. cbv zeta.
  replace (400 * a + 100 * b + 4 * c + e + zeroYear - zeroYear) with (400 * a + 100 * b + 4 * c + e) by lia.
  replace ((400 * a + 100 * b + 4 * c + e) / 400) with a by (Z.div_mod_to_equations; lia).
  replace (400 * a + 100 * b + 4 * c + e - 400 * a) with (100 * b + 4 * c + e) by lia.
  replace ((100 * b + 4 * c + e) / 100) with b by (Z.div_mod_to_equations; lia).
  replace (100 * b + 4 * c + e - 100 * b) with (4 * c + e) by lia.
  replace ((4 * c + e) / 4) with c by (Z.div_mod_to_equations; lia). lia.
Qed.
Lemma year_split y : exists a b c e, y = 400 * a + 100 * b + 4 * c + e + zeroYear /\ 0 <= b <= 3 /\ 0 <= c <= 24 /\ 0 <= e <= 3.
Proof.
  set (k := y - zeroYear). exists (k / 400), (k mod 400 / 100), (k mod 100 / 4), (k mod 4).
  assert (y = k + zeroYear) by lia. split; [|Z.div_mod_to_equations; lia]. rewrite H. f_equal. clearbody k. clear. Z.div_mod_to_equations. lia.
Qed.
Lemma yearlen_split a b c e : 0 <= b <= 3 -> 0 <= c <= 24 -> 0 <= e <= 3 ->
  yearlen (400 * a + 100 * b + 4 * c + e + zeroYear) = if (e =? 3) && ((negb (c =? 24)) || (b =? 3)) then 366 else 365.
Proof.
  intros Hb Hc He. unfold yearlen. rewrite leap_shift.
  replace ((400 * a + 100 * b + 4 * c + e) mod 4) with e by (Z.div_mod_to_equations; lia).
  replace ((400 * a + 100 * b + 4 * c + e) mod 100) with (4 * c + e) by (Z.div_mod_to_equations; lia).
  replace ((400 * a + 100 * b + 4 * c + e) mod 400) with (100 * b + 4 * c + e) by (Z.div_mod_to_equations; lia).
  destruct (Z.eqb_spec e 3); destruct (Z.eqb_spec c 24); destruct (Z.eqb_spec b 3); destruct (Z.eqb_spec (4 * c + e) 99);
    destruct (Z.eqb_spec (100 * b + 4 * c + e) 399); cbn; try reflexivity; lia.
Qed.
Lemma daysSince_next y : daysSinceEpoch (y + 1) = daysSinceEpoch y + yearlen y.
Proof.
  destruct (year_split y) as (a & b & c & e & -> & Hb & Hc & He). rewrite yearlen_split, daysSince_split by auto.
  destruct (Z.eqb_spec e 3) as [->|E].
  - destruct (Z.eqb_spec c 24) as [->|C].
    + destruct (Z.eqb_spec b 3) as [->|Bq]; cbn [andb orb negb].
      * replace (400 * a + 100 * 3 + 4 * 24 + 3 + zeroYear + 1) with (400 * (a + 1) + 100 * 0 + 4 * 0 + 0 + zeroYear) by lia.
        rewrite daysSince_split by lia. lia.
      * replace (400 * a + 100 * b + 4 * 24 + 3 + zeroYear + 1) with (400 * a + 100 * (b + 1) + 4 * 0 + 0 + zeroYear) by lia.
        rewrite daysSince_split by lia. lia.
    + cbn [andb orb negb]. replace (400 * a + 100 * b + 4 * c + 3 + zeroYear + 1) with (400 * a + 100 * b + 4 * (c + 1) + 0 + zeroYear) by lia.
      rewrite daysSince_split by lia. lia.
  - cbn [andb]. replace (400 * a + 100 * b + 4 * c + e + zeroYear + 1) with (400 * a + 100 * b + 4 * c + (e + 1) + zeroYear) by lia.
    rewrite daysSince_split by lia. lia.
Qed.
Lemma yearlen_pos y : 365 <= yearlen y <= 366.
Proof. unfold yearlen. destruct (isLeap y); lia. Qed.
Lemma daysSince_mono y k : 0 <= k -> daysSinceEpoch y + k <= daysSinceEpoch (y + k).
Proof.
  intros H. pattern k. apply natlike_ind; [|intros x Hx IH|exact H].
  - rewrite !Z.add_0_r. lia.
  - replace (y + Z.succ x) with (y + x + 1) by lia. rewrite daysSince_next. pose proof (yearlen_pos (y + x)). lia.
Qed.
Lemma daysSince_lt y y' : y < y' -> daysSinceEpoch y + yearlen y <= daysSinceEpoch y'.
Proof.
  intros H. rewrite <- daysSince_next. replace y' with (y + 1 + (y' - y - 1)) by lia.
  pose proof (daysSince_mono (y + 1) (y' - y - 1) ltac:(lia)). lia.
Qed.
(* absYear inverts it *)
Lemma absYear_ok d y k : absYear d = (y, k) -> daysSinceEpoch y + k = d /\ 0 <= k < yearlen y.
Proof.
  unfold absYear. cbv zeta.
  remember (d / 146097) as n0. remember (d - 146097 * n0) as d1. assert (D1 : 0 <= d1 < 146097) by (subst n0 d1; clear; Z.div_mod_to_equations; lia).
  remember (d1 / 36524) as a1. remember (a1 - a1 / 4) as n1. remember (d1 - 36524 * n1) as d2.
  assert (D2 : 0 <= n1 <= 3 /\ 0 <= d2 <= 36524 /\ (d2 = 36524 -> n1 = 3)) by (subst n1 a1 d2; clear - D1; Z.div_mod_to_equations; lia).
  remember (d2 / 1461) as n2. remember (d2 - 1461 * n2) as d3.
  assert (D3 : 0 <= n2 <= 24 /\ 0 <= d3 <= 1460 /\ (n2 = 24 -> d3 = 1460 -> d2 = 36524)).
  { subst n2 d3. destruct D2 as (_ & D2 & _). clear - D2. Z.div_mod_to_equations. lia. }
  remember (d3 / 365) as a3. remember (a3 - a3 / 4) as n3. remember (d3 - 365 * n3) as r.
  assert (D4 : 0 <= n3 <= 3 /\ 0 <= r <= 365 /\ (r = 365 -> n3 = 3 /\ d3 = 1460)).
  { subst n3 a3 r. destruct D3 as (_ & D3 & _). clear - D3. Z.div_mod_to_equations. lia. }
  intros E. pose proof (f_equal fst E) as Ey. pose proof (f_equal snd E) as Ek. cbn [fst snd] in Ey, Ek. clear E.
  rewrite <- Ey, <- Ek. clear Ey Ek. replace (400 * n0 + 100 * n1 + 4 * n2 + n3 + zeroYear) with (400 * n0 + 100 * n1 + 4 * n2 + n3 + zeroYear) by lia. rewrite daysSince_split by lia.
  split; [lia|]. rewrite yearlen_split by lia. split; [lia|].
  destruct (Z.eqb_spec n3 3); destruct (Z.eqb_spec n2 24); destruct (Z.eqb_spec n1 3); cbn [andb orb negb]; lia.
Qed.
Lemma absYear_inv y k : 0 <= k < yearlen y -> absYear (daysSinceEpoch y + k) = (y, k).
Proof.
  intros H. destruct (absYear (daysSinceEpoch y + k)) as [y' k'] eqn:E. destruct (absYear_ok _ _ _ E) as (E1 & E2).
  assert (y' = y).
  { destruct (Z.lt_trichotomy y y') as [L|[L|L]]; auto; pose proof (daysSince_lt _ _ L); lia. }
  subst. f_equal. lia.
Qed.
(* months: all days of both kinds of years *)
Definition mdays (l : bool) (m d : Z) : Z := daysBefore (m - 1) + (if l && (3 <=? m) then 1 else 0) + (d - 1).
Definition mlen (l : bool) (m : Z) : Z := if (m =? 2) && l then 29 else daysBefore m - daysBefore (m - 1).
Lemma daysIn_mlen m y : daysIn m y = mlen (isLeap y) m.
Proof. reflexivity. Qed.
Lemma upto (n : nat) (P : Z -> bool) : forallb (fun k => P (Z.of_nat k)) (seq 0 n) = true -> forall z, 0 <= z < Z.of_nat n -> P z = true.
Proof.
  intros H z Hz. rewrite forallb_forall in H. specialize (H (Z.to_nat z)). rewrite Z2Nat.id in H by lia. apply H.
  apply in_seq. lia.
Qed.
Lemma absMonth_ok (l : bool) k m d : 0 <= k < (if l then 366 else 365) -> absMonth l k = (m, d) ->
  1 <= m <= 12 /\ 1 <= d <= mlen l m /\ mdays l m d = k.
Proof.
  intros H E.
  assert (A : forall l : bool, forallb (fun j : nat => let (m, d) := absMonth l (Z.of_nat j) in
     (1 <=? m) && (m <=? 12) && (1 <=? d) && (d <=? mlen l m) && (mdays l m d =? Z.of_nat j)) (seq 0 (if l then 366 else 365)) = true) by (intros []; vm_compute; reflexivity).
  specialize (A l). apply (upto _ (fun z => let (m, d) := absMonth l z in (1 <=? m) && (m <=? 12) && (1 <=? d) && (d <=? mlen l m) && (mdays l m d =? z))) with (z := k) in A; [|destruct l; lia].
  rewrite E in A. rewrite !andb_true_iff, !Z.leb_le, Z.eqb_eq in A. lia.
Qed.
Lemma mdays_ok (l : bool) m d : 1 <= m <= 12 -> 1 <= d <= mlen l m -> 0 <= mdays l m d < (if l then 366 else 365) /\ absMonth l (mdays l m d) = (m, d).
Proof.
  intros Hm Hd. assert (Hd' : d <= 31).
  { assert (forall l : bool, forallb (fun m => mlen l (Z.of_nat m + 1) <=? 31) (seq 0 12) = true) by (intros []; vm_compute; reflexivity).
    specialize (H l). apply (upto _ (fun z => mlen l (z + 1) <=? 31)) with (z := m - 1) in H; [|lia]. replace (m - 1 + 1) with m in H by lia. lia. }
  assert (A : forall l : bool, forallb (fun m => forallb (fun d => let m := Z.of_nat m + 1 in let d := Z.of_nat d + 1 in (mlen l m <? d) ||
     ((0 <=? mdays l m d) && (mdays l m d <? (if l then 366 else 365)) && (fst (absMonth l (mdays l m d)) =? m) && (snd (absMonth l (mdays l m d)) =? d))) (seq 0 31)) (seq 0 12) = true) by (intros []; vm_compute; reflexivity).
  specialize (A l).
  apply (upto _ (fun z => forallb (fun d => let m := z + 1 in let d := Z.of_nat d + 1 in (mlen l m <? d) ||
     ((0 <=? mdays l m d) && (mdays l m d <? (if l then 366 else 365)) && (fst (absMonth l (mdays l m d)) =? m) && (snd (absMonth l (mdays l m d)) =? d))) (seq 0 31))) with (z := m - 1) in A; [|lia].
  apply (upto _ (fun y => let m := m - 1 + 1 in let d := y + 1 in (mlen l m <? d) ||
     ((0 <=? mdays l m d) && (mdays l m d <? (if l then 366 else 365)) && (fst (absMonth l (mdays l m d)) =? m) && (snd (absMonth l (mdays l m d)) =? d)))) with (z := d - 1) in A; [|lia].
  cbv zeta in A. replace (m - 1 + 1) with m in A by lia. replace (d - 1 + 1) with d in A by lia.
  apply orb_true_iff in A. destruct A as [A|A]; [lia|]. rewrite !andb_true_iff, !Z.eqb_eq, Z.leb_le, Z.ltb_lt in A.
  destruct A as (((A1 & A2) & A3) & A4). split; [lia|]. rewrite <- A3 at 2. rewrite <- A4 at 3. apply surjective_pairing.
Qed.
(* a date of the calendar *)
Definition real (x : Z * Z * Z) : Prop := let '(y, m, d) := x in 1 <= m <= 12 /\ 1 <= d <= daysIn m y.
Definition days (x : Z * Z * Z) : Z := let '(y, m, d) := x in dateDays y m d.
Lemma dateDays_mdays y m d : dateDays y m d = daysSinceEpoch y + mdays (isLeap y) m d.
Proof. unfold dateDays, mdays. lia. Qed.
Lemma absDate_ok n x : absDate n = x -> real x /\ days x = n.
Proof.
  unfold absDate. destruct (absYear n) as [y k] eqn:E. destruct (absMonth (isLeap y) k) as [m d] eqn:E2. intros <-.
  destruct (absYear_ok _ _ _ E) as (E3 & E4). destruct (absMonth_ok _ _ _ _ E4 E2) as (H1 & H2 & H3).
  cbn [real days]. rewrite daysIn_mlen, dateDays_mdays. repeat split; lia.
Qed.
Lemma absDate_inv x : real x -> absDate (days x) = x.
Proof.
  destruct x as [[y m] d]. cbn [real days]. intros (H1 & H2). rewrite daysIn_mlen in H2.
  destruct (mdays_ok _ _ _ H1 H2) as (H3 & H4). unfold absDate. rewrite dateDays_mdays, absYear_inv by exact H3. now rewrite H4.
Qed.
Lemma month_length_ok y m n : month_length y m n <-> 1 <= m <= 12 /\ n = daysIn m y.
Proof.
  rewrite daysIn_mlen. split.
  - intros H. inversion H as [m' Hi|m' Hi|L|L]; subst.
    + clear H. cbn in Hi. destruct (isLeap y); repeat (destruct Hi as [Hi|Hi]; [subst m; split; [lia|vm_compute; reflexivity]|]); destruct Hi.
    + clear H. cbn in Hi. destruct (isLeap y); repeat (destruct Hi as [Hi|Hi]; [subst m; split; [lia|vm_compute; reflexivity]|]); destruct Hi.
    + apply isLeap_ok in L. rewrite L. split; [lia|reflexivity].
    + destruct (isLeap y) eqn:E; [apply isLeap_ok in E; tauto|]. split; [lia|reflexivity].
  - intros (H & ->). assert (C : m = 1 \/ m = 2 \/ m = 3 \/ m = 4 \/ m = 5 \/ m = 6 \/ m = 7 \/ m = 8 \/ m = 9 \/ m = 10 \/ m = 11 \/ m = 12) by lia.
    repeat (destruct C as [->|C]); [..|subst m];
      try (destruct (isLeap y) eqn:E; apply ml_31; cbn; tauto); try (destruct (isLeap y) eqn:E; apply ml_30; cbn; tauto).
    destruct (isLeap y) eqn:E; [apply ml_29; now apply isLeap_ok|apply ml_28; rewrite <- isLeap_ok; congruence].
Qed.
Lemma mdays_next_month l m : 1 <= m < 12 -> mdays l (m + 1) 1 = mdays l m (mlen l m) + 1.
Proof.
  intros H. assert (A : forall l : bool, forallb (fun m => let m := Z.of_nat m + 1 in mdays l (m + 1) 1 =? mdays l m (mlen l m) + 1) (seq 0 11) = true) by (intros []; vm_compute; reflexivity).
  specialize (A l). apply (upto _ (fun z => let m := z + 1 in mdays l (m + 1) 1 =? mdays l m (mlen l m) + 1)) with (z := m - 1) in A; [|lia].
  cbv zeta in A. replace (m - 1 + 1) with m in A by lia. lia.
Qed.
Lemma mlen_bounds l m : 1 <= m <= 12 -> 28 <= mlen l m <= 31.
Proof.
  intros H. assert (A : forall l : bool, forallb (fun m => let m := Z.of_nat m + 1 in (28 <=? mlen l m) && (mlen l m <=? 31)) (seq 0 12) = true) by (intros []; vm_compute; reflexivity).
  specialize (A l). apply (upto _ (fun z => let m := z + 1 in (28 <=? mlen l m) && (mlen l m <=? 31))) with (z := m - 1) in A; [|lia].
  cbv zeta in A. replace (m - 1 + 1) with m in A by lia. lia.
Qed.
Lemma mlen_pos l m : 1 <= m <= 12 -> 1 <= mlen l m.
Proof. intros H. pose proof (mlen_bounds l m H). lia. Qed.
Lemma follows_days x x' : follows x x' -> real x /\ real x' /\ days x' = days x + 1.
Proof.
  intros H. destruct H as [y m d n L H|y m d L H|y].
  - apply month_length_ok in L. destruct L as (L & ->). cbn [real days]. rewrite !dateDays_mdays. unfold mdays.
    repeat split; lia.
  - apply month_length_ok in L. destruct L as (L & ->). cbn [real days]. rewrite !dateDays_mdays, !daysIn_mlen.
    pose proof (mlen_pos (isLeap y) m L). pose proof (mlen_pos (isLeap y) (m + 1) ltac:(lia)).
    rewrite mdays_next_month by lia. repeat split; lia.
  - cbn [real days]. rewrite !dateDays_mdays, !daysIn_mlen, daysSince_next. unfold yearlen.
    destruct (isLeap y); destruct (isLeap (y + 1)); 
      change (mlen true 12) with 31; change (mlen false 12) with 31; change (mlen true 1) with 31; change (mlen false 1) with 31;
      change (mdays true 12 31) with 365; change (mdays false 12 31) with 364; change (mdays true 1 1) with 0; change (mdays false 1 1) with 0;
      repeat split; lia.
Qed.
Lemma date_days n x : date n x -> real x /\ days x = n + epochDays.
Proof.
  induction 1 as [|n x x' H IH F|n x x' H IH F].
  - split; [vm_compute; repeat split; discriminate|]. vm_compute. reflexivity.
  - destruct (follows_days _ _ F) as (_ & R & E). split; auto. lia.
  - destruct (follows_days _ _ F) as (R & _ & E). split; auto. lia.
Qed.
Lemma real_next x : real x -> exists x', follows x x'.
Proof.
  destruct x as [[y m] d]. cbn [real]. intros (H1 & H2).
  assert (L : month_length y m (daysIn m y)) by (now apply month_length_ok).
  destruct (Z.eq_dec d (daysIn m y)) as [->|N].
  - destruct (Z.eq_dec m 12) as [->|M].
    + exists (y + 1, 1, 1). replace (daysIn 12 y) with 31; [constructor|]. rewrite daysIn_mlen. destruct (isLeap y); reflexivity.
    + exists (y, m + 1, 1). constructor; auto. lia.
  - exists (y, m, d + 1). econstructor; [exact L|lia].
Qed.
Lemma real_prev x' : real x' -> exists x, follows x x'.
Proof.
  destruct x' as [[y m] d]. cbn [real]. intros (H1 & H2).
  destruct (Z.eq_dec d 1) as [->|N].
  - destruct (Z.eq_dec m 1) as [->|M].
    + exists (y - 1, 12, 31). replace y with (y - 1 + 1) at 2 by lia. constructor.
    + exists (y, m - 1, daysIn (m - 1) y). replace m with (m - 1 + 1) at 3 by lia. constructor; [|lia]. apply month_length_ok. lia.
  - exists (y, m, d - 1). replace d with (d - 1 + 1) at 2 by lia. econstructor; [apply month_length_ok; split; [exact H1|reflexivity]|lia].
Qed.
Lemma date_total n : exists x, date n x.
Proof.
  destruct (Z_le_gt_dec 0 n) as [H|H].
  - pattern n. apply natlike_ind; [eexists; constructor| |exact H]. intros k _ (x & Hx).
    destruct (real_next x (proj1 (date_days _ _ Hx))) as (x' & F). exists x'. apply da_after with x; auto.
  - replace n with (- (- n)) by lia. generalize (- n) as k, (ltac:(lia) : 0 <= - n). intros k Hk. pattern k.
    apply natlike_ind; [eexists; constructor| |exact Hk]. intros j _ (x & Hx).
    destruct (real_prev x (proj1 (date_days _ _ Hx))) as (x' & F). exists x'. replace (- Z.succ j) with (- j - 1) by lia. apply da_before with x; auto.
Qed.
(* Go's arithmetic is the calendar *)
Lemma date_abs n x : date n x <-> absDate (n + epochDays) = x.
Proof.
  split.
  - intros H. destruct (date_days _ _ H) as (R & <-). now apply absDate_inv.
  - intros H. destruct (date_total n) as (x' & D). destruct (date_days _ _ D) as (R & E). rewrite <- E, absDate_inv in H by auto. now subst.
Qed.
Lemma date_of_real x : real x -> date (days x - epochDays) x.
Proof. intros R. apply date_abs. replace (days x - epochDays + epochDays) with (days x) by lia. now apply absDate_inv. Qed.
Lemma date_unique n x x' : date n x -> date n x' -> x = x'.
Proof. rewrite !date_abs. congruence. Qed.
