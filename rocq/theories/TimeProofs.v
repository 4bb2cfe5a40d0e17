(* Lemmas about texts of times. *)
From Coq Require Import Bool Ascii String Arith NArith ZArith Lia List.
From Verif Require Import Prelude Utf8Model Utf8Facts DecModel DecFacts DurModel EncModel JsonModel TimeModel TimeSpec TimeCal.
Import ListNotations.
Local Open Scope Z_scope.

(* ---- numbers ---- *)
Lemma number_app l c : number (l ++ [c]) = 10 * number l + Z.of_N (dval c).
Proof. unfold number. rewrite fold_left_app. cbn [fold_left]. lia. Qed.
Lemma number_nonneg l : 0 <= number l.
Proof. unfold number. lia. Qed.
Lemma number_nil : number [] = 0.
Proof. reflexivity. Qed.
Lemma chr_digit d : 0 <= d <= 9 -> is_digit (chr (Z.to_N (48 + d))) = true /\ Z.of_N (dval (chr (Z.to_N (48 + d)))) = d.
Proof. intros H. unfold is_digit, dval. rewrite code_chr by lia. split; [apply andb_true_iff; rewrite !N.leb_le; lia|lia]. Qed.
Lemma digit_chr c : is_digit c = true -> 0 <= Z.of_N (dval c) <= 9 /\ c = chr (Z.to_N (48 + Z.of_N (dval c))).
Proof.
  unfold is_digit, dval. rewrite andb_true_iff, !N.leb_le. intros H. split; [lia|].
  replace (Z.to_N (48 + Z.of_N (code c - 48))) with (code c) by lia. unfold chr, code. now rewrite ascii_N_embedding.
Qed.
Lemma numeral_number l n : numeral l n <-> forallb is_digit l = true /\ number l = n.
Proof.
  split.
  - induction 1 as [|l n d H (IH1 & IH2) Hd]; [split; reflexivity|]. destruct (chr_digit d Hd) as (H1 & H2).
    rewrite forallb_app, IH1, number_app, H2, IH2. cbn [forallb]. rewrite H1. split; reflexivity.
  - intros (H & <-). induction l as [|c l IH] using rev_ind; [constructor|].
    rewrite forallb_app in H. apply andb_true_iff in H. destruct H as (H1 & H2). cbn [forallb] in H2. rewrite andb_true_r in H2.
    rewrite number_app. destruct (digit_chr c H2) as (H3 & H4). rewrite H4 at 1. constructor; auto.
Qed.
Lemma numeral_det l n n' : numeral l n -> numeral l n' -> n = n'.
Proof. rewrite !numeral_number. intuition congruence. Qed.
Lemma parseUint_ok l lo hi x : parseUint l lo hi = Some x <-> numeral l x /\ lo <= x <= hi.
Proof.
  unfold parseUint. rewrite numeral_number. destruct (forallb is_digit l); [|split; [discriminate|intuition discriminate]].
  cbv zeta. destruct ((number l <? lo) || (hi <? number l)) eqn:E.
  - split; [discriminate|]. intros ((_ & <-) & H). apply orb_true_iff in E. lia.
  - apply orb_false_iff in E. split.
    + intros [= <-]. repeat split; lia.
    + intros ((_ & <-) & H). reflexivity.
Qed.
Lemma number_split a b : number (a ++ b) = number a * 10 ^ Z.of_nat (length b) + number b.
Proof.
  induction b as [|c b IH] using rev_ind.
  - rewrite app_nil_r. cbn. change (number []) with 0. lia.
  - rewrite app_assoc, !number_app, IH, app_length. cbn [length]. replace (Z.of_nat (length b + 1)) with (Z.of_nat (length b) + 1) by lia.
    rewrite Z.pow_add_r by lia. lia.
Qed.
Lemma number_bound l : forallb is_digit l = true -> 0 <= number l < 10 ^ Z.of_nat (length l).
Proof.
  induction l as [|c l IH] using rev_ind; [cbn; lia|]. rewrite forallb_app, andb_true_iff. cbn [forallb]. rewrite andb_true_r.
  intros (H1 & H2). rewrite number_app, app_length. cbn [length]. replace (Z.of_nat (length l + 1)) with (Z.of_nat (length l) + 1) by lia.
  rewrite Z.pow_add_r by lia. specialize (IH H1). destruct (digit_chr c H2) as (H3 & _). lia.
Qed.
Lemma readdec_number l : forall a, Z.of_N (readdec l a) = Z.of_N a * 10 ^ Z.of_nat (length l) + number l.
Proof.
  intros a. revert a. induction l as [|c l IH] using rev_ind; intros a.
  - cbn. change (number []) with 0. lia.
  - rewrite readdec_app, number_app, app_length. cbn [readdec length]. replace (Z.of_nat (length l + 1)) with (Z.of_nat (length l) + 1) by lia.
    rewrite Z.pow_add_r by lia. specialize (IH a). lia.
Qed.
Lemma number_dec n : number (dec n) = Z.of_N n.
Proof. pose proof (readdec_number (dec n) 0) as H. rewrite dec_read in H. lia. Qed.
Lemma dec_all_digits n : forallb is_digit (dec n) = true.
Proof. apply forallb_forall. apply Forall_forall. apply dec_digits. Qed.
Lemma dec_length n (w : nat) : (1 <= w)%nat -> Z.of_N n < 10 ^ Z.of_nat w -> (length (dec n) <= w)%nat.
Proof.
  intros Hw H. destruct (dec_head n) as (d & t & E & Hd & Hz). rewrite E. cbn [length].
  destruct (N.eq_dec d 0) as [->|Nz]; [destruct (Hz eq_refl) as (_ & ->); cbn; lia|].
  pose proof (number_dec n) as Q. rewrite E in Q. change (digit d :: t) with ([digit d] ++ t) in Q. rewrite number_split in Q.
  assert (D : number [digit d] = Z.of_N d) by (unfold number; cbn [fold_left]; rewrite dval_digit by lia; lia). rewrite D in Q.
  destruct (Nat.le_gt_cases (S (length t)) w) as [L|L]; auto. exfalso.
  assert (10 ^ Z.of_nat w <= 10 ^ Z.of_nat (length t)) by (apply Z.pow_le_mono_r; lia). pose proof (number_nonneg t).
  assert (1 * 10 ^ Z.of_nat (length t) <= Z.of_N d * 10 ^ Z.of_nat (length t)) by (apply Z.mul_le_mono_nonneg_r; lia). lia.
Qed.
Lemma zeros_digits k : forallb is_digit (repeat (chr 48) k) = true /\ number (repeat (chr 48) k) = 0.
Proof.
  induction k as [|k (IH1 & IH2)]; [split; reflexivity|]. cbn [repeat forallb]. split; [exact IH1|].
  change (chr 48 :: repeat (chr 48) k) with ([chr 48] ++ repeat (chr 48) k). rewrite number_split, IH2. reflexivity.
Qed.
Lemma appendInt_digits x w : 0 <= x -> forallb is_digit (appendInt x w) = true /\ number (appendInt x w) = x.
Proof.
  intros H. unfold appendInt. replace (x <? 0) with false by lia. cbv zeta. cbn [app].
  destruct (zeros_digits (w - length (dec (Z.abs_N x)))) as (Z1 & Z2).
  rewrite forallb_app, Z1, dec_all_digits, number_split, Z2, number_dec. split; [reflexivity|lia].
Qed.
Lemma appendInt_ok x w : (1 <= w)%nat -> 0 <= x < 10 ^ Z.of_nat w -> digits w (appendInt x w) x.
Proof.
  intros Hw H. destruct (appendInt_digits x w (proj1 H)) as (H1 & H2). split; [now apply numeral_number|].
  unfold appendInt. replace (x <? 0) with false by lia. cbv zeta. cbn [app]. rewrite app_length, repeat_length.
  pose proof (dec_length (Z.abs_N x) w Hw ltac:(lia)). lia.
Qed.
Lemma appendInt_long x w : 10 ^ Z.of_nat w <= x -> (w < length (appendInt x w))%nat.
Proof.
  intros H. assert (0 < 10 ^ Z.of_nat w) by (apply Z.pow_pos_nonneg; lia). destruct (appendInt_digits x w ltac:(lia)) as (H1 & H2).
  pose proof (number_bound _ H1) as Bd. rewrite H2 in Bd. destruct (Nat.le_gt_cases (length (appendInt x w)) w) as [L|L]; auto. exfalso.
  assert (10 ^ Z.of_nat (length (appendInt x w)) <= 10 ^ Z.of_nat w) by (apply Z.pow_le_mono_r; lia). lia.
Qed.
Lemma numeral_two l n : digits 2 l n -> exists a b, l = [a; b].
Proof. intros (_ & H). destruct l as [|a [|b [|]]]; try discriminate. eauto. Qed.
Lemma numeral_four l n : digits 4 l n -> exists a b c d, l = [a; b; c; d].
Proof. intros (_ & H). destruct l as [|a [|b [|c [|d [|]]]]]; try discriminate. eauto 6. Qed.
Lemma digits_bound w l n : digits w l n -> 0 <= n < 10 ^ Z.of_nat w.
Proof. intros (H & <-). apply numeral_number in H. destruct H as (H & <-). now apply number_bound. Qed.

(* ---- the fraction ---- *)
Lemma take_digits_spec s : forall ds r, take_digits s = (ds, r) ->
  s = ds ++ r /\ forallb is_digit ds = true /\ match r with c :: _ => is_digit c = false | [] => True end.
Proof.
  induction s as [|c s IH]; cbn [take_digits]; intros ds r E.
  - injection E as <- <-. auto.
  - destruct (is_digit c) eqn:D.
    + destruct (take_digits s) as [ds' r'] eqn:E2. injection E as <- <-. destruct (IH _ _ eq_refl) as (-> & H1 & H2).
      cbn [forallb app]. rewrite D. auto.
    + injection E as <- <-. cbn [app forallb]. auto.
Qed.
Lemma take_digits_app ds r : forallb is_digit ds = true -> match r with c :: _ => is_digit c = false | [] => True end -> take_digits (ds ++ r) = (ds, r).
Proof.
  intros H1 H2. induction ds as [|c ds IH]; cbn [app].
  - destruct r as [|c r]; [reflexivity|]. cbn [take_digits]. now rewrite H2.
  - cbn [forallb] in H1. apply andb_true_iff in H1. cbn [take_digits]. rewrite (proj1 H1), IH by tauto. reflexivity.
Qed.
Lemma nanoseconds_ok w l n : digits w l n -> nanoseconds l = n * 10 ^ 9 / 10 ^ Z.of_nat w.
Proof.
  intros (H & <-). apply numeral_number in H. destruct H as (H & <-). unfold nanoseconds. cbv zeta.
  destruct (Nat.le_gt_cases (length l) 9) as [L|L].
  - rewrite firstn_all2 by auto. set (k := Z.of_nat (length l)). replace (Z.of_nat (9 - length l)) with (9 - k) by lia.
    replace (10 ^ 9) with (10 ^ (9 - k) * 10 ^ k) by (rewrite <- Z.pow_add_r by lia; f_equal; lia).
    rewrite Z.mul_assoc, Z.div_mul; [reflexivity|]. apply Z.pow_nonzero; lia.
  - assert (F : length (firstn 9 l) = 9%nat) by (rewrite firstn_length; lia). rewrite F. cbn [Nat.sub]. rewrite Z.pow_0_r, Z.mul_1_r.
    rewrite <- (firstn_skipn 9 l) at 2. rewrite number_split. set (a := number (firstn 9 l)). set (b := number (skipn 9 l)).
    rewrite skipn_length. set (k := Z.of_nat (length l - 9)).
    replace (Z.of_nat (length l)) with (k + 9) by lia. rewrite Z.pow_add_r by lia.
    rewrite Z.div_mul_cancel_r by (try apply Z.pow_nonzero; lia).
    assert (Bb : 0 <= b < 10 ^ k).
    { unfold b, k. rewrite <- skipn_length. apply number_bound. rewrite <- (firstn_skipn 9 l), forallb_app, andb_true_iff in H. tauto. }
    rewrite Z.div_add_l by lia. rewrite Z.div_small by lia. lia.
Qed.
Definition no_digit (s : bytes) : Prop := match s with c :: _ => is_digit c = false | [] => True end.
Lemma parseFrac_spec s ns r : parseFrac s = (ns, r) -> exists tf, s = tf ++ r /\ fraction tf ns.
Proof.
  unfold parseFrac. destruct s as [|p [|c s']]; try (intros [= <- <-]; exists []; split; [reflexivity|constructor]).
  destruct ((code p =? 46)%N && is_digit c) eqn:E; [|intros [= <- <-]; exists []; split; [reflexivity|constructor]].
  cbn [tl]. destruct (take_digits (c :: s')) as [ds r'] eqn:E2. intros [= <- <-].
  apply andb_true_iff in E. destruct E as (E & Ec). apply N.eqb_eq in E.
  destruct (take_digits_spec _ _ _ E2) as (E3 & D & _). exists (p :: ds). split; [cbn [app]; now rewrite <- E3|].
  replace p with (chr 46) by (rewrite <- E; unfold chr, code; now rewrite ascii_N_embedding).
  assert (Dg : digits (length ds) ds (number ds)) by (split; [now apply numeral_number|reflexivity]).
  rewrite (nanoseconds_ok _ _ _ Dg). econstructor; [exact Dg|]. destruct ds; [|cbn; lia].
  cbn [take_digits] in E2. rewrite Ec in E2. destruct (take_digits s'); discriminate.
Qed.
Lemma parseFrac_app tf ns r : fraction tf ns -> no_digit r -> match r with c :: _ => code c <> 46%N | [] => True end -> parseFrac (tf ++ r) = (ns, r).
Proof.
  intros F H1 H2. destruct F as [|l n w D Hw].
  - cbn [app]. unfold parseFrac. destruct r as [|p [|c r']]; auto. apply N.eqb_neq in H2. now rewrite H2.
  - pose proof D as (Nu & L). apply numeral_number in Nu. destruct Nu as (Nu & _).
    destruct l as [|c l]; [cbn in L; lia|]. cbn [app]. unfold parseFrac.
    pose proof Nu as Nu'. cbn [forallb] in Nu'. apply andb_true_iff in Nu'. rewrite (proj1 Nu'). rewrite code_chr by lia. cbn [N.eqb Pos.eqb andb tl].
    change (c :: l ++ r) with ((c :: l) ++ r). rewrite take_digits_app by auto. now rewrite (nanoseconds_ok _ _ _ D).
Qed.
Lemma trim0_spec l : exists k, l = trim0 l ++ repeat (chr 48) k.
Proof.
  induction l as [|c l (k & IH)]; [exists 0%nat; reflexivity|]. cbn [trim0]. destruct (trim0 l) as [|x l'] eqn:E.
  - cbn [app] in IH. destruct (N.eqb_spec (code c) 48) as [C|C].
    + exists (S k). cbn [repeat app]. rewrite <- IH. f_equal. rewrite <- C. unfold chr, code. now rewrite ascii_N_embedding.
    + exists k. cbn [app]. now rewrite <- IH.
  - exists k. cbn [app]. f_equal. exact IH.
Qed.
Lemma appendNano_ok ns : 0 <= ns < 10 ^ 9 -> fraction (appendNano ns) ns.
Proof.
  intros H. unfold appendNano. destruct (Z.eqb_spec ns 0) as [->|N0]; [constructor|].
  destruct (appendInt_ok ns 9 ltac:(lia) H) as (Nu & L). apply numeral_number in Nu. destruct Nu as (D & V).
  destruct (trim0_spec (appendInt ns 9)) as (k & E). set (a := trim0 (appendInt ns 9)) in *. rewrite E in D, V, L.
  rewrite forallb_app, andb_true_iff in D. rewrite number_split, repeat_length, (proj2 (zeros_digits k)) in V. rewrite app_length, repeat_length in L.
  assert (Dg : digits (length a) a (number a)) by (split; [apply numeral_number; tauto|reflexivity]).
  assert (La : (1 <= length a)%nat) by (destruct a; [change (number []) with 0 in V; lia|cbn; lia]).
  clearbody a. replace ns with (number a * 10 ^ 9 / 10 ^ Z.of_nat (length a)).
  - econstructor; eauto.
  - replace (10 ^ 9) with (10 ^ Z.of_nat k * 10 ^ Z.of_nat (length a)) by (rewrite <- Z.pow_add_r by lia; f_equal; lia).
    rewrite Z.mul_assoc, Z.div_mul by (apply Z.pow_nonzero; lia). lia.
Qed.

(* ---- the zone ---- *)
Lemma chr_is c n : (code c =? n)%N = true -> c = chr n.
Proof. intros H. apply N.eqb_eq in H. subst. unfold chr, code. now rewrite ascii_N_embedding. Qed.
Lemma parseZone_ok s off : parseZone s = Some off <-> zone s off.
Proof.
  split.
  - destruct s as [|g [|h1 [|h2 [|c [|m1 [|m2 [|]]]]]]]; cbn [parseZone]; try discriminate.
    + destruct (code g =? 90)%N eqn:E; [|discriminate]. intros [= <-]. apply chr_is in E. subst g. exact zo_utc.
    + destruct (parseUint [h1; h2] 0 23) as [h|] eqn:Eh; [|discriminate]. destruct (parseUint [m1; m2] 0 59) as [m|] eqn:Em; [|discriminate].
      apply parseUint_ok in Eh, Em. destruct Eh as (Nh & Bh). destruct Em as (Nm & Bm).
      assert (Dh : digits 2 [h1; h2] h) by (split; auto). assert (Dm : digits 2 [m1; m2] m) by (split; auto).
      destruct ((code g =? 45)%N || (code g =? 43)%N) eqn:Eg; cbn [andb]; [|discriminate]. destruct (code c =? 58)%N eqn:Ec; [|discriminate].
      apply chr_is in Ec. subst c. destruct (code g =? 45)%N eqn:Eg2.
      * intros [= <-]. apply chr_is in Eg2. subst g. change (zone (B "-" ++ [h1; h2] ++ B ":" ++ [m1; m2]) (- ((h * 60 + m) * 60))).
        apply zo_west; auto; lia.
      * cbn [orb] in Eg. intros [= <-]. apply chr_is in Eg. subst g. change (zone (B "+" ++ [h1; h2] ++ B ":" ++ [m1; m2]) ((h * 60 + m) * 60)).
        apply zo_east; auto; lia.
  - intros H. destruct H as [|a b h m Dh Dm Hh Hm|a b h m Dh Dm Hh Hm]; [reflexivity| |].
    + pose proof (digits_bound _ _ _ Dh). pose proof (digits_bound _ _ _ Dm). destruct (numeral_two _ _ Dh) as (h1 & h2 & ->). destruct (numeral_two _ _ Dm) as (m1 & m2 & ->). cbn [app B list_ascii_of_string parseZone].
      replace (parseUint [h1; h2] 0 23) with (Some h) by (symmetry; apply parseUint_ok; destruct Dh; split; [assumption|lia]).
      replace (parseUint [m1; m2] 0 59) with (Some m) by (symmetry; apply parseUint_ok; destruct Dm; split; [assumption|lia]). reflexivity.
    + pose proof (digits_bound _ _ _ Dh). pose proof (digits_bound _ _ _ Dm). destruct (numeral_two _ _ Dh) as (h1 & h2 & ->). destruct (numeral_two _ _ Dm) as (m1 & m2 & ->). cbn [app B list_ascii_of_string parseZone].
      replace (parseUint [h1; h2] 0 23) with (Some h) by (symmetry; apply parseUint_ok; destruct Dh; split; [assumption|lia]).
      replace (parseUint [m1; m2] 0 59) with (Some m) by (symmetry; apply parseUint_ok; destruct Dm; split; [assumption|lia]). reflexivity.
Qed.
Lemma zone_head z off : zone z off -> no_digit z /\ match z with c :: _ => code c <> 46%N | [] => True end.
Proof. intros []; cbn; split; try reflexivity; discriminate. Qed.
Lemma appendZone_ok off : Z.abs off < 86400 -> zone (appendZone off) (60 * Z.quot off 60).
Proof.
  intros H. unfold appendZone. destruct (Z.eqb_spec off 0) as [->|N0]; [exact zo_utc|]. cbv zeta. set (z := Z.quot off 60).
  assert (Hz : Z.abs z < 1440) by (unfold z; Z.quot_rem_to_equations; lia).
  assert (D1 : digits 2 (appendInt (Z.abs z / 60) 2) (Z.abs z / 60)) by (apply appendInt_ok; [lia|Z.div_mod_to_equations; lia]).
  assert (D2 : digits 2 (appendInt (Z.abs z mod 60) 2) (Z.abs z mod 60)) by (apply appendInt_ok; [lia|Z.div_mod_to_equations; lia]).
  destruct (z <? 0) eqn:E.
  - replace (60 * z) with (- ((Z.abs z / 60 * 60 + Z.abs z mod 60) * 60)) by (Z.div_mod_to_equations; lia).
    change (chr 45 :: appendInt (Z.abs z / 60) 2 ++ [chr 58] ++ appendInt (Z.abs z mod 60) 2)
      with (B "-" ++ appendInt (Z.abs z / 60) 2 ++ B ":" ++ appendInt (Z.abs z mod 60) 2).
    apply zo_west; auto; Z.div_mod_to_equations; lia.
  - replace (60 * z) with ((Z.abs z / 60 * 60 + Z.abs z mod 60) * 60) by (Z.div_mod_to_equations; lia).
    change (chr 43 :: appendInt (Z.abs z / 60) 2 ++ [chr 58] ++ appendInt (Z.abs z mod 60) 2)
      with (B "+" ++ appendInt (Z.abs z / 60) 2 ++ B ":" ++ appendInt (Z.abs z mod 60) 2).
    apply zo_east; auto; Z.div_mod_to_equations; lia.
Qed.

(* ---- the whole ---- *)
Lemma parse_rfc s t : parseRFC3339 s = Some t <-> rfc3339 s t.
Proof.
  split.
  - do 19 (destruct s as [|? s]; [discriminate|]). cbn [parseRFC3339].
    destruct (parseUint [a; a0; a1; a2] 0 9999) as [y|] eqn:Ey; [|discriminate]. destruct (parseUint [a4; a5] 1 12) as [m|] eqn:Em; [|discriminate].
    destruct (parseUint [a7; a8] 1 (daysIn m y)) as [d|] eqn:Ed; [|discriminate]. destruct (parseUint [a10; a11] 0 23) as [h|] eqn:Eh; [|discriminate].
    destruct (parseUint [a13; a14] 0 59) as [i|] eqn:Ei; [|discriminate]. destruct (parseUint [a16; a17] 0 59) as [sec|] eqn:Es; [|discriminate].
    destruct (code a3 =? 45)%N eqn:C1; [|discriminate]. destruct (code a6 =? 45)%N eqn:C2; [|discriminate]. destruct (code a9 =? 84)%N eqn:C3; [|discriminate].
    destruct (code a12 =? 58)%N eqn:C4; [|discriminate]. destruct (code a15 =? 58)%N eqn:C5; [|discriminate]. cbn [andb].
    apply chr_is in C1, C2, C3, C4, C5. destruct (parseFrac s) as [ns r] eqn:Ef. destruct (parseZone r) as [off|] eqn:Ez; [|discriminate].
    intros E. apply parseUint_ok in Ey, Em, Ed, Eh, Ei, Es. destruct (parseFrac_spec _ _ _ Ef) as (tf & -> & F). apply parseZone_ok in Ez.
    assert (R : real (y, m, d)) by (cbn [real]; tauto). apply date_of_real in R. cbn [days] in R.
    assert (Et : t = GTime ((dateDays y m d - epochDays) * 86400 + h * 3600 + i * 60 + sec - off) ns off) by (injection E as <-; f_equal; lia).
    subst a3 a6 a9 a12 a15 t. clear E.
    change (rfc3339 ([a; a0; a1; a2] ++ B "-" ++ [a4; a5] ++ B "-" ++ [a7; a8] ++ B "T" ++ [a10; a11] ++ B ":" ++ [a13; a14] ++ B ":" ++ [a16; a17] ++ tf ++ r)
      (GTime ((dateDays y m d - epochDays) * 86400 + h * 3600 + i * 60 + sec - off) ns off)).
    eapply rfc; try exact R; try exact F; try exact Ez; try (split; [tauto|reflexivity]); lia.
  - intros H. destruct H as [ty tm td th ti ts tf tz y m d h i sec ns off n Dy Dm Dd Dh Di Ds Da Hh Hi Hs Ff Hz].
    destruct (numeral_four _ _ Dy) as (y1 & y2 & y3 & y4 & ->). destruct (numeral_two _ _ Dm) as (m1 & m2 & ->). destruct (numeral_two _ _ Dd) as (d1 & d2 & ->).
    destruct (numeral_two _ _ Dh) as (h1 & h2 & ->). destruct (numeral_two _ _ Di) as (i1 & i2 & ->). destruct (numeral_two _ _ Ds) as (s1 & s2 & ->).
    pose proof (digits_bound _ _ _ Dy). pose proof (digits_bound _ _ _ Dh). pose proof (digits_bound _ _ _ Di). pose proof (digits_bound _ _ _ Ds).
    destruct (date_days _ _ Da) as ((Rm & Rd) & Ed). cbn [days] in Ed. cbn [app B list_ascii_of_string parseRFC3339].
    replace (parseUint [y1; y2; y3; y4] 0 9999) with (Some y) by (symmetry; apply parseUint_ok; destruct Dy; split; [assumption|lia]).
    replace (parseUint [m1; m2] 1 12) with (Some m) by (symmetry; apply parseUint_ok; destruct Dm; split; [assumption|lia]).
    replace (parseUint [d1; d2] 1 (daysIn m y)) with (Some d) by (symmetry; apply parseUint_ok; destruct Dd; split; [assumption|lia]).
    replace (parseUint [h1; h2] 0 23) with (Some h) by (symmetry; apply parseUint_ok; destruct Dh; split; [assumption|lia]).
    replace (parseUint [i1; i2] 0 59) with (Some i) by (symmetry; apply parseUint_ok; destruct Di; split; [assumption|lia]).
    replace (parseUint [s1; s2] 0 59) with (Some sec) by (symmetry; apply parseUint_ok; destruct Ds; split; [assumption|lia]).
    destruct (zone_head _ _ Hz) as (Z1 & Z2). rewrite (parseFrac_app _ _ _ Ff Z1 Z2). apply parseZone_ok in Hz. rewrite Hz.
    cbn [code]. change (match Some (GTime ((dateDays y m d - epochDays) * 86400 + (h * 3600 + i * 60 + sec) - off) ns off) with Some t => Some t | None => None end = Some (GTime (n * 86400 + h * 3600 + i * 60 + sec - off) ns off)).
    rewrite Ed. do 2 f_equal. lia.
Qed.
Definition abs_of (t : gtime) : Z := t_sec t + t_off t + epochDays * 86400.
Lemma abs_day t : abs_of t / 86400 = (t_sec t + t_off t) / 86400 + epochDays.
Proof. unfold abs_of. rewrite Z.div_add by lia. reflexivity. Qed.
Lemma abs_mod t : abs_of t mod 86400 = (t_sec t + t_off t) mod 86400.
Proof. unfold abs_of. rewrite Z.mod_add by lia. reflexivity. Qed.
(* what the text means *)
Definition whole_minutes (t : gtime) : gtime := GTime (t_sec t + t_off t - 60 * Z.quot (t_off t) 60) (t_nano t) (60 * Z.quot (t_off t) 60).
Lemma format_rfc t y : proper t -> year_of t y -> 0 <= y <= 9999 -> Z.abs (t_off t) < 86400 -> rfc3339 (format t) (whole_minutes t).
Proof.
  intros P (m & d & D) Hy Ho. unfold format. cbv zeta. fold (abs_of t). rewrite abs_day, abs_mod. pose proof (proj1 (date_abs _ _) D) as A. rewrite A.
  destruct (date_days _ _ D) as ((Rm & Rd) & _). rewrite daysIn_mlen in Rd. pose proof (mlen_bounds (isLeap y) m Rm) as Mb. 
  set (L := t_sec t + t_off t) in *. set (s := L mod 86400). assert (Hs : 0 <= s < 86400) by (unfold s; Z.div_mod_to_equations; lia).
  replace (whole_minutes t) with (GTime (L / 86400 * 86400 + s / 3600 * 3600 + s mod 3600 / 60 * 60 + s mod 60 - 60 * Z.quot (t_off t) 60) (t_nano t) (60 * Z.quot (t_off t) 60)).
  2:{ unfold whole_minutes. f_equal. fold L. unfold s. clearbody L. generalize (Z.quot (t_off t) 60). clear. intros q. Z.div_mod_to_equations. lia. }
  assert (H1 : 0 <= s / 3600 <= 23) by (clear - Hs; Z.div_mod_to_equations; lia).
  assert (H2 : 0 <= s mod 3600 / 60 <= 59) by (clear - Hs; Z.div_mod_to_equations; lia).
  assert (H3 : 0 <= s mod 60 <= 59) by (clear - Hs; Z.div_mod_to_equations; lia).
  eapply rfc; [apply appendInt_ok; [lia|(change (10 ^ Z.of_nat 4) with 10000 + change (10 ^ Z.of_nat 2) with 100); lia]..|exact D| | | |now apply appendNano_ok|now apply appendZone_ok].
  all: lia.
Qed.

(* ---- times without such a text ---- *)
Definition opens (s : bytes) : bool :=
  match s with y1 :: y2 :: y3 :: y4 :: c :: _ => forallb is_digit [y1; y2; y3; y4] && (code c =? 45)%N | _ => false end.
Lemma rfc_opens s t : rfc3339 s t -> opens s = true.
Proof.
  intros H. destruct H as [ty tm td th ti ts tf tz y m d h i sec ns off n Dy]. destruct (numeral_four _ _ Dy) as (y1 & y2 & y3 & y4 & ->).
  destruct Dy as (Nu & _). apply numeral_number in Nu. cbn [app opens]. rewrite (proj1 Nu). reflexivity.
Qed.
Lemma parse_opens lenient s : opens s = false -> parse lenient s = None.
Proof.
  intros H. unfold parse. destruct (parseRFC3339 s) as [t|] eqn:E; [apply parse_rfc, rfc_opens in E; congruence|].
  destruct s as [|y1 [|y2 [|y3 [|y4 [|c s]]]]]; auto. cbn [opens] in H. now rewrite H.
Qed.
Lemma format_split t y : year_of t y -> exists r, format t = appendInt y 4 ++ r.
Proof.
  intros (m & d & D). unfold format. cbv zeta. fold (abs_of t). rewrite abs_day. pose proof (proj1 (date_abs _ _) D) as A. rewrite A. eauto.
Qed.
Lemma format_bad_year t y : year_of t y -> y < 0 \/ 9999 < y -> opens (format t) = false.
Proof.
  intros Y H. destruct (format_split t y Y) as (r & ->). destruct H as [H|H].
  - unfold appendInt. replace (y <? 0) with true by lia. cbn [app]. set (l := _ ++ r). clearbody l.
    destruct l as [|a [|b [|c [|d l]]]]; reflexivity.
  - pose proof (appendInt_long y 4 ltac:(change (10 ^ Z.of_nat 4) with 10000; lia)) as L. destruct (appendInt_digits y 4 ltac:(lia)) as (D & _).
    destruct (appendInt y 4) as [|a [|b [|c [|d [|e l]]]]]; cbn [length] in L; try lia. cbn [app opens].
    cbn [forallb] in D. rewrite !andb_true_iff in D. destruct D as (_ & _ & _ & _ & De & _).
    apply andb_false_iff. right. unfold is_digit in De. rewrite andb_true_iff, !N.leb_le in De. apply N.eqb_neq. lia.
Qed.
Lemma year_of_total t : exists y, year_of t y.
Proof. destruct (date_total ((t_sec t + t_off t) / 86400)) as ([[y m] d] & D). exists y, m, d. exact D. Qed.
Lemma zone_bounds s off : zone s off -> Z.abs off < 86400 /\ off mod 60 = 0.
Proof.
  intros H. destruct H as [|a b h m Dh Dm Hh Hm|a b h m Dh Dm Hh Hm]; [split; [lia|reflexivity]| |];
    pose proof (digits_bound _ _ _ Dh); pose proof (digits_bound _ _ _ Dm); split; try lia.
  - apply Z.mod_mul. lia.
  - replace (- ((h * 60 + m) * 60)) with (- (h * 60 + m) * 60) by lia. apply Z.mod_mul. lia.
Qed.
Lemma rfc_off s t : rfc3339 s t -> Z.abs (t_off t) < 86400 /\ t_off t mod 60 = 0.
Proof. intros H. destruct H as [ty tm td th ti ts tf tz y m d h i sec ns off n Dy Dm Dd Dh Di Ds Da Hh Hi Hs Ff Hz]. exact (zone_bounds _ _ Hz). Qed.
Lemma whole_same t : t_off t mod 60 = 0 -> whole_minutes t = t.
Proof.
  intros H. unfold whole_minutes. assert (E : 60 * Z.quot (t_off t) 60 = t_off t).
  { apply Z.mod_divide in H; [|lia]. destruct H as (k & H). rewrite H. rewrite Z.quot_mul by lia. lia. }
  rewrite E. destruct t. cbn. f_equal. lia.
Qed.
Lemma whole_differs t : t_off t mod 60 <> 0 -> t_sec (whole_minutes t) <> t_sec t.
Proof. intros H E. apply H. unfold whole_minutes in E. cbn [t_sec] in E.
  assert (Q : t_off t = Z.quot (t_off t) 60 * 60) by lia. rewrite Q. apply Z.mod_mul. lia. Qed.
Lemma parse_format_exact t y : proper t -> year_of t y -> parseRFC3339 (format t) = Some t <-> 0 <= y <= 9999 /\ Z.abs (t_off t) < 86400 /\ t_off t mod 60 = 0.
Proof.
  intros P Y. split.
  - intros H. apply parse_rfc in H. destruct (rfc_off _ _ H) as (H1 & H2). repeat split; auto; try lia;
    destruct (Z_lt_le_dec y 0); destruct (Z_lt_le_dec 9999 y); try lia; exfalso;
      (assert (O : opens (format t) = false) by (apply (format_bad_year t y); auto; lia)); rewrite (rfc_opens _ _ H) in O; discriminate.
  - intros (H1 & H2 & H3). apply parse_rfc. rewrite <- (whole_same t H3) at 2. now apply format_rfc with y.
Qed.
Lemma parse_strict lenient s t : parseRFC3339 s = Some t -> parse lenient s = Some t.
Proof. intros H. unfold parse. now rewrite H. Qed.

(* ---- JSON ---- *)
Definition plain (c : ascii) : Prop := (32 <= code c < 128 /\ code c <> 34 /\ code c <> 92 /\ code c <> 60 /\ code c <> 62 /\ code c <> 38)%N.
Lemma plain_runes c s : plain c -> runes (c :: s) = IRune (code c) :: runes s.
Proof.
  intros H. destruct H as (H & _). rewrite <- (chr_code c) at 1. change (chr (code c) :: s) with ([chr (code c)] ++ s).
  rewrite <- encode_ascii by lia. apply runes_encode. unfold valid_rune. replace (code c <? 0xD800)%N with true by (symmetry; apply N.ltb_lt; lia). reflexivity.
Qed.
Lemma plain_jesc short c : plain c -> jesc_rune short (code c) = [c].
Proof.
  intros (H & H1 & H2 & H3 & H4 & H5). unfold jesc_rune.
  repeat match goal with |- context [(?a =? ?b)%N] => replace (a =? b)%N with false by (symmetry; apply N.eqb_neq; lia) end.
  replace (code c <? 32)%N with false by (symmetry; apply N.ltb_ge; lia). rewrite !andb_false_r. cbn [orb]. rewrite encode_ascii by lia. now rewrite chr_code.
Qed.
Lemma plain_jstr short s : Forall plain s -> jstr short s = chr 34 :: s ++ [chr 34].
Proof.
  intros H. unfold jstr. f_equal. f_equal. induction H as [|c s Hc Hs IH]; [reflexivity|].
  rewrite plain_runes by auto. cbn [map concat jesc_item]. rewrite plain_jesc by auto. cbn [app]. f_equal. exact IH.
Qed.
Lemma plain_valid s : Forall plain s -> valid_utf8 s = true.
Proof.
  intros H. unfold valid_utf8. induction H as [|c s Hc Hs IH]; [reflexivity|]. rewrite plain_runes by auto. exact IH.
Qed.
Lemma digits_plain w l n : digits w l n -> Forall plain l.
Proof.
  intros (H & _). apply numeral_number in H. destruct H as (H & _). apply Forall_forall. intros c Hc. rewrite forallb_forall in H. specialize (H c Hc).
  unfold is_digit in H. rewrite andb_true_iff, !N.leb_le in H. unfold plain. lia.
Qed.
Ltac plain_chars := repeat (apply Forall_cons; [unfold plain; cbn; lia|]); apply Forall_nil.
Lemma rfc_plain s t : rfc3339 s t -> Forall plain s.
Proof.
  intros H. destruct H as [ty tm td th ti ts tf tz y m d h i sec ns off n Dy Dm Dd Dh Di Ds Da Hh Hi Hs Ff Hz].
  repeat (apply Forall_app; split); try (eapply digits_plain; eassumption); try plain_chars.
  - destruct Ff as [|l k w D _]; [constructor|]. constructor; [unfold plain; cbn; lia|]. eapply digits_plain; eauto.
  - destruct Hz as [|a b zh zm D1 D2 _ _|a b zh zm D1 D2 _ _]; repeat (apply Forall_app; split); try (eapply digits_plain; eassumption); plain_chars.
Qed.
Lemma appendInt_plain x w : Forall plain (appendInt x w).
Proof.
  unfold appendInt. apply Forall_app. split; [destruct (x <? 0); plain_chars|]. cbv zeta.
  assert (D : forall l, forallb is_digit l = true -> Forall plain l) by (intros l H; apply (digits_plain (length l) l (number l)); split; [now apply numeral_number|reflexivity]).
  apply Forall_app. split; apply D; [apply zeros_digits|apply dec_all_digits].
Qed.
Lemma Forall_trim0 l : Forall plain l -> Forall plain (trim0 l).
Proof. intros H. destruct (trim0_spec l) as (k & E). rewrite E in H. apply Forall_app in H. tauto. Qed.
Lemma plain_app a b : Forall plain a -> Forall plain b -> Forall plain (a ++ b).
Proof. intros. apply Forall_app. auto. Qed.
Lemma format_plain t : Forall plain (format t).
Proof.
  unfold format. cbv zeta. destruct (absDate _) as [[y m] d]. repeat first [apply appendInt_plain | apply plain_app]; try plain_chars.
  - unfold appendNano. destruct (t_nano t =? 0); [constructor|]. constructor; [unfold plain; cbn; lia|]. apply Forall_trim0, appendInt_plain.
  - unfold appendZone. destruct (t_off t =? 0); [plain_chars|]. cbv zeta. constructor; [destruct (Z.quot (t_off t) 60 <? 0); unfold plain; cbn; lia|].
    repeat first [apply appendInt_plain | apply plain_app]; plain_chars.
Qed.
Lemma unmarshal_plain lenient s : Forall plain s -> unmarshal_time lenient (chr 34 :: s ++ [chr 34]) = parse lenient s.
Proof.
  intros H. unfold unmarshal_time. change (beqb (chr 34 :: s ++ [chr 34]) (B "null")) with false. cbv iota.
  rewrite last_last, removelast_last. reflexivity.
Qed.
