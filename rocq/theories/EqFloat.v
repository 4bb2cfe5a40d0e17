(* Reading number texts as float64. *)
From Coq Require Import Bool Ascii String Arith NArith ZArith Lia List.
From Verif Require Import Prelude PreludeFacts Utf8Model Utf8Facts QuoteModel DecModel DecFacts DurModel DurProofs EncModel JsonModel JsonSpec JsonFacts
  RfcSpec EqModel EqSpec.
Import ListNotations.
Local Open Scope N_scope.

Lemma pow2_pos i : 0 < 2 ^ i. Proof. apply N.neq_0_lt_0, N.pow_nonzero. lia. Qed.
Lemma pow10_pos i : 0 < 10 ^ i. Proof. apply N.neq_0_lt_0, N.pow_nonzero. lia. Qed.

(* ---- rounding ---- *)
Lemma grid_gap n j g : 2 ^ 52 <= n \/ j = 0 -> grid g -> g <= n * 2 ^ j \/ (n + 1) * 2 ^ j <= g.
Proof.
  intros Hn (m & i & Hm & ->). destruct (N.le_gt_cases j i) as [Hji|Hij].
  - replace i with (j + (i - j)) by lia. rewrite N.pow_add_r. set (a := m * 2 ^ (i - j)).
    replace (m * (2 ^ j * 2 ^ (i - j))) with (a * 2 ^ j) by (unfold a; lia).
    destruct (N.le_gt_cases a n); [left|right]; apply N.mul_le_mono_r; lia.
  - left. destruct Hn as [Hn| ->]; [|lia]. replace j with (i + 1 + (j - i - 1)) by lia. rewrite !N.pow_add_r.
    change (2 ^ 1) with 2. pose proof (pow2_pos i) as H1. pose proof (pow2_pos (j - i - 1)) as H2. set (a := 2 ^ i) in *. set (b := 2 ^ (j - i - 1)) in *.
    assert (Hm2 : m <= 2 * n). { change (2 ^ 53) with (2 * 2 ^ 52) in Hm. lia. }
    clearbody a b. apply N.le_trans with (2 * n * a); [now apply N.mul_le_mono_r|]. nia.
Qed.
Lemma dist_ge X Q k : k * Q <= X -> Z.to_N (Z.abs (Z.of_N X - Z.of_N (k * Q))) = X - k * Q.
Proof. intros H. lia. Qed.
Lemma dist_le X Q k : X <= k * Q -> Z.to_N (Z.abs (Z.of_N X - Z.of_N (k * Q))) = k * Q - X.
Proof. intros H. lia. Qed.
Lemma odd_div n j : N.odd n = true -> ~ N.divide (2 ^ (j + 1)) (n * 2 ^ j).
Proof.
  intros Ho H. rewrite N.pow_add_r, N.mul_comm in H. change (2 ^ 1) with 2 in H. apply N.mul_divide_cancel_r in H; [|pose proof (pow2_pos j); lia].
  destruct H as [c ->]. rewrite N.odd_mul in Ho. cbn in Ho. rewrite andb_false_r in Ho. discriminate.
Qed.
Lemma even_div n j : N.odd n = false -> N.divide (2 ^ (j + 1)) (n * 2 ^ j).
Proof.
  intros Ho. assert (He : N.even n = true) by (rewrite <- N.negb_odd, Ho; reflexivity). apply N.even_spec in He as [c ->].
  exists c. rewrite N.pow_add_r. change (2 ^ 1) with 2. lia.
Qed.

Lemma round64_nearest P Q : 0 < Q -> nearest P Q (round64 P Q).
Proof.
  intros HQ. unfold nearest, dist, round64, one64. set (X := P * 2 ^ 1074). clearbody X. set (j := N.log2 (X / Q) - 52).
  set (D := Q * 2 ^ j). pose proof (pow2_pos j) as Hj. assert (HD : 0 < D) by (unfold D; nia).
  assert (Hxn : X / D = X / Q / 2 ^ j). { unfold D. rewrite N.div_div by lia. reflexivity. }
  pose proof (N.div_mod X D ltac:(lia)) as Hdm. pose proof (N.mod_lt X D ltac:(lia)) as Hr.
  assert (Hn1 : X / D < 2 ^ 53).
  { rewrite Hxn. apply N.div_lt_upper_bound; [lia|]. rewrite <- N.pow_add_r. destruct (N.eq_dec (X / Q) 0) as [E|E]; [rewrite E; apply pow2_pos|].
    destruct (N.log2_spec (X / Q) (proj1 (N.neq_0_lt_0 _) E)) as [_ Hl]. apply (N.lt_le_trans _ _ _ Hl). apply N.pow_le_mono_r; [lia|]. unfold j. clear. set (l := N.log2 (X / Q)). clearbody l. lia. }
  assert (Hn2 : 2 ^ 52 <= X / D \/ j = 0).
  { destruct (N.eq_dec j 0) as [|Hj0]; auto. left. rewrite Hxn. apply N.div_le_lower_bound; [lia|]. rewrite <- N.pow_add_r.
    assert (Hq : 0 < X / Q). { destruct (N.eq_dec (X / Q) 0) as [E|E]; [|now apply N.neq_0_lt_0]. exfalso. apply Hj0. unfold j. rewrite E. reflexivity. }
    destruct (N.log2_spec (X / Q) Hq) as [Hl _]. replace (j + 52) with (N.log2 (X / Q)); [exact Hl|]. unfold j in *. clear -Hj0. set (l := N.log2 (X / Q)) in *. clearbody l. lia. }
  set (n := X / D) in *. set (r := X mod D) in *. clearbody n r. clear Hxn. clearbody j.
  assert (GL : grid (n * 2 ^ j)). { exists n, j. auto. }
  assert (GU : grid ((n + 1) * 2 ^ j)).
  { destruct (N.eq_dec (n + 1) (2 ^ 53)) as [E|E].
    - exists (2 ^ 52), (j + 1). split; [reflexivity|]. rewrite E, N.pow_add_r. change (2 ^ 53) with (2 ^ 52 * 2). change (2 ^ 1) with 2. lia.
    - exists (n + 1), j. split; auto. lia. }
  assert (GN : forall g, grid g -> g <= n * 2 ^ j \/ (n + 1) * 2 ^ j <= g). { intros g. now apply grid_gap. }
  assert (HL : n * 2 ^ j * Q = D * n) by (unfold D; lia). assert (HU : (n + 1) * 2 ^ j * Q = D * n + D) by (unfold D; lia).
  set (L := n * 2 ^ j) in *. set (U := (n + 1) * 2 ^ j) in *.
  assert (Edo : N.odd n = false -> N.divide (2 ^ (j + 1)) L /\ ~ N.divide (2 ^ (j + 1)) U).
  { intros Ho. split; [now apply even_div|]. apply odd_div. rewrite N.add_1_r, N.odd_succ, <- N.negb_odd, Ho. reflexivity. }
  assert (Odo : N.odd n = true -> N.divide (2 ^ (j + 1)) U /\ ~ N.divide (2 ^ (j + 1)) L).
  { intros Ho. split; [|now apply odd_div]. apply even_div. rewrite N.add_1_r, N.odd_succ, <- N.negb_odd, Ho. reflexivity. }
  assert (EL : n * 2 ^ j = L) by reflexivity. assert (EU : (n + 1) * 2 ^ j = U) by reflexivity.
  clearbody L U D. clear Hn1 Hn2.
  assert (KL : 2 * r <= D -> (2 * r = D -> N.odd n = false) -> grid L /\ forall g, grid g -> g <> L ->
    Z.to_N (Z.abs (Z.of_N X - Z.of_N (L * Q))) < Z.to_N (Z.abs (Z.of_N X - Z.of_N (g * Q))) \/
    Z.to_N (Z.abs (Z.of_N X - Z.of_N (L * Q))) = Z.to_N (Z.abs (Z.of_N X - Z.of_N (g * Q))) /\ exists i, N.divide (2 ^ i) L /\ ~ N.divide (2 ^ i) g).
  { intros H1 H2. split; auto. intros g Hg Hne. rewrite (dist_ge X Q L) by lia. destruct (GN g Hg) as [Hlo|Hhi].
    - left. assert (Hlt : g * Q < L * Q) by (apply N.mul_lt_mono_pos_r; lia). rewrite (dist_ge X Q g) by lia. lia.
    - assert (Hge : U * Q <= g * Q) by (apply N.mul_le_mono_r; lia). rewrite (dist_le X Q g) by lia.
      destruct (N.eq_dec (2 * r) D) as [E|E]; [|left; lia]. destruct (N.eq_dec g U) as [->|Hgu].
      + right. split; [lia|]. exists (j + 1). auto.
      + left. assert (Hlt : U * Q < g * Q) by (apply N.mul_lt_mono_pos_r; lia). lia. }
  assert (KU : D <= 2 * r -> (2 * r = D -> N.odd n = true) -> grid U /\ forall g, grid g -> g <> U ->
    Z.to_N (Z.abs (Z.of_N X - Z.of_N (U * Q))) < Z.to_N (Z.abs (Z.of_N X - Z.of_N (g * Q))) \/
    Z.to_N (Z.abs (Z.of_N X - Z.of_N (U * Q))) = Z.to_N (Z.abs (Z.of_N X - Z.of_N (g * Q))) /\ exists i, N.divide (2 ^ i) U /\ ~ N.divide (2 ^ i) g).
  { intros H1 H2. split; auto. intros g Hg Hne. rewrite (dist_le X Q U) by lia. destruct (GN g Hg) as [Hlo|Hhi].
    - assert (Hle : g * Q <= L * Q) by (apply N.mul_le_mono_r; lia). rewrite (dist_ge X Q g) by lia.
      destruct (N.eq_dec (2 * r) D) as [E|E]; [|left; lia]. destruct (N.eq_dec g L) as [->|Hgu].
      + right. split; [lia|]. exists (j + 1). auto.
      + left. assert (Hlt : g * Q < L * Q) by (apply N.mul_lt_mono_pos_r; lia). lia.
    - left. assert (Hlt : U * Q < g * Q) by (apply N.mul_lt_mono_pos_r; lia). rewrite (dist_le X Q g) by lia. lia. }
  destruct (N.ltb_spec D (2 * r)) as [H1|H1]; cbn [orb].
  - rewrite EU. apply KU; [lia|]. intros; lia.
  - destruct (N.eqb_spec D (2 * r)) as [H2|H2]; cbn [andb].
    + destruct (N.odd n) eqn:Ho; [rewrite EU; apply KU|rewrite EL; apply KL]; auto; lia.
    + rewrite EL. apply KL; [lia|]. intros; lia.
Qed.

Lemma nearest_unique P Q k g : nearest P Q k -> nearest P Q g -> k = g.
Proof.
  intros [Gk Hk] [Gg Hg]. destruct (N.eq_dec k g) as [|Hne]; auto. exfalso.
  destruct (Hk g Gg (not_eq_sym Hne)) as [H1|[H1 (i & Hi1 & Hi2)]]; destruct (Hg k Gk Hne) as [H2|[H2 (i' & Hi1' & Hi2')]]; try lia.
  destruct (N.le_gt_cases i i') as [H|H].
  - apply Hi2. apply N.divide_trans with (2 ^ i'); auto. exists (2 ^ (i' - i)). rewrite <- N.pow_add_r. f_equal. lia.
  - apply Hi2'. apply N.divide_trans with (2 ^ i); auto. exists (2 ^ (i - i')). rewrite <- N.pow_add_r. f_equal. lia.
Qed.
Lemma exact_nearest P Q k : 0 < Q -> grid k -> P * 2 ^ 1074 = k * Q -> nearest P Q k.
Proof.
  intros HQ Hk E. split; auto. intros g Hg Hne. left. unfold dist. rewrite E. clear E.
  assert (g * Q <> k * Q) by (intros H; apply N.mul_cancel_r in H; lia). lia.
Qed.
Lemma nearest_same P Q P' Q' k : 0 < Q -> 0 < Q' -> P * Q' = P' * Q -> nearest P Q k -> nearest P' Q' k.
Proof.
  intros HQ HQ' E [Gk Hk]. split; auto. intros g Hg Hne.
  assert (Hd : forall h, dist P Q h * Q' = dist P' Q' h * Q).
  { intros h. unfold dist. apply N2Z.inj. rewrite !N2Z.inj_mul, !Z2N.id by apply Z.abs_nonneg. assert (AM : forall A q, (Z.abs A * Z.of_N q = Z.abs (A * Z.of_N q))%Z).
    { intros A q. rewrite Z.abs_mul, (Z.abs_eq (Z.of_N q)); [reflexivity|apply N2Z.is_nonneg]. }
    rewrite !AM. f_equal. apply (f_equal Z.of_N) in E. rewrite !N2Z.inj_mul in *. set (s := Z.of_N (2 ^ 1074)). clearbody s. rewrite !Z.mul_sub_distr_r.
    replace (Z.of_N P * s * Z.of_N Q')%Z with (Z.of_N P * Z.of_N Q' * s)%Z by ring. rewrite E. ring. }
  pose proof (Hd k) as H1. pose proof (Hd g) as H2. destruct (Hk g Hg Hne) as [H|[H Hi]].
  - left. apply (N.mul_lt_mono_pos_r Q); [lia|]. rewrite <- H1, <- H2. apply N.mul_lt_mono_pos_r; lia.
  - right. split; auto. apply (N.mul_cancel_r _ _ Q); [lia|]. rewrite <- H1, <- H2, H. reflexivity.
Qed.

(* ---- the parts of a number text ---- *)
Lemma digits_numeral s : digits_n s = numeral s. Proof. reflexivity. Qed.
Lemma digit_code c : is_digit c = true -> 48 <= code c <= 57.
Proof. intros H. unfold is_digit in H. Nify_bool. lia. Qed.
Lemma digit_not c n : is_digit c = true -> n < 48 \/ 57 < n -> (code c =? n) = false.
Proof. intros H Hn. apply digit_code in H. apply N.eqb_neq. lia. Qed.

Lemma says_parts s neg P Q : says s neg P Q -> exists M E, num_parts s = (neg, M, E) /\ P = M * 10 ^ Z.to_N E /\ Q = 10 ^ Z.to_N (- E).
Proof.
  intros (ip & fd & g & ed & [Hip0 Hip] & Hfd & Hed & Hg & (fr & Hfr & ex & Hex & Hss) & HP & HQ).
  exists (numeral (ip ++ fd)), (sign_of g * Z.of_N (numeral ed) - Z.of_nat (length fd))%Z. split; [|auto].
  unfold num_parts.
  assert (E1 : match eat 45 s with Some t => (true, t) | None => (false, s) end = (neg, ip ++ fr ++ ex)).
  { rewrite Hss. destruct neg; [reflexivity|]. cbn [app]. destruct ip as [|c ip]; [congruence|]. inversion Hip; subst. cbn [app eat]. rewrite digit_not; auto. lia. }
  rewrite E1. clear E1.
  assert (Hexh : match ex with [] => True | c :: _ => code c = 101 \/ code c = 69 end).
  { destruct Hex as [(-> & _)|([->| ->] & _)]; auto; [left|right]; reflexivity. }
  assert (Hfrh : match fr ++ ex with [] => True | c :: _ => is_digit c = false end).
  { destruct Hfr as [(-> & _)|(-> & _)]; [|reflexivity]. cbn [app]. destruct ex as [|c ex']; auto. unfold is_digit. Nify_bool. lia. }
  assert (HT : exists s2 : bytes, s2 = fr ++ ex /\ take_digits (ip ++ fr ++ ex) = (ip, s2)). { eexists. split; [reflexivity|]. now apply take_digits_app. }
  destruct HT as (s2 & Hs2 & ->).
  assert (E2 : match eat 46 s2 with Some t => take_digits t | None => ([], s2) end = (fd, ex)).
  { rewrite Hs2. destruct Hfr as [(-> & ->)|(-> & _)].
    - cbn [app]. destruct ex as [|c ex']; [reflexivity|]. cbn [eat]. replace (code c =? 46) with false; auto. symmetry. apply N.eqb_neq. lia.
    - rewrite <- app_assoc. change (eat 46 (B "." ++ fd ++ ex)) with (Some (fd ++ ex)). cbv iota. apply take_digits_app; auto.
      destruct ex as [|c ex']; auto. unfold is_digit. Nify_bool. lia. }
  rewrite E2. clear E2. rewrite digits_numeral. do 2 f_equal.
  assert (TD : fst (take_digits ed) = ed). { pose proof (take_digits_app ed [] Hed I) as H. rewrite app_nil_r in H. now rewrite H. }
  destruct Hex as [(-> & -> & ->)|(Hex & Hne)]; [reflexivity|].
  assert (E3 : forall x, code x = 101 \/ code x = 69 -> ex = x :: g ++ ed ->
    match ex with
    | [] => 0%Z
    | c :: t => if (code c =? 101) || (code c =? 69) then
        match t with
        | [] => 0%Z
        | g :: u => if code g =? 45 then (- Z.of_N (digits_n (fst (take_digits u))))%Z
                    else if code g =? 43 then Z.of_N (digits_n (fst (take_digits u)))
                    else Z.of_N (digits_n (fst (take_digits t)))
        end else 0%Z
    end = (sign_of g * Z.of_N (numeral ed))%Z).
  { intros x Hx ->. replace ((code x =? 101) || (code x =? 69)) with true by (symmetry; Nify_bool; lia). destruct Hg as [->|[->| ->]].
    - cbn [app]. destruct ed as [|d ed']; [congruence|]. inversion Hed; subst. rewrite !digit_not by (auto; lia). rewrite TD, digits_numeral.
      change (sign_of []) with 1%Z. lia.
    - change (B "+" ++ ed) with (chr 43 :: ed). cbv iota. change (code (chr 43) =? 45) with false. change (code (chr 43) =? 43) with true. cbv iota.
      rewrite TD, digits_numeral. change (sign_of (B "+")) with 1%Z. lia.
    - change (B "-" ++ ed) with (chr 45 :: ed). cbv iota. change (code (chr 45) =? 45) with true. cbv iota.
      rewrite TD, digits_numeral. change (sign_of (B "-")) with (-1)%Z. lia. }
  destruct Hex as [->| ->]; [apply (E3 (chr 101))|apply (E3 (chr 69))]; auto; reflexivity.
Qed.
Lemma says_pos s neg P Q : says s neg P Q -> 0 < Q.
Proof. intros H. apply says_parts in H as (M & E & _ & _ & ->). apply pow10_pos. Qed.
Lemma says_unique s neg P Q neg' P' Q' : says s neg P Q -> says s neg' P' Q' -> neg = neg' /\ P = P' /\ Q = Q'.
Proof.
  intros H H'. apply says_parts in H as (M & E & H1 & -> & ->). apply says_parts in H' as (M' & E' & H2 & -> & ->).
  rewrite H1 in H2. injection H2 as -> -> ->. auto.
Qed.
Lemma number_says s : json_number s -> exists neg P Q, says s neg P Q.
Proof.
  intros (sg & ip & fr & ex & -> & Hsg & Hip & Hfr & Hex).
  assert (Hip' : all_digits ip). { destruct Hip as [->|[H _]]; auto. split; [discriminate|]. repeat constructor. }
  assert (Hf : exists fd, Forall (fun c => is_digit c = true) fd /\ (fr = [] /\ fd = [] \/ fr = B "." ++ fd /\ fd <> [])).
  { destruct Hfr as [->|(d & -> & Hd1 & Hd2)]; [exists []; auto|exists d; auto]. }
  destruct Hf as (fd & Hfd & Hf).
  assert (He : exists g ed, Forall (fun c => is_digit c = true) ed /\ (g = [] \/ g = B "+" \/ g = B "-") /\
    (ex = [] /\ g = [] /\ ed = [] \/ (ex = B "e" ++ g ++ ed \/ ex = B "E" ++ g ++ ed) /\ ed <> [])).
  { destruct Hex as [->|(e & g & d & -> & He & Hg & Hd1 & Hd2)]; [exists [], []; auto 10|exists g, d]. split; auto. split; auto. right. split; auto.
    destruct He as [->| ->]; auto. }
  destruct He as (g & ed & Hed & Hg & He).
  exists (if beqb sg (B "-") then true else false). do 2 eexists. exists ip, fd, g, ed. repeat (split; [assumption|]). split; [|split; reflexivity].
  exists fr. split; auto. exists ex. split; auto. destruct Hsg as [->| ->]; reflexivity.
Qed.

Lemma range_eq : 2 ^ 1024 * one64 = 2 ^ (1024 + 1074). Proof. unfold one64. symmetry. apply N.pow_add_r. Qed.

Lemma convert_says s neg P Q : says s neg P Q ->
  convert s = if round64 P Q <? 2 ^ (1024 + 1074) then Some (neg, round64 P Q) else None.
Proof. intros H. apply says_parts in H as (M & E & H1 & -> & ->). unfold convert. rewrite H1, range_eq. reflexivity. Qed.

Lemma convert_reads s f : json_number s -> (convert s = Some f <-> reads_float s f).
Proof.
  intros Hj. split.
  - intros H. destruct (number_says s Hj) as (neg & P & Q & Hs). rewrite (convert_says _ _ _ _ Hs) in H.
    destruct (N.ltb_spec (round64 P Q) (2 ^ (1024 + 1074))) as [Hl|]; [|discriminate]. injection H as <-.
    exists P, Q. split; [exact Hs|]. split; [|exact Hl]. apply round64_nearest. eapply says_pos; eauto.
  - intros (P & Q & Hs & Hn & Hl). rewrite (convert_says _ _ _ _ Hs).
    rewrite (nearest_unique P Q (round64 P Q) (snd f)) by (auto; apply round64_nearest; eapply says_pos; eauto).
    apply N.ltb_lt in Hl. rewrite Hl. now destruct f.
Qed.
Lemma convert_large s : json_number s -> (convert s = None <-> too_large s).
Proof.
  intros Hj. split.
  - intros H. destruct (number_says s Hj) as (neg & P & Q & Hs). rewrite (convert_says _ _ _ _ Hs) in H.
    destruct (N.ltb_spec (round64 P Q) (2 ^ (1024 + 1074))) as [|Hl]; [discriminate|].
    exists neg, P, Q, (round64 P Q). split; [exact Hs|]. split; [|exact Hl]. apply round64_nearest. eapply says_pos; eauto.
  - intros (neg & P & Q & k & Hs & Hn & Hl). rewrite (convert_says _ _ _ _ Hs).
    rewrite (nearest_unique P Q (round64 P Q) k) by (auto; apply round64_nearest; eapply says_pos; eauto).
    apply N.ltb_ge in Hl. now rewrite Hl.
Qed.
