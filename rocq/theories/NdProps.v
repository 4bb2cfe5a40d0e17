(* C133, and C32 for floats: what numbers become as durations and integers. *)
From Coq Require Import Bool Ascii String Arith NArith ZArith Lia List.
From Verif Require Import Prelude PreludeFacts Utf8Model Utf8Facts DecModel DurModel DurProofs EncModel JsonModel JsonSpec JsonFacts JsonProofs JsonParse FlModel FlSpec FlRound FlText FlWrite FlProofs FlRead MarModel MarSpec MarFacts MarNum NdModel NdSpec.
Import ListNotations.
Local Open Scope Z_scope.

(* ---- rounding ---- *)
Definition U : Z := 2 ^ 1074.
Lemma U_pos : 2 ^ 100 <= U.
Proof. unfold U. apply Z.pow_le_mono_r; lia. Qed.
Lemma rounds_bound N D m : 0 < D -> rounds N D m -> 2 * Z.abs (m * D - N) <= D.
Proof. intros HD [H _]. lia. Qed.
(* how far the rounded value is away: half of a unit, or one part in 2^53 *)
Lemma round_err neg n d b m e : 0 <= n -> 0 < d -> round F64 neg n d = FFin b m e ->
  b = neg /\ 0 <= m /\ -1074 <= e /\ 2 ^ 53 * Z.abs (m * 2 ^ (e + 1074) * d - n * U) <= n * U + 2 ^ 52 * d.
Proof.
  intros Hn Hd E. pose proof (round64 neg n d Hn Hd) as R. rewrite E in R. destruct R as (-> & _ & (_ & V & _)). cbn [valid F64 f_prec f_emin f_emax] in V.
  split; [reflexivity|]. split; [lia|]. split; [lia|]. clear V. unfold round in E. change (2 ^ (- f_emin F64)) with U in E. change (f_emin F64) with (-1074) in E. change (f_prec F64) with 53 in E.
  assert (HN : 0 <= n * U) by (pose proof U_pos; apply Z.mul_nonneg_nonneg; lia). set (N := n * U) in *. clearbody N.
  destruct (pick_ok F64 eq_refl N d HN Hd) as (Hk & KU & KL). change (f_prec F64) with 53 in *. set (k := pick F64 N d) in *. clearbody k.
  assert (H2 : 0 < 2 ^ k) by (apply pow2_pos; exact Hk). assert (HD : 0 < d * 2 ^ k) by nia. pose proof (rounds_bound _ _ _ HD (rne_rounds N _ HD)) as RB.
  set (q := rne N (d * 2 ^ k)) in *. clearbody q.
  assert (Q : m * 2 ^ (e + 1074) = q * 2 ^ k).
  { destruct (Z.eqb_spec q (2 ^ 53)) as [Eq|Eq].
    - destruct (f_emax F64 <? k + 1 + -1074); [discriminate|]. injection E as <- <-. replace (k + 1 + -1074 + 1074) with (k + 1) by lia. rewrite Eq, pow_S by exact Hk. change (2 ^ 53) with (2 * 2 ^ (53 - 1)). lia.
    - destruct (f_emax F64 <? k + -1074); [discriminate|]. injection E as <- <-. replace (k + -1074 + 1074) with k by lia. reflexivity. }
  rewrite Q. replace (q * 2 ^ k * d) with (q * (d * 2 ^ k)) by ring. destruct (Z.eq_dec k 0) as [->|Nk].
  - rewrite Z.pow_0_r, Z.mul_1_r in *. lia.
  - specialize (KL ltac:(lia)). change (53 - 1) with 52 in KL. lia.
Qed.

(* ---- integers as floats ---- *)
Lemma exact_int neg u : 0 <= u < 2 ^ 53 -> exists m e, valid F64 (FFin neg m e) /\ m * 2 ^ (e + 1074) = u * U.
Proof.
  intros Hu. destruct (Z.eq_dec u 0) as [->|N0].
  - exists 0, (-1074). split; [cbn; lia|reflexivity].
  - set (l := Z.log2 u). assert (L : 0 <= l) by apply Z.log2_nonneg. assert (L2 : l < 53) by (apply Z.log2_lt_pow2; lia). pose proof (Z.log2_spec u ltac:(lia)) as [S1 S2]. fold l in S1, S2.
    exists (u * 2 ^ (52 - l)), (l - 52). assert (P : 0 < 2 ^ (52 - l)) by (apply pow2_pos; lia).
    assert (E1 : 2 ^ l * 2 ^ (52 - l) = 2 ^ 52) by (rewrite <- Z.pow_add_r by lia; f_equal; lia).
    assert (E2 : 2 ^ Z.succ l * 2 ^ (52 - l) = 2 ^ 53) by (rewrite <- Z.pow_add_r by lia; f_equal; lia).
    split.
    + cbn [valid F64 f_prec f_emin f_emax]. change (53 - 1) with 52. nia.
    + unfold U. rewrite <- Z.mul_assoc, <- Z.pow_add_r by lia. do 2 f_equal. lia.
Qed.
Lemma round_int neg u : 0 <= u < 2 ^ 53 -> exists m e, round F64 neg u 1 = FFin neg m e /\ 0 <= m /\ -1074 <= e /\ m * 2 ^ (e + 1074) = u * U.
Proof.
  intros Hu. destruct (exact_int neg u Hu) as (m & e & V & E). exists m, e. split; [|cbn in V; split; [lia|split; [lia|exact E]]].
  assert (Q : equals F64 (sgn neg u) 1 (FFin neg m e)).
  { split; [exact Logic.I|]. rewrite mag_away. change (- f_emin F64) with 1074. change (e - f_emin F64) with (e + 1074). rewrite E. unfold U. lia. }
  apply (nearest_round F64 eq_refl eq_refl eq_refl); [lia|lia|reflexivity| |].
  - apply (equals_small F64 eq_refl eq_refl eq_refl _ _ (FFin neg m e)); [lia|exact V|exact Q].
  - apply (equals_nearest F64 eq_refl); [lia|exact V|exact Q].
Qed.
Lemma of_int_ok unit : Z.abs unit < 2 ^ 53 -> exists m e, of_int unit = FFin (unit <? 0) m e /\ 0 <= m /\ -1074 <= e /\ m * 2 ^ (e + 1074) = Z.abs unit * U.
Proof. intros Hu. apply round_int. lia. Qed.
Lemma mul_frac s m e s' m' e' : -1074 <= e -> -1074 <= e' -> 0 <= m -> 0 <= m' ->
  exists n d, mul (FFin s m e) (FFin s' m' e') = round F64 (xorb s s') n d /\ 0 <= n /\ 0 < d /\ n * U * U = m * 2 ^ (e + 1074) * (m' * 2 ^ (e' + 1074)) * d.
Proof.
  intros He He' Hm Hm'. exists (m * m' * 2 ^ Z.max 0 (e + e')), (2 ^ Z.max 0 (- (e + e'))). split; [reflexivity|].
  split; [apply Z.mul_nonneg_nonneg; [nia|apply Z.pow_nonneg; lia]|]. split; [apply pow2_pos; lia|]. unfold U.
  replace (m * 2 ^ (e + 1074) * (m' * 2 ^ (e' + 1074)) * 2 ^ Z.max 0 (- (e + e'))) with (m * m' * (2 ^ (e + 1074) * 2 ^ (e' + 1074) * 2 ^ Z.max 0 (- (e + e')))) by ring.
  replace (m * m' * 2 ^ Z.max 0 (e + e') * 2 ^ 1074 * 2 ^ 1074) with (m * m' * (2 ^ Z.max 0 (e + e') * 2 ^ 1074 * 2 ^ 1074)) by ring.
  f_equal. rewrite <- !Z.pow_add_r by lia. f_equal. lia.
Qed.
Lemma trunc_ok s m e : -1074 <= e -> trunc (FFin s m e) = Some (sgn s (m * 2 ^ (e + 1074) / U)).
Proof.
  intros He. unfold trunc. f_equal. unfold sgn. replace (m * 2 ^ (e + 1074) / U) with (m * 2 ^ Z.max 0 e / 2 ^ Z.max 0 (- e)); [reflexivity|]. unfold U.
  destruct (Z.le_gt_cases 0 e) as [H|H].
  - rewrite Z.max_r, Z.max_l by lia. rewrite Z.pow_0_r, Z.div_1_r, Z.pow_add_r, Z.mul_assoc by lia. symmetry. apply Z.div_mul. apply Z.pow_nonzero; lia.
  - rewrite Z.max_l, Z.max_r by lia. rewrite Z.pow_0_r, Z.mul_1_r. replace (2 ^ 1074) with (2 ^ (- e) * 2 ^ (e + 1074)) by (rewrite <- Z.pow_add_r by lia; f_equal; lia).
    symmetry. apply Z.div_mul_cancel_r; apply Z.pow_nonzero; lia.
Qed.

(* ---- C133 ---- *)
Lemma is_float_iff s : IsFloat s = false -> ~ pointed s.
Proof.
  intros H P. assert (Q : IsFloat s = true); [|congruence]. unfold IsFloat. apply existsb_exists. destruct P as [P|[P|P]]; eexists; (split; [exact P|]); reflexivity.
Qed.
Section C133.
  Context (other : bytes -> option fl) (beyond : fl -> Z).
  (* the product of a float of a units with an integer *)
  Lemma product s m e unit : -1074 <= e -> 0 <= m -> Z.abs unit < 2 ^ 53 -> m * 2 ^ (e + 1074) * Z.abs unit <= 2 ^ 65 * U ->
    exists q, mul (FFin s m e) (of_int unit) = q /\ exists m' e', q = FFin (xorb s (unit <? 0)) m' e' /\ -1074 <= e' /\ 0 <= m' /\
      let a := m * 2 ^ (e + 1074) * Z.abs unit in 2 ^ 53 * Z.abs (m' * 2 ^ (e' + 1074) - a) <= a + 2 ^ 52.
  Proof.
    intros He Hm Hu Hb. eexists. split; [reflexivity|]. destruct (of_int_ok unit Hu) as (mu & eu & -> & Hmu & Heu & Eu).
    destruct (mul_frac s m e (unit <? 0) mu eu He Heu Hm Hmu) as (n & d & -> & Hn & Hd & E). rewrite Eu in E. set (a := m * 2 ^ (e + 1074)) in *. clearbody a. pose proof U_pos as HU.
    assert (E2 : n * U = a * Z.abs unit * d). { apply (Z.mul_cancel_r _ _ U); [lia|]. rewrite E. ring. }
    pose proof (round64 (xorb s (unit <? 0)) n d Hn Hd) as R. destruct (round F64 (xorb s (unit <? 0)) n d) as [b m' e'|b|] eqn:Er.
    - destruct (round_err _ _ _ _ _ _ Hn Hd Er) as (-> & Hm' & He' & RE). exists m', e'. split; [reflexivity|]. split; [exact He'|]. split; [exact Hm'|]. cbv zeta. rewrite E2 in RE.
      replace (m' * 2 ^ (e' + 1074) * d - a * Z.abs unit * d) with ((m' * 2 ^ (e' + 1074) - a * Z.abs unit) * d) in RE by ring. rewrite Z.abs_mul, (Z.abs_eq d) in RE by lia.
      apply (Z.mul_le_mono_pos_r _ _ d Hd). lia.
    - exfalso. destruct R as [_ R]. unfold too_big in R. rewrite abs_sgn in R by exact Hn. cbn [F64 f_prec f_emax] in R.
      assert (Q : (2 ^ (53 + 1) - 1) * 2 ^ (971 - 1) * d * U <= 2 ^ 65 * U * d).
      { apply Z.le_trans with (n * U); [apply Z.mul_le_mono_nonneg_r; lia|]. rewrite E2. apply Z.mul_le_mono_nonneg_r; [lia|exact Hb]. }
      assert (Q2 : (2 ^ (53 + 1) - 1) * 2 ^ (971 - 1) <= 2 ^ 65). { apply (Z.mul_le_mono_pos_r _ _ (d * U)); [nia|]. lia. }
      apply Z.le_ngt in Q2. apply Q2. vm_compute. reflexivity.
    - destruct R.
  Qed.
  Lemma scaled a D x u V : 0 < D -> 0 <= u < 2 ^ 53 -> 2 ^ 100 <= V -> 2 ^ 53 * Z.abs (a * D - x * V) <= x * V + 2 ^ 52 * D ->
    2 ^ 53 * Z.abs (a * u * D - x * u * V) <= x * u * V + 2 ^ 52 * (u * D) /\ u * D * 2 ^ 40 <= V * D.
  Proof.
    intros HD Hu HV H. split.
    - replace (a * u * D - x * u * V) with ((a * D - x * V) * u) by ring. rewrite Z.abs_mul, (Z.abs_eq u) by lia.
      replace (x * u * V + 2 ^ 52 * (u * D)) with ((x * V + 2 ^ 52 * D) * u) by ring. rewrite Z.mul_assoc. apply Z.mul_le_mono_nonneg_r; [lia|exact H].
    - assert (u * 2 ^ 40 <= V) by lia. replace (u * D * 2 ^ 40) with (u * 2 ^ 40 * D) by ring. apply Z.mul_le_mono_nonneg_r; lia.
  Qed.
  Lemma small_product a D x u V : 0 < D -> 0 <= x -> 0 <= u < 2 ^ 53 -> 2 ^ 100 <= V -> 2 ^ 53 * Z.abs (a * D - x * V) <= x * V + 2 ^ 52 * D ->
    x * u <= 2 ^ 63 * D -> a * u <= 2 ^ 65 * V.
  Proof.
    intros HD Hx Hu HV H Hb. destruct (scaled a D x u V HD Hu HV H) as [S1 S2]. apply (Z.mul_le_mono_pos_r _ _ D HD).
    assert (B : x * u * V <= 2 ^ 63 * (V * D)). { replace (2 ^ 63 * (V * D)) with (2 ^ 63 * D * V) by ring. apply Z.mul_le_mono_nonneg_r; lia. }
    replace (2 ^ 65 * V * D) with (2 ^ 65 * (V * D)) by ring. lia.
  Qed.
  Lemma chain a D x u V q : 0 < D -> 0 <= x -> 0 <= u < 2 ^ 53 -> 2 ^ 100 <= V -> 2 ^ 53 * Z.abs (a * D - x * V) <= x * V + 2 ^ 52 * D ->
    2 ^ 53 * Z.abs (q - a * u) <= a * u + 2 ^ 52 -> 2 ^ 51 * Z.abs (q / V * D - x * u) < 2 ^ 52 * D + x * u.
  Proof.
    intros HD Hx Hu HV H1 H2. destruct (scaled a D x u V HD Hu HV H1) as [S1 S2]. set (r := q / V).
    assert (E : q = V * r + q mod V) by (apply Z.div_mod; lia). pose proof (Z.mod_pos_bound q V ltac:(lia)) as HB. set (t := q mod V) in *. clearbody t r.
    assert (S3 : 2 ^ 53 * Z.abs (q * D - a * u * D) <= a * u * D + 2 ^ 52 * D).
    { replace (q * D - a * u * D) with ((q - a * u) * D) by ring. rewrite Z.abs_mul, (Z.abs_eq D) by lia. replace (a * u * D + 2 ^ 52 * D) with ((a * u + 2 ^ 52) * D) by ring. rewrite Z.mul_assoc. apply Z.mul_le_mono_nonneg_r; [lia|exact H2]. }
    assert (S4 : D * 2 ^ 40 <= V * D). { rewrite (Z.mul_comm D). apply Z.mul_le_mono_nonneg_r; lia. }
    assert (S5 : r * V * D <= q * D < r * V * D + V * D). { rewrite E. split; nia. }
    apply (Z.mul_lt_mono_pos_r V); [lia|].
    replace (2 ^ 51 * Z.abs (r * D - x * u) * V) with (2 ^ 51 * Z.abs (r * V * D - x * u * V)).
    2:{ replace (r * V * D - x * u * V) with ((r * D - x * u) * V) by ring. rewrite Z.abs_mul, (Z.abs_eq V) by lia. ring. }
    replace ((2 ^ 52 * D + x * u) * V) with (2 ^ 52 * (V * D) + x * u * V) by ring.
    assert (S6 : 0 <= u * D) by nia. assert (S7 : 0 <= x * u * V) by (apply Z.mul_nonneg_nonneg; [nia|lia]).
    set (T := a * u * D) in *. set (Y := x * u * V) in *. set (W := q * D) in *. set (R := r * V * D) in *. set (VD := V * D) in *. set (uD := u * D) in *. clearbody T Y W R VD uD. lia.
  Qed.
  Lemma sgn_abs (b : bool) z : Z.abs (sgn b z) = Z.abs z.
  Proof. unfold sgn. destruct b; lia. Qed.
  Lemma abs_top neg n k : 0 <= n -> Z.abs (top neg n k) = n * 10 ^ Z.max 0 k.
  Proof. intros H. rewrite top_sgn. rewrite sgn_abs. apply Z.abs_eq. now apply ten_nonneg. Qed.
  Lemma sign_mul neg n k unit : 0 <= n -> top neg n k * unit = sgn (xorb neg (unit <? 0)) (n * 10 ^ Z.max 0 k * Z.abs unit).
  Proof. intros H. rewrite top_sgn. set (x := n * 10 ^ Z.max 0 k). clearbody x. unfold sgn. destruct neg, (Z.ltb_spec unit 0); cbn [xorb]; nia. Qed.
  Lemma is_float_pointed s : pointed s -> IsFloat s = true.
  Proof. intros P. destruct (IsFloat s) eqn:E; [reflexivity|]. destruct (is_float_iff s E P). Qed.

  (* C133: a number with a point or an exponent gives, up to two nanoseconds and one part in 2^51, its product with the unit. *)
  Lemma float_close s neg n k unit : numeral s neg n k -> pointed s -> Z.abs unit < 2 ^ 53 -> ~ too_big F64 (top neg n k) (bottom k) -> fits (top neg n k * unit) (bottom k) ->
    exists r, Duration other beyond (NumDigits s) unit = Ok r /\ close (top neg n k * unit) (bottom k) r.
  Proof.
    intros H P Hu NB Hf. cbn [Duration]. rewrite (is_float_pointed s P). unfold MustFloat. pose proof (numeral_nonneg _ _ _ _ H) as Hn. pose proof (ten_nonneg n k Hn) as Hx. pose proof (bottom_pos k) as HD.
    unfold ParseFloat. rewrite (decimal_ok _ _ _ _ H). unfold round10. fold (bottom k). pose proof (round64 neg _ _ Hx HD) as R.
    unfold fits in Hf. rewrite Z.abs_mul, (abs_top neg n k Hn) in Hf. rewrite sign_mul by exact Hn. rewrite top_sgn in NB.
    set (x := n * 10 ^ Z.max 0 k) in *. set (D := bottom k) in *. clearbody x D. clear H P Hn.
    destruct (round F64 neg x D) as [b m e|b|] eqn:E; [|destruct R as [_ R]; destruct (NB R)|destruct R].
    destruct (round_err _ _ _ _ _ _ Hx HD E) as (-> & Hm & He & RE). clear R E NB. set (a := m * 2 ^ (e + 1074)) in *.
    eexists. split; [reflexivity|]. unfold FloatDuration. pose proof U_pos as HU.
    assert (SP : a * Z.abs unit <= 2 ^ 65 * U) by (apply (small_product a D x); lia).
    destruct (product neg m e unit He Hm Hu SP) as (q & Eq & m' & e' & -> & He' & Hm' & PE). rewrite Eq. unfold f64_i64. rewrite (trunc_ok _ _ _ He'). fold a in PE. cbv zeta in PE.
    set (z := m' * 2 ^ (e' + 1074)) in *. assert (C : 2 ^ 51 * Z.abs (z / U * D - x * Z.abs unit) < 2 ^ 52 * D + x * Z.abs unit) by (apply (chain a); lia).
    assert (Hz : 0 <= z / U). { apply Z.div_pos; [|lia]. apply Z.mul_nonneg_nonneg; [lia|]. apply Z.pow_nonneg. lia. }
    set (r := z / U) in *. clearbody r z.
    assert (B : r < 2 ^ 63). { apply (Z.mul_lt_mono_pos_r D); [exact HD|]. lia. }
    replace ((- 2 ^ 63 <=? sgn (xorb neg (unit <? 0)) r) && (sgn (xorb neg (unit <? 0)) r <? 2 ^ 63)) with true.
    2:{ symmetry. unfold sgn. apply andb_true_iff. destruct (xorb neg (unit <? 0)); lia. }
    unfold close. rewrite sgn_abs, (Z.abs_eq (x * Z.abs unit)) by nia. replace (sgn (xorb neg (unit <? 0)) r * D - sgn (xorb neg (unit <? 0)) (x * Z.abs unit)) with (sgn (xorb neg (unit <? 0)) (r * D - x * Z.abs unit)) by (unfold sgn; destruct (xorb neg (unit <? 0)); lia).
    rewrite sgn_abs. exact C.
  Qed.
  Lemma float_exact s neg n k unit f z : numeral s neg n k -> pointed s -> Z.abs unit < 2 ^ 53 -> Z.abs z < 2 ^ 53 ->
    valid F64 f -> equals F64 (top neg n k) (bottom k) f -> top neg n k * unit = z * bottom k -> Duration other beyond (NumDigits s) unit = Ok z.
  Proof.
    intros H P Hu Hz V Q Ez. cbn [Duration]. rewrite (is_float_pointed s P). unfold MustFloat. pose proof (numeral_nonneg _ _ _ _ H) as Hn. pose proof (ten_nonneg n k Hn) as Hx. pose proof (bottom_pos k) as HD.
    pose proof (equals_small F64 eq_refl eq_refl eq_refl _ _ _ HD V Q) as NB. unfold ParseFloat. rewrite (decimal_ok _ _ _ _ H). unfold round10. fold (bottom k). pose proof (round64 neg _ _ Hx HD) as R.
    rewrite sign_mul in Ez by exact Hn. rewrite top_sgn in NB, Q. set (x := n * 10 ^ Z.max 0 k) in *. set (D := bottom k) in *. clearbody x D. clear H P Hn.
    destruct (round F64 neg x D) as [b m e|b|] eqn:E; [|destruct R as [_ R]; destruct (NB R)|destruct R]. destruct R as (-> & _ & (_ & Vm & Near)).
    destruct Q as [Ff Q]. destruct (Near f Ff V) as [L _]. rewrite Q, mag_away in L. change (- f_emin F64) with 1074 in L. change (e - f_emin F64) with (e + 1074) in L. fold U in L.
    cbn [valid F64 f_prec f_emin f_emax] in Vm. assert (Ea : m * 2 ^ (e + 1074) * D = x * U) by lia. clear L Near NB E. pose proof U_pos as HU.
    unfold FloatDuration. destruct (of_int_ok unit Hu) as (mu & eu & -> & Hmu & Heu & Eu).
    destruct (mul_frac neg m e (unit <? 0) mu eu ltac:(lia) Heu ltac:(lia) Hmu) as (p & d & -> & Hp & Hd & Ep). rewrite Eu in Ep. set (a := m * 2 ^ (e + 1074)) in *. clearbody a.
    assert (Exz : x * Z.abs unit = Z.abs z * D).
    { assert (Z.abs (sgn (xorb neg (unit <? 0)) (x * Z.abs unit)) = Z.abs (z * D)) by congruence. rewrite sgn_abs, !Z.abs_mul, (Z.abs_eq x), (Z.abs_eq D), Z.abs_eq in H by lia. exact H. }
    assert (Eau : a * Z.abs unit = Z.abs z * U).
    { apply (Z.mul_cancel_r _ _ D); [lia|]. replace (a * Z.abs unit * D) with (a * D * Z.abs unit) by ring. rewrite Ea. replace (x * U * Z.abs unit) with (x * Z.abs unit * U) by ring. rewrite Exz. ring. }
    assert (Epd : p = Z.abs z * d).
    { assert (U0 : U <> 0) by lia. apply (proj1 (Z.mul_cancel_r _ _ U U0)). apply (proj1 (Z.mul_cancel_r _ _ U U0)). rewrite Ep. replace (a * (Z.abs unit * U) * d) with (a * Z.abs unit * (U * d)) by ring. rewrite Eau. ring. }
    rewrite (round_ratio F64 eq_refl eq_refl (xorb neg (unit <? 0)) p d (Z.abs z) 1) by lia. destruct (round_int (xorb neg (unit <? 0)) (Z.abs z) ltac:(lia)) as (mz & ez & -> & _ & Hez & Emz).
    unfold f64_i64. rewrite (trunc_ok _ _ _ Hez), Emz, Z.div_mul by lia.
    assert (Es : sgn (xorb neg (unit <? 0)) (Z.abs z) = z).
    { assert (sgn (xorb neg (unit <? 0)) (Z.abs z) * D = z * D). { rewrite <- Ez, Exz. unfold sgn. destruct (xorb neg (unit <? 0)); ring. } apply (Z.mul_cancel_r _ _ D); lia. }
    rewrite Es. replace ((- 2 ^ 63 <=? z) && (z <? 2 ^ 63)) with true; [reflexivity|]. symmetry. apply andb_true_iff. lia.
  Qed.
End C133.

Lemma whole_text s neg ip : number_text s neg ip [] None -> s = (if neg then B "-" else []) ++ ip /\ all_digits ip.
Proof.
  intros (frt & ext & -> & Hip & [[-> _]|[-> [N0 _]]] & He); [|congruence]. inversion He; subst. cbn [app]. rewrite app_nil_r. split; [reflexivity|now apply ip_digits].
Qed.
Lemma whole_not_float s neg ip : number_text s neg ip [] None -> IsFloat s = false.
Proof.
  intros H. apply whole_text in H. destruct H as [-> [_ H]]. unfold IsFloat. destruct (existsb _ _) eqn:E; [|reflexivity]. apply existsb_exists in E. destruct E as (c & I & Q).
  assert (R : code c = 45%N \/ (48 <= code c <= 57)%N).
  { apply in_app_iff in I. destruct I as [I|I]; [destruct neg; [destruct I as [<-|[]]; left; reflexivity|destruct I]|]. right. rewrite Forall_forall in H. apply digit_code, H, I. }
  cbn [existsb] in Q. rewrite !orb_true_iff, !N.eqb_eq in Q. lia.
Qed.

(* Full statement: Duration(unit) of a number is the number times the unit, cut to a nanosecond; what does not fit is not given.
   Integers: the product, if both fit. *)
Theorem C133_integer_partial : forall other beyond s neg ip unit, number_text s neg ip [] None ->
  let z := signed neg (value10 ip) in int_range W64 z -> int_range W64 (z * unit) ->
  Duration other beyond (NumDigits s) unit = Ok (z * unit) /\ Duration other beyond (NumInt z) unit = Ok (z * unit).
Proof.
  intros other beyond s neg ip unit H z Hz Hp. cbn [Duration]. rewrite (whole_not_float _ _ _ H). destruct (whole_text _ _ _ H) as [-> Hi]. unfold MustInteger. rewrite (parse_int_value neg ip Hi). cbv zeta. fold z.
  change (- 2 ^ 63) with (- 2 ^ (bits W64 - 1)). change (2 ^ 63) with (2 ^ (bits W64 - 1)). destruct Hz as [H1 H2]. apply Z.leb_le in H1. apply Z.ltb_lt in H2. rewrite H1, H2. cbn [andb].
  unfold IntegerDuration. rewrite swrap_id by exact Hp. auto.
Qed.
Print Assumptions C133_integer_partial.
(* Numbers with a point or an exponent: near to the product *)
Theorem C133_close_partial : forall other beyond s neg n k unit, numeral s neg n k -> pointed s -> Z.abs unit < 2 ^ 53 ->
  ~ too_big F64 (top neg n k) (bottom k) -> fits (top neg n k * unit) (bottom k) ->
  exists r, Duration other beyond (NumDigits s) unit = Ok r /\ close (top neg n k * unit) (bottom k) r.
Proof. exact float_close. Qed.
Print Assumptions C133_close_partial.
(* and the product itself, if both are floats and it is a whole number *)
Theorem C133_exact_partial : forall other beyond s neg n k unit f z, numeral s neg n k -> pointed s -> Z.abs unit < 2 ^ 53 -> Z.abs z < 2 ^ 53 ->
  valid F64 f -> equals F64 (top neg n k) (bottom k) f -> top neg n k * unit = z * bottom k -> Duration other beyond (NumDigits s) unit = Ok z.
Proof. exact float_exact. Qed.
Print Assumptions C133_exact_partial.
(* 1.001 seconds are a nanosecond less *)
Theorem C133_refuted : forall other beyond,
  numeral (B "1.001") false 1001 (-3) /\ Duration other beyond (NumDigits (B "1.001")) 1000000000 = Ok 1000999999 /\ 1000999999 * bottom (-3) <> top false 1001 (-3) * 1000000000.
Proof.
  intros other beyond. split; [|split; [vm_compute; reflexivity|vm_compute; discriminate]].
  apply (numeral_ [] false (B "1") (B ".001") (B "001") [] 0); try constructor; try discriminate; repeat constructor.
Qed.
Print Assumptions C133_refuted.
(* Integers that do not fit: always another duration *)
Theorem C133_wraps_refuted : forall other beyond z unit, ~ int_range W64 (z * unit) ->
  exists r, Duration other beyond (NumInt z) unit = Ok r /\ int_range W64 r /\ r <> z * unit.
Proof.
  intros other beyond z unit H. exists (swrap W64 (z * unit)). split; [reflexivity|]. pose proof (swrap_range W64 (z * unit)) as R. split; [exact R|]. intros E. apply H. rewrite <- E. exact R.
Qed.
Print Assumptions C133_wraps_refuted.
(* Texts of numbers that do not fit in an int64 or a float64: always a panic *)
Theorem C133_panics_refuted : forall other beyond s unit,
  (forall neg ip, number_text s neg ip [] None -> ~ int_range W64 (signed neg (value10 ip)) -> Duration other beyond (NumDigits s) unit = Panic) /\
  (forall neg n k, numeral s neg n k -> pointed s -> too_big F64 (top neg n k) (bottom k) -> Duration other beyond (NumDigits s) unit = Panic).
Proof.
  intros other beyond s unit. split.
  - intros neg ip H Hr. cbn [Duration]. rewrite (whole_not_float _ _ _ H). destruct (whole_text _ _ _ H) as [-> Hi]. unfold MustInteger. rewrite (parse_int_value neg ip Hi). cbv zeta.
    destruct ((- 2 ^ 63 <=? signed neg (value10 ip)) && (signed neg (value10 ip) <? 2 ^ 63)) eqn:E; [|reflexivity]. exfalso. apply Hr. apply andb_true_iff in E. unfold int_range. change (bits W64 - 1) with 63. lia.
  - intros neg n k H P T. cbn [Duration]. rewrite (is_float_pointed s P). unfold MustFloat. pose proof (parse_numeral other s neg n k H) as R. destruct (ParseFloat other s); [|reflexivity]. destruct R as (_ & R & _). destruct (R T).
Qed.
Print Assumptions C133_panics_refuted.
(* 42 and -4.25 seconds; "1.001" is near; a panic for 1e400 and for 2^63; 2^62 times 4 is 0 *)
Example C133_ex : forall other beyond,
  number_text (B "42") false (B "42") [] None /\ Duration other beyond (NumDigits (B "42")) 1000000000 = Ok 42000000000 /\
  numeral (B "-4.25") true 425 (-2) /\ pointed (B "-4.25") /\ ~ too_big F64 (top true 425 (-2)) (bottom (-2)) /\ fits (top true 425 (-2) * 1000000000) (bottom (-2)) /\
  valid F64 (FFin true 4785074604081152 (-50)) /\ equals F64 (top true 425 (-2)) (bottom (-2)) (FFin true 4785074604081152 (-50)) /\
  Duration other beyond (NumDigits (B "-4.25")) 1000000000 = Ok (-4250000000) /\
  close (top false 1001 (-3) * 1000000000) (bottom (-3)) 1000999999 /\ ~ close (top false 1001 (-3) * 1000000000) (bottom (-3)) 1000999997 /\
  Duration other beyond (NumDigits (B "1e400")) 1 = Panic /\ Duration other beyond (NumDigits (B "9223372036854775808")) 0 = Panic /\
  ~ int_range W64 (2 ^ 62 * 4) /\ Duration other beyond (NumInt (2 ^ 62)) 4 = Ok 0.
Proof.
  intros other beyond. split; [exists [], []; split; [reflexivity|]; split; [right; split; [split; [discriminate|repeat constructor]|discriminate]|split; [left; auto|constructor]]|].
  split; [vm_compute; reflexivity|]. split; [apply (numeral_ (B "-") true (B "4") (B ".25") (B "25") [] 0); try constructor; try discriminate; repeat constructor|].
  split; [left; right; right; left; reflexivity|]. split; [vm_compute; congruence|]. split; [vm_compute; discriminate|]. split; [vm_compute; intuition congruence|].
  split; [split; [exact Logic.I|vm_compute; reflexivity]|]. split; [vm_compute; reflexivity|]. split; [vm_compute; reflexivity|]. split; [vm_compute; discriminate|].
  split; [vm_compute; reflexivity|]. split; [vm_compute; reflexivity|]. split; [unfold int_range; vm_compute; intros [_ Q]; discriminate Q|vm_compute; reflexivity].
Qed.

(* ---- C32: Float nodes ---- *)
(* A Float that is an integer of the range is stored as that integer. *)
Lemma int_float f z : valid F64 f -> is_int f z -> trunc f = Some z.
Proof.
  intros V [Ff A]. destruct f as [neg m e|neg|]; [|destruct Ff|destruct Ff]. cbn [valid F64 f_prec f_emin f_emax] in V. rewrite trunc_ok by lia.
  unfold away, units in A. change (f_emin F64) with (-1074) in A. change (- -1074) with 1074 in A. change (e - -1074) with (e + 1074) in A. fold U in A. pose proof U_pos as HU.
  assert (E : sgn neg (m * 2 ^ (e + 1074)) = z * U) by (unfold sgn; destruct neg; lia). f_equal. unfold sgn in *. destruct neg.
  - replace (m * 2 ^ (e + 1074)) with (- z * U) by lia. rewrite Z.div_mul by lia. lia.
  - rewrite E, Z.div_mul by lia. reflexivity.
Qed.
Theorem C32_float_partial : forall (value : floatv -> fl) beyond ubeyond uf w p x z old, valid F64 (value x) -> is_int (value x) z ->
  let f2i := fun y => f64_i64 beyond (value y) in let f2u := fun y => f64_u64 ubeyond (value y) in
  (int_range w z -> unm f2i f2u uf (TInt w) p (NFloat x) old = (UOk (VNum z), [])) /\
  (uint_range w z -> unm f2i f2u uf (TUint w) p (NFloat x) old = (UOk (VNum z), [])).
Proof.
  intros value beyond ubeyond uf w p x z old V I f2i f2u. cbn [unm unm_num]. unfold f2i, f2u, f64_i64, f64_u64. rewrite (int_float _ _ V I). split; intros R.
  - replace ((- 2 ^ 63 <=? z) && (z <? 2 ^ 63)) with true; [now rewrite swrap_id|]. symmetry. apply andb_true_iff. unfold int_range in R. destruct w; cbn [bits] in R; lia.
  - replace ((0 <=? z) && (z <? 2 ^ 64)) with true; [now rewrite uwrap_id|]. symmetry. apply andb_true_iff. unfold uint_range in R. destruct w; cbn [bits] in R; lia.
Qed.
Print Assumptions C32_float_partial.
(* No Float is rejected, so that those that are no integers of the range are stored as something else. *)
Theorem C32_float_refuted : forall (value : floatv -> fl) beyond ubeyond uf w p x old,
  let f2i := fun y => f64_i64 beyond (value y) in let f2u := fun y => f64_u64 ubeyond (value y) in
  (forall z, is_int (value x) z -> ~ int_range w z) ->
  exists z, unm f2i f2u uf (TInt w) p (NFloat x) old = (UOk (VNum z), []) /\ int_range w z /\ ~ is_int (value x) z.
Proof.
  intros value beyond ubeyond uf w p x old f2i f2u H. eexists. split; [reflexivity|]. pose proof (swrap_range w (f2i x)) as R. split; [exact R|]. intros Q. exact (H _ Q R).
Qed.
Print Assumptions C32_float_refuted.
Example C32_float_ex : is_int (FFin true 4503599627370496 (-45)) (-128) /\ valid F64 (FFin true 4503599627370496 (-45)) /\ int_range W8 (-128) /\
  (forall z, is_int (FFin false 6755399441055744 (-52)) z -> ~ int_range W64 z) /\ f64_i64 (fun _ => 0) (FFin false 6755399441055744 (-52)) = 1.
Proof.
  split; [split; [exact Logic.I|vm_compute; reflexivity]|]. split; [vm_compute; intuition congruence|]. split; [vm_compute; intuition congruence|]. split; [|vm_compute; reflexivity].
  intros z I _. assert (V : valid F64 (FFin false 6755399441055744 (-52))) by (vm_compute; intuition congruence). pose proof (int_float _ _ V I) as T. vm_compute in T. injection T as <-. destruct I as [_ A]. vm_compute in A. discriminate A.
Qed.
