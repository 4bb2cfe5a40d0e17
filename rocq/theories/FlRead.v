(* Numbers read into floats and interfaces. *)
From Coq Require Import Bool Ascii String Arith NArith ZArith Lia List.
From Verif Require Import Prelude Utf8Model DecModel DurModel EncModel JsonModel JsonSpec JsonFacts JsonProofs FlModel FlSpec FlRound FlText FlWrite FlProofs.
Import ListNotations.
Local Open Scope Z_scope.

Lemma round64 neg n d : 0 <= n -> 0 < d ->
  match round F64 neg n d with
  | FNaN => False
  | FInf b => b = neg /\ too_big F64 (sgn neg n) d
  | FFin b m e => b = neg /\ ~ too_big F64 (sgn neg n) d /\ nearest F64 (sgn neg n) d (FFin b m e)
  end.
Proof. apply round_nearest; reflexivity. Qed.
Lemma round32 neg n d : 0 <= n -> 0 < d ->
  match round F32 neg n d with
  | FNaN => False
  | FInf b => b = neg /\ too_big F32 (sgn neg n) d
  | FFin b m e => b = neg /\ ~ too_big F32 (sgn neg n) d /\ nearest F32 (sgn neg n) d (FFin b m e)
  end.
Proof. apply round_nearest; reflexivity. Qed.
Lemma top_sgn neg n k : top neg n k = sgn neg (n * 10 ^ Z.max 0 k).
Proof. unfold top, sgn. destruct neg; ring. Qed.
Lemma bottom_pos k : 0 < bottom k.
Proof. unfold bottom. apply Z.pow_pos_nonneg; lia. Qed.
Lemma numeral_nonneg s neg n k : numeral s neg n k -> 0 <= n.
Proof. intros []. apply worth_nonneg. Qed.
Lemma ten_nonneg n k : 0 <= n -> 0 <= n * 10 ^ Z.max 0 k.
Proof. intros. apply Z.mul_nonneg_nonneg; [assumption|]. apply Z.pow_nonneg. lia. Qed.

Section Parse.
  Context (other : bytes -> option fl).
  Lemma parse_numeral s neg n k : numeral s neg n k ->
    match ParseFloat other s with
    | Some f => minus f = neg /\ ~ too_big F64 (top neg n k) (bottom k) /\ nearest F64 (top neg n k) (bottom k) f
    | None => too_big F64 (top neg n k) (bottom k)
    end.
  Proof.
    intros H. unfold ParseFloat. rewrite (decimal_ok _ _ _ _ H). unfold round10. fold (bottom k). rewrite top_sgn. pose proof (round64 neg (n * 10 ^ Z.max 0 k) (bottom k) (ten_nonneg n k (numeral_nonneg _ _ _ _ H)) (bottom_pos k)) as R.
    destruct (round F64 neg (n * 10 ^ Z.max 0 k) (bottom k)) as [b m e|b|]; [|tauto|tauto]. destruct R as (-> & R). split; [reflexivity|exact R].
  Qed.
  Lemma parse_exact s neg n k f : numeral s neg n k -> minus f = neg -> ~ too_big F64 (top neg n k) (bottom k) -> nearest F64 (top neg n k) (bottom k) f -> ParseFloat other s = Some f.
  Proof.
    intros H Hs HB HN. pose proof (parse_numeral s neg n k H) as P. destruct (ParseFloat other s) as [g|]; [|tauto]. destruct P as (Hg & _ & Ng). f_equal.
    apply (nearest_one F64 ltac:(reflexivity) ltac:(reflexivity) ltac:(reflexivity) (top neg n k) (bottom k)); auto; [apply bottom_pos|congruence].
  Qed.
  (* ---- what is written is read ---- *)
  Lemma cross_sgn a b neg F x d y e f : 0 < d -> 0 < e -> x * e = y * d -> (a, b) = (sgn neg x, sgn neg y) -> nearest F a d f -> nearest F b e f.
  Proof.
    intros Hd He E Eab (Ff & Vf & N). injection Eab as -> ->. split; [exact Ff|]. split; [exact Vf|]. intros g Fg Vg. destruct (N g Fg Vg) as [N1 N2].
    set (U := 2 ^ (- f_emin F)) in *.
    assert (K : forall u, away F (sgn neg y) e u * d = away F (sgn neg x) d u * e).
    { intros u. unfold away. fold U. rewrite <- (Z.abs_eq d) at 1 by lia. rewrite <- (Z.abs_eq e) at 2 by lia. rewrite <- !Z.abs_mul. f_equal.
      assert (E2 : sgn neg x * e = sgn neg y * d) by (destruct neg; unfold sgn; lia). replace ((units F u * e - sgn neg y * U) * d) with (units F u * e * d - (sgn neg y * d) * U) by ring. rewrite <- E2. ring. }
    pose proof (K f) as Kf. pose proof (K g) as Kg. split.
    - apply (Z.mul_le_mono_pos_r _ _ d Hd). rewrite Kf, Kg. apply Z.mul_le_mono_nonneg_r; [lia|exact N1].
    - intros X. apply N2. apply (Z.mul_reg_r _ _ e); [lia|]. rewrite <- Kf, <- Kg, X. reflexivity.
  Qed.
  Lemma cross_big F neg x d y e : 0 < d -> 0 < e -> 0 <= x -> 0 <= y -> x * e = y * d -> too_big F (sgn neg x) d -> too_big F (sgn neg y) e.
  Proof.
    unfold too_big. intros Hd He Hx Hy E H. rewrite abs_sgn in * by assumption. set (c := (2 ^ (f_prec F + 1) - 1) * 2 ^ (f_emax F - 1)) in *. clearbody c.
    apply (Z.mul_le_mono_pos_r _ _ d Hd). rewrite <- E. replace (c * e * d) with (c * d * e) by ring. apply Z.mul_le_mono_nonneg_r; [lia|exact H].
  Qed.
  Lemma text_read s neg d dp f : good_text s neg d dp -> shows F64 neg d dp f -> ParseFloat other s = Some f.
  Proof.
    intros (_ & n & k & Hn & EV & Hn0) (Hs & HB & HN). pose proof (bottom_pos k) as B1. pose proof (bottom_pos (dp - Z.of_nat (length d))) as B2. pose proof (ten_nonneg (worth d) (dp - Z.of_nat (length d)) (worth_nonneg d)) as T2. pose proof (ten_nonneg n k Hn0) as T1. rewrite top_sgn in *.
    apply (parse_exact s neg n k); auto; rewrite top_sgn.
    - intros X. apply HB. exact (cross_big F64 neg _ _ _ _ B1 B2 T1 T2 EV X).
    - exact (cross_sgn _ _ neg F64 _ _ _ _ f B2 B1 (eq_sym EV) eq_refl HN).
  Qed.
  Lemma float_json short indent sci neg d dp f go str : shown d dp -> shows F64 neg d dp f ->
    exists j s, Encode short indent (NFloat (Floatv go str (json_text sci neg d dp))) = Ok j /\ Decode j = Good (Some (NDigits s)) /\ ParseFloat other s = Some f.
  Proof.
    intros Hd Hs. pose proof (json_text_good sci neg d dp Hd) as G. set (s := json_text sci neg d dp) in *. clearbody s.
    destruct (encode_decode short indent (NFloat (Floatv go str s))) as (j & m & E1 & E2 & R); [apply G|cbn; lia|]. exists j, s. split; [exact E1|]. inversion R. subst. split; [exact E2|]. exact (text_read s neg d dp f G Hs).
  Qed.

  (* ---- float32 ---- *)
  Lemma to32_frac b m e : 0 <= m -> -1074 <= e -> to32 (FFin b m e) = round F32 b (m * 2 ^ (e - -1074)) (2 ^ 1074).
  Proof.
    intros Hm He. unfold to32. pose proof (pow2_pos (Z.max 0 e) ltac:(lia)). pose proof (pow2_pos (Z.max 0 (- e)) ltac:(lia)). pose proof (pow2_pos (e - -1074) ltac:(lia)). pose proof (pow2_pos 1074 ltac:(lia)).
    apply round_ratio; try reflexivity; try assumption; try (apply Z.mul_nonneg_nonneg; lia).
    rewrite <- !Z.mul_assoc, <- !Z.pow_add_r by lia. do 2 f_equal. lia.
  Qed.
  Lemma to32_ok f : finite f -> valid F64 f ->
    match to32 f with
    | FNaN => False
    | FInf b => b = minus f /\ too_big F32 (units F64 f) (2 ^ 1074)
    | FFin b m e => b = minus f /\ ~ too_big F32 (units F64 f) (2 ^ 1074) /\ nearest F32 (units F64 f) (2 ^ 1074) (FFin b m e)
    end.
  Proof.
    destruct f as [b m e| |]; [|easy|easy]. intros _ (Hm & He & _). change (f_emin F64) with (-1074) in He. rewrite to32_frac by lia. pose proof (pow2_pos (e - -1074) ltac:(lia)).
    assert (EU : units F64 (FFin b m e) = sgn b (m * 2 ^ (e - -1074))) by (unfold units; change (f_emin F64) with (-1074); destruct b; unfold sgn; ring). rewrite EU. cbn [minus].
    apply round32; [apply Z.mul_nonneg_nonneg; lia|apply pow2_pos; lia].
  Qed.
  Lemma widen f : finite f -> valid F32 f -> exists w, widened f w.
  Proof.
    destruct f as [b m e| |]; [|easy|easy]. intros _ (Hm & He & Hl). change (f_prec F32) with 24 in *. change (f_emin F32) with (-149) in *. change (f_emax F32) with 104 in *.
    destruct (Z.eq_dec m 0) as [->|Hm0].
    - exists (FFin b 0 (-1074)). split; [exact Logic.I|]. split; [cbn [valid]; change (f_prec F64) with 53; change (f_emin F64) with (-1074); change (f_emax F64) with 971; lia|]. split; [reflexivity|]. unfold units. destruct b; cbn [Z.opp]; rewrite !Z.mul_0_l; reflexivity.
    - assert (Hpos : 0 < m) by lia. pose proof (Z.log2_spec m Hpos) as [L1 L2]. assert (Hlog : 0 <= Z.log2 m < 24). { split; [apply Z.log2_nonneg|]. apply Z.log2_lt_pow2; lia. }
      rewrite <- Z.add_1_r in L2. set (s := 52 - Z.log2 m). assert (Hs : 0 <= s) by lia. pose proof (pow2_pos s Hs) as H2.
      assert (M1 : 2 ^ 52 <= m * 2 ^ s). { replace 52 with (Z.log2 m + s) by lia. rewrite Z.pow_add_r by lia. apply Z.mul_le_mono_nonneg_r; lia. }
      assert (M2 : m * 2 ^ s < 2 ^ 53). { replace 53 with (Z.log2 m + 1 + s) by lia. rewrite Z.pow_add_r by lia. apply Z.mul_lt_mono_pos_r; lia. }
      exists (FFin b (m * 2 ^ s) (e - s)). split; [exact Logic.I|]. split; [cbn [valid]; change (f_prec F64) with 53; change (f_emin F64) with (-1074); change (f_emax F64) with 971; change (53 - 1) with 52; lia|]. split; [reflexivity|].
      unfold units. change (f_emin F32) with (-149). change (f_emin F64) with (-1074). assert (E : 2 ^ s * 2 ^ (e - s - -1074) = 2 ^ (e - -149) * 2 ^ (1074 - 149)) by (rewrite <- !Z.pow_add_r by lia; f_equal; lia).
      destruct b; [replace (- (m * 2 ^ s)) with (- m * 2 ^ s) by ring|]; rewrite <- !Z.mul_assoc, E; reflexivity.
  Qed.
  Lemma wide_back f w : finite f -> valid F32 f -> widened f w -> to32 w = f.
  Proof.
    intros Ff Vf (Fw & Vw & Hs & HU). pose proof (to32_ok w Fw Vw) as T.
    assert (EQ : equals F32 (units F64 w) (2 ^ 1074) f).
    { split; [exact Ff|]. unfold away. rewrite HU. change (- f_emin F32) with 149. rewrite <- Z.mul_assoc, <- Z.pow_add_r by lia. change (1074 - 149 + 149) with 1074. rewrite Z.sub_diag. reflexivity. }
    pose proof (pow2_pos 1074 ltac:(lia)) as HP. pose proof (equals_small F32 ltac:(reflexivity) ltac:(reflexivity) ltac:(reflexivity) _ _ f HP Vf EQ) as NB. assert (NN : nearest F32 (units F64 w) (2 ^ 1074) f) by (apply equals_nearest; assumption || reflexivity).
    destruct (to32 w) as [b m e|b|]; [|tauto|tauto]. destruct T as (-> & _ & N2). exact (nearest_one F32 ltac:(reflexivity) ltac:(reflexivity) ltac:(reflexivity) _ _ _ _ HP N2 NN Hs).
  Qed.
End Parse.
