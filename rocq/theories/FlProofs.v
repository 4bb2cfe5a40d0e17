(* Conversions give the nearest float, and there is only one. *)
From Coq Require Import Bool Ascii String Arith NArith ZArith Lia List.
From Verif Require Import Prelude Utf8Model DecModel DurModel EncModel JsonModel FlModel FlSpec FlRound.
Import ListNotations.
Local Open Scope Z_scope.

Section Fmt.
  Context (F : ffmt) (Hp : 1 < f_prec F) (He : f_emin F < 0) (HK : 0 < f_emax F).
  Notation p := (f_prec F).
  Definition sgn (neg : bool) (n : Z) : Z := if neg then - n else n.
  Lemma mag_away neg n d m e : away F (sgn neg n) d (FFin neg m e) = Z.abs (m * 2 ^ (e - f_emin F) * d - n * 2 ^ (- f_emin F)).
  Proof. unfold away, units, sgn. destruct neg; [|reflexivity]. rewrite <- Z.abs_opp. f_equal. ring. Qed.
  Lemma opp_away neg n d m e : 0 <= n -> 0 < d -> 0 <= m -> away F (sgn (negb neg) n) d (FFin neg m e) = m * 2 ^ (e - f_emin F) * d + n * 2 ^ (- f_emin F).
  Proof.
    intros Hn Hd Hm. pose proof (Z.pow_nonneg 2 (e - f_emin F) ltac:(lia)) as H1. pose proof (Z.pow_nonneg 2 (- f_emin F) ltac:(lia)) as H2.
    pose proof (Z.mul_nonneg_nonneg _ _ Hm H1) as H3. pose proof (Z.mul_nonneg_nonneg _ _ H3 (Z.lt_le_incl _ _ Hd)) as H4. pose proof (Z.mul_nonneg_nonneg _ _ Hn H2) as H5.
    unfold away, units, sgn. destruct neg; cbn [negb].
    - replace (- m * 2 ^ (e - f_emin F) * d) with (- (m * 2 ^ (e - f_emin F) * d)) by ring. lia.
    - replace (- n * 2 ^ (- f_emin F)) with (- (n * 2 ^ (- f_emin F))) by ring. lia.
  Qed.
  Lemma big_units n d : (2 ^ (p + 1) - 1) * 2 ^ (f_emax F - 1 - f_emin F) * d <= n * 2 ^ (- f_emin F) <-> (2 ^ (p + 1) - 1) * 2 ^ (f_emax F - 1) * d <= n.
  Proof.
    replace (f_emax F - 1 - f_emin F) with (f_emax F - 1 + - f_emin F) by lia. rewrite (Z.pow_add_r 2 (f_emax F - 1)) by lia.
    replace ((2 ^ (p + 1) - 1) * (2 ^ (f_emax F - 1) * 2 ^ (- f_emin F)) * d) with ((2 ^ (p + 1) - 1) * 2 ^ (f_emax F - 1) * d * 2 ^ (- f_emin F)) by ring.
    symmetry. apply (Z.mul_le_mono_pos_r _ _ (2 ^ (- f_emin F))). apply pow2_pos. lia.
  Qed.
  Lemma abs_sgn neg n : 0 <= n -> Z.abs (sgn neg n) = n.
  Proof. destruct neg; cbn; lia. Qed.
  Lemma round_nearest neg n d : 0 <= n -> 0 < d ->
    match round F neg n d with
    | FNaN => False
    | FInf b => b = neg /\ too_big F (sgn neg n) d
    | FFin b m e => b = neg /\ ~ too_big F (sgn neg n) d /\ nearest F (sgn neg n) d (FFin b m e)
    end.
  Proof.
    intros Hn Hd. pose proof (round_ok F Hp He HK neg n d Hn Hd) as H. unfold too_big. rewrite abs_sgn by assumption. destruct (round F neg n d) as [b m e|b|]; [| |exact H].
    - destruct H as (-> & HV & HB & HD). split; [reflexivity|]. split; [rewrite <- big_units; lia|]. split; [exact Logic.I|]. split; [exact HV|].
      intros g Hg Vg. destruct g as [b' m' e'| |]; [|easy|easy]. destruct Vg as (Vm & Ve & Vl). destruct HV as (Wm & We & Wl).
      pose proof (HD 0 ltac:(pose proof (pow2_pos p ltac:(lia)); lia) 0 ltac:(lia) ltac:(lia)) as [D0 _]. cbn [Z.mul Z.sub] in D0.
      specialize (HD m' Vm (e' - f_emin F) ltac:(lia) ltac:(intros X; specialize (Vl X); lia)) as [D1 D2].
      rewrite mag_away. destruct (bool_dec b' neg) as [->|Hneq].
      + rewrite mag_away. split; [exact D1|]. intros E1 E2. apply D2; [exact E1|]. intros E3. apply E2. unfold units. destruct neg; [rewrite !Z.mul_opp_l|]; now rewrite E3.
      + assert (Eneg : neg = negb b') by (destruct b', neg; cbn; congruence). assert (EO : away F (sgn neg n) d (FFin b' m' e') = m' * 2 ^ (e' - f_emin F) * d + n * 2 ^ (- f_emin F)) by (rewrite Eneg; apply opp_away; lia). rewrite EO. clear Hneq EO Eneg.
        pose proof (pow2_pos (e' - f_emin F) ltac:(lia)) as P1. pose proof (pow2_pos (e - f_emin F) ltac:(lia)) as P2. pose proof (pow2_pos (- f_emin F) ltac:(lia)) as P3.
        set (N := n * 2 ^ (- f_emin F)) in *. assert (HN : 0 <= N) by (apply Z.mul_nonneg_nonneg; lia).
        set (A := m' * 2 ^ (e' - f_emin F)) in *. assert (HA : 0 <= A) by (apply Z.mul_nonneg_nonneg; lia). assert (HAd : 0 <= A * d) by (apply Z.mul_nonneg_nonneg; lia).
        split; [lia|]. intros E1 E2. destruct (Z.eq_dec (A * d) 0) as [Z0|Z0].
        * apply D2; [lia|]. intros E3. apply E2. unfold units. assert (A0 : A = 0) by nia. fold A.
          assert (X1 : (if b' then - m' else m') * 2 ^ (e' - f_emin F) = 0) by (destruct b'; [rewrite Z.mul_opp_l; fold A; lia|exact A0]).
          assert (X2 : (if neg then - m else m) * 2 ^ (e - f_emin F) = 0) by (destruct neg; [rewrite Z.mul_opp_l; lia|lia]). now rewrite X1, X2.
        * assert (N0 : N = 0) by lia.
          assert (Y : m * 2 ^ (e - f_emin F) * d = 0) by lia. apply Z.mul_eq_0_l in Y; [|lia]. apply Z.mul_eq_0_l in Y; [|lia]. now subst m.
    - destruct H as [-> HB]. split; [reflexivity|]. now apply big_units.
  Qed.
End Fmt.

(* ---- there is one nearest float ---- *)
Section One.
  Context (F : ffmt) (Hp : 1 < f_prec F) (He : f_emin F < 0) (HK : 0 < f_emax F).
  Notation p := (f_prec F).
  Notation J e := (e - f_emin F).
  Definition okm (m e : Z) : Prop := 0 <= m < 2 ^ p /\ f_emin F <= e <= f_emax F /\ (m < 2 ^ (p - 1) -> e = f_emin F).
  Lemma P1 : 2 ^ p = 2 * 2 ^ (p - 1).
  Proof. rewrite <- pow_S by lia. f_equal. lia. Qed.
  Lemma same_le m e m' e' : okm m e -> okm m' e' -> e <= e' -> m * 2 ^ J e = m' * 2 ^ J e' -> m = m' /\ e = e'.
  Proof.
    intros (Hm & Hr & Hl) (Hm' & Hr' & Hl') Hle E. pose proof (pow2_pos (J e) ltac:(lia)) as H1.
    replace (J e') with ((e' - e) + J e) in E by lia. rewrite Z.pow_add_r in E by lia. rewrite Z.mul_assoc in E. apply Z.mul_reg_r in E; [|lia].
    destruct (Z.eq_dec e e') as [->|Hn]; [rewrite Z.sub_diag in E; change (2 ^ 0) with 1 in E; lia|]. exfalso.
    assert (Hq : 2 ^ (p - 1) <= m') by (destruct (Z.lt_ge_cases m' (2 ^ (p - 1))) as [X|]; [specialize (Hl' X); lia|assumption]).
    replace (e' - e) with ((e' - e - 1) + 1) in E by lia. rewrite pow_S in E by lia. pose proof (pow2_pos (e' - e - 1) ltac:(lia)) as H2. pose proof P1. nia.
  Qed.
  Lemma same_float m e m' e' : okm m e -> okm m' e' -> m * 2 ^ J e = m' * 2 ^ J e' -> m = m' /\ e = e'.
  Proof.
    intros H H' E. destruct (Z.le_ge_cases e e') as [Hl|Hl]; [now apply same_le|]. destruct (same_le m' e' m e H' H Hl (eq_sym E)). now split.
  Qed.
  Lemma between m e m' e' : okm m e -> okm m' e' -> Z.even m = true -> Z.even m' = true -> m * 2 ^ J e < m' * 2 ^ J e' ->
    exists m2 e2, okm m2 e2 /\ m * 2 ^ J e < m2 * 2 ^ J e2 < m' * 2 ^ J e'.
  Proof.
    intros (Hm & Hr & Hl) (Hm' & Hr' & Hl') Ev Ev' Hlt. exists (m + 1), e. pose proof (pow2_pos (J e) ltac:(lia)) as H1. pose proof P1 as HP.
    assert (Hm1 : m + 1 < 2 ^ p). { apply Z.even_spec in Ev as [x Ex]. lia. }
    split; [split; [lia|split; [lia|intros; apply Hl; lia]]|]. split; [lia|].
    destruct (Z.le_gt_cases e e') as [Hee|Hee].
    - replace (J e') with ((e' - e) + J e) in * by lia. rewrite Z.pow_add_r in * by lia. rewrite Z.mul_assoc in *. apply Z.mul_lt_mono_pos_r in Hlt; [|assumption]. apply Z.mul_lt_mono_pos_r; [assumption|].
      assert (Ez : Z.even (m' * 2 ^ (e' - e)) = true) by now rewrite Z.even_mul, Ev'.
      apply Z.even_spec in Ev as [x Ex]. apply Z.even_spec in Ez as [y Ey]. lia.
    - exfalso. assert (Hq : 2 ^ (p - 1) <= m) by (destruct (Z.lt_ge_cases m (2 ^ (p - 1))) as [X|]; [specialize (Hl X); lia|assumption]).
      assert (X : 2 ^ p * 2 ^ J e' <= 2 ^ (p - 1) * 2 ^ J e) by (rewrite <- !Z.pow_add_r by lia; apply Z.pow_le_mono_r; lia). pose proof (pow2_pos (J e') ltac:(lia)). nia.
  Qed.
  Lemma between_units f g : finite f -> finite g -> valid F f -> valid F g -> even_float f = true -> even_float g = true -> units F f < units F g ->
    exists h, finite h /\ valid F h /\ units F f < units F h < units F g.
  Proof.
    destruct f as [b m e| |]; [|easy|easy]. destruct g as [b' m' e'| |]; [|easy|easy]. intros _ _ V V' Ev Ev' Hlt.
    assert (G : forall c x y, units F (FFin c x y) = sgn c (x * 2 ^ J y)) by (intros [] x y; unfold units, sgn; ring).
    assert (Nn : forall x y, okm x y -> 0 <= x * 2 ^ J y) by (intros x y (Hx & Hy & _); pose proof (pow2_pos (J y) ltac:(lia)); apply Z.mul_nonneg_nonneg; lia).
    rewrite !G in *. pose proof (Nn _ _ V) as Q. pose proof (Nn _ _ V') as Q'.
    assert (K : 0 <= sgn b (m * 2 ^ J e) \/ sgn b' (m' * 2 ^ J e') <= 0 \/ (sgn b (m * 2 ^ J e) < 0 < sgn b' (m' * 2 ^ J e'))) by lia. destruct K as [K|[K|K]].
    - destruct (between m e m' e' V V' Ev Ev') as (m2 & e2 & O2 & B2); [destruct b, b'; unfold sgn in *; lia|]. exists (FFin false m2 e2). split; [exact Logic.I|]. split; [exact O2|]. rewrite G. destruct b, b'; unfold sgn in *; lia.
    - destruct (between m' e' m e V' V Ev' Ev) as (m2 & e2 & O2 & B2); [destruct b, b'; unfold sgn in *; lia|]. exists (FFin true m2 e2). split; [exact Logic.I|]. split; [exact O2|]. rewrite G. destruct b, b'; unfold sgn in *; lia.
    - exists (FFin false 0 (f_emin F)). split; [exact Logic.I|]. split; [|rewrite G; cbn [sgn]; lia]. pose proof (pow2_pos p ltac:(lia)). cbn [valid]. lia.
  Qed.
  Lemma nearest_lt x d f g : 0 < d -> nearest F x d f -> nearest F x d g -> units F f < units F g -> False.
  Proof.
    intros Hd (Ff & Vf & Nf) (Fg & Vg & Ng) Hlt. destruct (Nf g Fg Vg) as [A1 A2]. destruct (Ng f Ff Vf) as [B1 B2].
    assert (EA : away F x d f = away F x d g) by lia. specialize (A2 ltac:(lia) ltac:(lia)). specialize (B2 EA ltac:(lia)).
    destruct (between_units f g Ff Fg Vf Vg A2 B2 Hlt) as (h & Fh & Vh & H1 & H2). destruct (Nf h Fh Vh) as [C1 _]. clear A1 B1 A2 B2.
    unfold away in *. set (X := x * 2 ^ (- f_emin F)) in *. assert (units F f * d < units F h * d) by nia. assert (units F h * d < units F g * d) by nia. lia.
  Qed.
  Lemma nearest_units x d f g : 0 < d -> nearest F x d f -> nearest F x d g -> units F f = units F g.
  Proof. intros Hd Nf Ng. destruct (Z.lt_trichotomy (units F f) (units F g)) as [H|[H|H]]; [exfalso; exact (nearest_lt x d f g Hd Nf Ng H)|exact H|exfalso; exact (nearest_lt x d g f Hd Ng Nf H)]. Qed.
  Lemma units_same f g : finite f -> finite g -> valid F f -> valid F g -> units F f = units F g -> minus f = minus g -> f = g.
  Proof.
    destruct f as [b m e| |]; [|easy|easy]. destruct g as [b' m' e'| |]; [|easy|easy]. intros _ _ V V' E Hs. cbn [minus] in Hs. subst b'.
    destruct (same_float m e m' e' V V') as [-> ->]; [|reflexivity]. unfold units in E. destruct b; [rewrite !Z.mul_opp_l in E|]; lia.
  Qed.
  Lemma nearest_one x d f g : 0 < d -> nearest F x d f -> nearest F x d g -> minus f = minus g -> f = g.
  Proof. intros Hd Nf Ng. apply units_same; try apply Nf; try apply Ng. exact (nearest_units x d f g Hd Nf Ng). Qed.
  Lemma nearest_round neg n d f : 0 <= n -> 0 < d -> minus f = neg -> ~ too_big F (sgn neg n) d -> nearest F (sgn neg n) d f -> round F neg n d = f.
  Proof.
    intros Hn Hd Hs HB Nf. pose proof (round_nearest F Hp He HK neg n d Hn Hd) as H. destruct (round F neg n d) as [b m e|b|]; [|tauto|tauto].
    destruct H as (-> & _ & Ng). apply (nearest_one (sgn neg n) d); auto.
  Qed.
  Lemma equals_nearest x d f : 0 < d -> valid F f -> equals F x d f -> nearest F x d f.
  Proof.
    intros Hd V [Ff E]. split; [exact Ff|]. split; [exact V|]. intros g Fg Vg. rewrite E. split; [unfold away; lia|]. intros E1 E2. exfalso. apply E2. unfold away in *.
    assert (units F g * d = units F f * d) by lia. nia.
  Qed.
  Lemma equals_small x d f : 0 < d -> valid F f -> equals F x d f -> ~ too_big F x d.
  Proof.
    intros Hd V [Ff E] HB. unfold away in E. destruct f as [b m e| |]; [|easy|easy]. destruct V as (Hm & Hr & Hl).
    unfold too_big in HB. apply (big_units F He HK) in HB.
    assert (E2 : Z.abs x * 2 ^ (- f_emin F) = m * 2 ^ J e * d).
    { assert (X : x * 2 ^ (- f_emin F) = units F (FFin b m e) * d) by lia. pose proof (pow2_pos (- f_emin F) ltac:(lia)). pose proof (pow2_pos (J e) ltac:(lia)) as H1.
      assert (0 <= m * 2 ^ J e * d) by (apply Z.mul_nonneg_nonneg; [apply Z.mul_nonneg_nonneg|]; lia).
      replace (Z.abs x * 2 ^ (- f_emin F)) with (Z.abs (x * 2 ^ (- f_emin F))) by (rewrite Z.abs_mul; lia). rewrite X. unfold units. destruct b; [replace (- m * 2 ^ J e * d) with (- (m * 2 ^ J e * d)) by ring|]; lia. }
    rewrite E2 in HB. assert (X : 2 ^ J e <= 2 ^ (f_emax F - f_emin F)) by (apply Z.pow_le_mono_r; lia). replace (f_emax F - f_emin F) with (f_emax F - 1 - f_emin F + 1) in X by lia. rewrite pow_S in X by lia.
    pose proof (pow2_pos (f_emax F - 1 - f_emin F) ltac:(lia)) as H1. set (h := 2 ^ (f_emax F - 1 - f_emin F)) in *. clearbody h. rewrite pow_S in HB by lia.
    pose proof (mul_le m (2 ^ J e) (2 * h) ltac:(lia) X) as Y. pose proof (mul_le (2 * h) m (2 ^ p - 1) ltac:(lia) ltac:(lia)) as W.
    assert (Z.lt (m * 2 ^ J e) ((2 * 2 ^ p - 1) * h)) by lia. nia.
  Qed.
End One.
