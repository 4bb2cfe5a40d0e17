(* Rounding to the nearest float. *)
From Coq Require Import Bool Ascii String Arith NArith ZArith Lia List.
From Verif Require Import Prelude Utf8Model DecModel DurModel EncModel JsonModel FlModel FlSpec.
Import ListNotations.
Local Open Scope Z_scope.

Lemma pow_pos k : 0 < 2 ^ k \/ k < 0.
Proof. destruct (Z.lt_ge_cases k 0); auto. left. apply Z.pow_pos_nonneg; lia. Qed.
Lemma pow2_pos k : 0 <= k -> 0 < 2 ^ k.
Proof. intros. apply Z.pow_pos_nonneg; lia. Qed.
Lemma pow_S k : 0 <= k -> 2 ^ (k + 1) = 2 * 2 ^ k.
Proof. intros. rewrite Z.pow_add_r by lia. change (2 ^ 1) with 2. lia. Qed.

Lemma mul_le a b c : 0 <= a -> b <= c -> a * b <= a * c.
Proof. intros. now apply Z.mul_le_mono_nonneg_l. Qed.

(* ---- rounding to integers ---- *)
Definition tie (N D m : Z) : Prop := 2 * N = (2 * m + 1) * D \/ 2 * N = (2 * m - 1) * D.
Definition rounds (N D m : Z) : Prop := (2 * m - 1) * D <= 2 * N <= (2 * m + 1) * D /\ (tie N D m -> Z.even m = true).
Lemma rne_rounds N D : 0 < D -> rounds N D (rne N D).
Proof.
  intros HD. unfold rne. pose proof (Z.div_mod N D) as E. pose proof (Z.mod_pos_bound N D HD) as HB. set (q := N / D) in *. set (r := N mod D) in *. clearbody q r. specialize (E ltac:(lia)). subst N.
  destruct (Z.ltb_spec (2 * r) D).
  - split; [nia|]. unfold tie. intros [Ht|Ht]; exfalso; nia.
  - destruct (Z.ltb_spec D (2 * r)).
    + split; [nia|]. unfold tie. intros [Ht|Ht]; exfalso; nia.
    + assert (Hr : 2 * r = D) by lia. destruct (Z.even q) eqn:Eq.
      * split; [nia|auto].
      * split; [nia|]. intros _. rewrite Z.even_add, Eq. reflexivity.
Qed.
Lemma rounds_unique N D a b : 0 < D -> rounds N D a -> rounds N D b -> a = b.
Proof.
  intros HD [Ha Ta] [Hb Tb]. destruct (Z.lt_trichotomy a b) as [Hl|[|Hl]]; [exfalso|assumption|exfalso].
  - assert (b = a + 1) by nia. subst b. assert (2 * N = (2 * a + 1) * D) by nia. assert (Hea : Z.even a = true) by (apply Ta; now left). assert (Heb : Z.even (a + 1) = true) by (apply Tb; right; nia). rewrite Z.even_add, Hea in Heb. discriminate.
  - assert (a = b + 1) by nia. subst a. assert (2 * N = (2 * b + 1) * D) by nia. assert (Heb : Z.even b = true) by (apply Tb; now left). assert (Hea : Z.even (b + 1) = true) by (apply Ta; right; nia). rewrite Z.even_add, Heb in Hea. discriminate.
Qed.
Lemma rne_ratio N D N' D' : 0 < D -> 0 < D' -> N * D' = N' * D -> rne N D = rne N' D'.
Proof.
  intros HD HD' E. apply (rounds_unique N' D'); [assumption| |now apply rne_rounds]. destruct (rne_rounds N D HD) as [H T]. set (m := rne N D) in *. clearbody m.
  split; [|unfold tie in *; intros HT; apply T; destruct HT as [HT|HT]; [left|right]; nia].
  split; nia.
Qed.
Lemma rounds_near N D m j : 0 < D -> rounds N D m -> Z.abs (m * D - N) <= Z.abs (j * D - N) /\ (Z.abs (j * D - N) = Z.abs (m * D - N) -> j <> m -> Z.even m = true).
Proof.
  intros HD [H T]. assert (K : j = m \/ j < m \/ m < j) by lia. destruct K as [->|[Hl|Hl]]; [split; [lia|congruence]| |].
  - assert (j * D <= m * D - D) by nia. split; [lia|]. intros E _. apply T. right. lia.
  - assert (m * D + D <= j * D) by nia. split; [lia|]. intros E _. apply T. left. lia.
Qed.

(* ---- the exponent ---- *)
Section Fmt.
  Context (F : ffmt) (Hp : 1 < f_prec F) (He : f_emin F < 0) (HK : 0 < f_emax F).
  Notation p := (f_prec F).
  Lemma div_lt a b c : 0 < b -> (a / b < c <-> a < c * b).
  Proof. intros Hb. split; intros H; [|apply Z.div_lt_upper_bound; lia]. pose proof (Z.div_mod a b). pose proof (Z.mod_pos_bound a b Hb). nia. Qed.
  Definition picked (N D k : Z) : Prop := 0 <= k /\ N < 2 ^ p * (D * 2 ^ k) /\ (0 < k -> 2 ^ (p - 1) * (D * 2 ^ k) <= N).
  Lemma pick_ok N D : 0 <= N -> 0 < D -> picked N D (pick F N D).
  Proof.
    intros HN HD. unfold pick. set (k := Z.max 0 (Z.log2 N - Z.log2 D - p)). assert (Hk : 0 <= k) by lia. pose proof (pow2_pos k Hk) as H2.
    assert (HD2 : 0 < D * 2 ^ k) by nia.
    destruct (Z.ltb_spec (N / (D * 2 ^ k)) (2 ^ p)) as [Hlt|Hge].
    - apply div_lt in Hlt; [|assumption]. split; [assumption|]. split; [assumption|]. intros Hpos.
      assert (Ek : k = Z.log2 N - Z.log2 D - p) by lia.
      assert (HN0 : 0 < N). { destruct (Z.eq_dec N 0) as [->|]; [|lia]. exfalso. change (Z.log2 0) with 0 in Ek. pose proof (Z.log2_nonneg D). lia. }
      pose proof (Z.log2_spec N HN0) as [L1 _]. pose proof (Z.log2_spec D HD) as [_ L2]. rewrite <- Z.add_1_r in L2. pose proof (Z.log2_nonneg D).
      apply Z.lt_le_incl. apply Z.lt_le_trans with (2 ^ (p - 1) * (2 ^ (Z.log2 D + 1) * 2 ^ k)).
      + apply Z.mul_lt_mono_pos_l; [apply pow2_pos; lia|]. nia.
      + rewrite <- !Z.pow_add_r by lia. replace (p - 1 + (Z.log2 D + 1 + k)) with (Z.log2 N) by lia. exact L1.
    - assert (Hge' : 2 ^ p * (D * 2 ^ k) <= N). { destruct (Z.lt_ge_cases N (2 ^ p * (D * 2 ^ k))) as [Hx|]; [|assumption]. apply div_lt in Hx; lia. }
      split; [lia|]. rewrite pow_S by assumption. split.
      + assert (HN0 : 0 < N). { pose proof (pow2_pos p ltac:(lia)). nia. }
        pose proof (Z.log2_spec N HN0) as [_ L1]. rewrite <- Z.add_1_r in L1. pose proof (Z.log2_spec D HD) as [L2 _].
        apply Z.lt_le_trans with (2 ^ (Z.log2 N + 1)); [exact L1|].
        apply Z.le_trans with (2 ^ p * (2 ^ Z.log2 D * (2 * 2 ^ k))).
        * rewrite <- pow_S by assumption. pose proof (Z.log2_nonneg D). rewrite <- !Z.pow_add_r by lia. apply Z.pow_le_mono_r; lia.
        * apply Z.mul_le_mono_nonneg_l; [pose proof (pow2_pos p ltac:(lia)); lia|]. nia.
      + intros _. replace (2 ^ p) with (2 * 2 ^ (p - 1)) in Hge' by (rewrite <- pow_S by lia; f_equal; lia). lia.
  Qed.
  Lemma picked_unique N D N' D' k k' : 0 < D -> 0 < D' -> N * D' = N' * D -> picked N D k -> picked N' D' k' -> k = k'.
  Proof.
    assert (K : forall N D N' D' k k', 0 < D -> 0 < D' -> N * D' = N' * D -> picked N D k -> picked N' D' k' -> k < k' -> False).
    { clear N D N' D' k k'. intros N D N' D' k k' HD HD' E (K0 & KU & _) (K0' & _ & KL) Hlt. specialize (KL ltac:(lia)).
      assert (Hx : 2 ^ p * 2 ^ k <= 2 ^ (p - 1) * 2 ^ k'). { rewrite <- !Z.pow_add_r by lia. apply Z.pow_le_mono_r; lia. }
      assert (N * D' < 2 ^ p * 2 ^ k * (D * D')) by nia. assert (2 ^ (p - 1) * 2 ^ k' * (D * D') <= N' * D) by nia. nia. }
    intros HD HD' E P P'. destruct (Z.lt_trichotomy k k') as [Hl|[|Hl]]; [exfalso; apply (K N D N' D' k k'); auto|assumption|exfalso; apply (K N' D' N D k' k); auto].
  Qed.

  (* ---- rounding to floats ---- *)
  Lemma carry m k : 0 <= k -> m = 2 ^ p -> 2 ^ (p - 1) * 2 ^ (k + 1) = m * 2 ^ k.
  Proof. intros Hk ->. rewrite pow_S by assumption. replace (2 ^ p) with (2 * 2 ^ (p - 1)) by (rewrite <- pow_S by lia; f_equal; lia). lia. Qed.
  Lemma round_ratio neg n d n' d' : 0 <= n -> 0 <= n' -> 0 < d -> 0 < d' -> n * d' = n' * d -> round F neg n d = round F neg n' d'.
  Proof.
    intros Hn Hn' Hd Hd' E. unfold round. pose proof (pow2_pos (- f_emin F) ltac:(lia)) as Hu.
    assert (EN : n * 2 ^ (- f_emin F) * d' = n' * 2 ^ (- f_emin F) * d) by nia.
    assert (Ek : pick F (n * 2 ^ (- f_emin F)) d = pick F (n' * 2 ^ (- f_emin F)) d'). { apply (picked_unique (n * 2 ^ (- f_emin F)) d (n' * 2 ^ (- f_emin F)) d'); auto; apply pick_ok; nia. }
    rewrite Ek. set (k := pick F (n' * 2 ^ (- f_emin F)) d') in *. assert (Hk : 0 <= k) by (apply pick_ok; nia). pose proof (pow2_pos k Hk).
    replace (rne (n * 2 ^ (- f_emin F)) (d * 2 ^ k)) with (rne (n' * 2 ^ (- f_emin F)) (d' * 2 ^ k)); [reflexivity|]. apply rne_ratio; nia.
  Qed.
  (* what round gives, in units *)
  Definition rspec (N d : Z) (neg : bool) (f : fl) : Prop :=
    match f with
    | FNaN => False
    | FInf neg' => neg' = neg /\ (2 ^ (p + 1) - 1) * 2 ^ (f_emax F - 1 - f_emin F) * d <= N
    | FFin neg' m e => neg' = neg /\ valid F f /\ N < (2 ^ (p + 1) - 1) * 2 ^ (f_emax F - 1 - f_emin F) * d /\
        (forall g, 0 <= g < 2 ^ p -> forall j, 0 <= j -> (g < 2 ^ (p - 1) -> j = 0) ->
           Z.abs (m * 2 ^ (e - f_emin F) * d - N) <= Z.abs (g * 2 ^ j * d - N) /\
           (Z.abs (g * 2 ^ j * d - N) = Z.abs (m * 2 ^ (e - f_emin F) * d - N) -> g * 2 ^ j <> m * 2 ^ (e - f_emin F) -> Z.even m = true))
    end.
  Lemma round_ok neg n d : 0 <= n -> 0 < d -> rspec (n * 2 ^ (- f_emin F)) d neg (round F neg n d).
  Proof.
    intros Hn Hd. unfold round. pose proof (pow2_pos (- f_emin F) ltac:(lia)) as Hu. set (N := n * 2 ^ (- f_emin F)) in *. assert (HN : 0 <= N) by nia. clearbody N. clear Hu n Hn.
    destruct (pick_ok N d HN Hd) as (Hk & KU & KL). set (k := pick F N d) in *. clearbody k. pose proof (pow2_pos k Hk) as H2k.
    assert (HD : 0 < d * 2 ^ k) by nia. pose proof (rne_rounds N _ HD) as HR. set (m := rne N (d * 2 ^ k)) in *. clearbody m.
    assert (P1 : 2 ^ p = 2 * 2 ^ (p - 1)) by (rewrite <- pow_S by lia; f_equal; lia). pose proof (pow2_pos (p - 1) ltac:(lia)) as Hq.
    assert (P2 : 2 ^ (p + 1) = 2 * 2 ^ p) by (apply pow_S; lia).
    assert (Hm0 : 0 <= m) by (destruct HR as [HR _]; nia). assert (Hm1 : m <= 2 ^ p) by (destruct HR as [HR _]; nia).
    assert (Hm2 : 0 < k -> 2 ^ (p - 1) <= m) by (intros X; specialize (KL X); destruct HR as [HR _]; nia).
    set (K := f_emax F - f_emin F). assert (HKp : 0 < K) by lia.
    assert (EK : 2 ^ K = 2 * 2 ^ (f_emax F - 1 - f_emin F)) by (unfold K; rewrite <- pow_S by lia; f_equal; lia). pose proof (pow2_pos (f_emax F - 1 - f_emin F) ltac:(lia)) as HK1. remember (2 ^ (f_emax F - 1 - f_emin F)) as h eqn:Eh.
    (* distances *)
    assert (NEAR : forall g, 0 <= g < 2 ^ p -> forall j, 0 <= j -> (g < 2 ^ (p - 1) -> j = 0) ->
        Z.abs (m * 2 ^ k * d - N) <= Z.abs (g * 2 ^ j * d - N) /\ (Z.abs (g * 2 ^ j * d - N) = Z.abs (m * 2 ^ k * d - N) -> g * 2 ^ j <> m * 2 ^ k -> Z.even m = true)).
    { intros g Hg j Hj Hgj. assert (M : forall x, x * (d * 2 ^ k) = x * 2 ^ k * d) by (intros; ring).
      destruct (Z.le_gt_cases k j) as [Hkj|Hkj].
      - destruct (rounds_near N (d * 2 ^ k) m (g * 2 ^ (j - k)) HD HR) as [R1 R2].
        assert (Ej : g * 2 ^ (j - k) * 2 ^ k = g * 2 ^ j) by (rewrite <- Z.mul_assoc, <- Z.pow_add_r by lia; do 2 f_equal; lia).
        rewrite !M, Ej in R1, R2. split; [exact R1|]. intros E1 E2. apply R2; [exact E1|]. intros Em. apply E2. rewrite <- Ej, Em. reflexivity.
      - assert (Hk0 : 0 < k) by lia. specialize (KL Hk0). destruct (rounds_near N (d * 2 ^ k) m (2 ^ (p - 1)) HD HR) as [R1 R2]. rewrite !M in R1, R2.
        assert (Hgk : g * 2 ^ j < 2 ^ (p - 1) * 2 ^ k).
        { apply Z.lt_le_trans with (2 ^ p * 2 ^ j); [apply Z.mul_lt_mono_pos_r; [now apply pow2_pos|lia]|]. rewrite <- !Z.pow_add_r by lia. apply Z.pow_le_mono_r; lia. }
        assert (g * 2 ^ j * d < 2 ^ (p - 1) * 2 ^ k * d) by nia. assert (2 ^ (p - 1) * 2 ^ k * d <= N) by nia. split; [lia|]. intros E1 E2. exfalso. lia. }
    destruct (Z.eqb_spec m (2 ^ p)) as [Em|Em].
    - destruct (Z.ltb_spec (f_emax F) (k + 1 + f_emin F)) as [Hov|Hov].
      + cbn [rspec]. rewrite <- ?Eh. split; [reflexivity|]. destruct HR as [HR _]. rewrite Em in HR.
        assert (Hx : 2 ^ K <= 2 ^ k) by (apply Z.pow_le_mono_r; lia). rewrite P2. pose proof (mul_le ((2 * 2 ^ p - 1) * d) (2 * h) (2 ^ k) ltac:(apply Z.mul_nonneg_nonneg; lia) ltac:(lia)) as X.
        set (a := 2 * 2 ^ p - 1) in *; clearbody a. replace (a * h * d) with (a * d * h) by ring. replace (a * (d * 2 ^ k)) with (a * d * 2 ^ k) in HR by ring. lia.
      + cbn [rspec]. rewrite <- ?Eh. split; [reflexivity|]. replace (k + 1 + f_emin F - f_emin F) with (k + 1) by lia. pose proof (carry m k Hk Em) as EC. split; [cbn [valid]; lia|]. split.
        * destruct HR as [HR _]. rewrite Em in HR. assert (Hx : 2 ^ (k + 1) <= 2 ^ K) by (apply Z.pow_le_mono_r; lia). rewrite pow_S in Hx by lia.
          assert (Hh : 2 ^ k <= h) by lia. rewrite P2. pose proof (mul_le ((2 * 2 ^ p + 1) * d) (2 ^ k) h ltac:(apply Z.mul_nonneg_nonneg; lia) Hh) as X.
          assert (Y : 0 < (2 * 2 ^ p - 3) * (h * d)) by (apply Z.mul_pos_pos; [lia|now apply Z.mul_pos_pos]).
          replace ((2 * 2 ^ p + 1) * d * h) with ((2 * 2 ^ p + 1) * (h * d)) in X by ring. replace ((2 * 2 ^ p + 1) * (d * 2 ^ k)) with ((2 * 2 ^ p + 1) * d * 2 ^ k) in HR by ring.
          replace ((2 * 2 ^ p - 1) * h * d) with ((2 * 2 ^ p - 1) * (h * d)) by ring. lia.
        * intros g Hg j Hj Hgj. rewrite EC. destruct (NEAR g Hg j Hj Hgj) as [R1 R2]. split; [exact R1|]. intros _ _.
          replace (p - 1) with (p - 2 + 1) by lia. rewrite pow_S by lia. rewrite Z.even_mul. reflexivity.
    - destruct (Z.ltb_spec (f_emax F) (k + f_emin F)) as [Hov|Hov].
      + cbn [rspec]. rewrite <- ?Eh. split; [reflexivity|]. assert (Hx : 2 ^ (K + 1) <= 2 ^ k) by (apply Z.pow_le_mono_r; lia). rewrite pow_S, EK in Hx by lia. specialize (KL ltac:(lia)). rewrite P2, P1.
        pose proof (mul_le (2 ^ (p - 1) * d) (4 * h) (2 ^ k) ltac:(apply Z.mul_nonneg_nonneg; lia) ltac:(lia)) as X. replace (2 ^ (p - 1) * (d * 2 ^ k)) with (2 ^ (p - 1) * d * 2 ^ k) in KL by ring.
        assert (Y : 0 < h * d) by now apply Z.mul_pos_pos. replace (2 ^ (p - 1) * d * (4 * h)) with (4 * 2 ^ (p - 1) * (h * d)) in X by ring. replace ((2 * (2 * 2 ^ (p - 1)) - 1) * h * d) with (4 * 2 ^ (p - 1) * (h * d) - h * d) by ring. lia.
      + cbn [rspec]. rewrite <- ?Eh. split; [reflexivity|]. replace (k + f_emin F - f_emin F) with k by lia. split.
        * cbn [valid]. split; [lia|]. split; [lia|]. intros Hlow. destruct (Z.eq_dec k 0) as [->|]; [lia|]. exfalso. specialize (Hm2 ltac:(lia)). lia.
        * split; [|exact NEAR]. assert (Hx : 2 ^ k <= 2 ^ K) by (apply Z.pow_le_mono_r; lia).
          destruct HR as [HR HT]. assert (Hlt : 2 * N < (2 ^ (p + 1) - 1) * (d * 2 ^ k)).
          { rewrite P2. destruct (Z.eq_dec m (2 ^ p - 1)) as [Eo|No]; [|pose proof (mul_le (d * 2 ^ k) (2 * m + 1) (2 * 2 ^ p - 3) ltac:(lia) ltac:(lia)) as X; lia]. assert (Ht : ~ tie N (d * 2 ^ k) m). { intros X. apply HT in X. rewrite Eo, P1, Z.even_sub, Z.even_mul in X. discriminate. }
            unfold tie in Ht. assert (2 * N <> (2 * m + 1) * (d * 2 ^ k)) by tauto. rewrite Eo in *. lia. }
          rewrite P2 in *. rewrite EK in Hx. pose proof (mul_le ((2 * 2 ^ p - 1) * d) (2 ^ k) (2 * h) ltac:(apply Z.mul_nonneg_nonneg; lia) Hx) as X.
          set (a := 2 * 2 ^ p - 1) in *; clearbody a. replace (a * h * d) with (a * d * h) by ring. replace (a * (d * 2 ^ k)) with (a * d * 2 ^ k) in Hlt by ring. lia.
  Qed.
End Fmt.
