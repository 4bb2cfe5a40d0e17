(* Parsing inverts formatting of durations. *)
From Coq Require Import Bool Ascii String Arith NArith ZArith Lia List.
From Verif Require Import Prelude Utf8Model Utf8Facts DecModel DecFacts DurModel DurSpec.
Import ListNotations.
Local Open Scope N_scope.

Lemma beqb_refl a : beqb a a = true.
Proof. induction a; cbn; auto. now rewrite N.eqb_refl. Qed.
Lemma beqb_eq a : forall b, beqb a b = true <-> a = b.
Proof.
  induction a as [|x a IH]; intros [|y b]; cbn; split; intros H; try congruence; auto.
  - Nify_bool. destruct H as [H1 H2]. apply IH in H2. apply code_inj in H1. congruence.
  - inversion H; subst. rewrite N.eqb_refl. now apply IH.
Qed.

Definition nodigit (s : bytes) : Prop := match s with [] => True | c :: _ => is_digit c = false end.
(* what can follow a unit *)
Definition unit_end (s : bytes) : Prop :=
  match s with [] => True | c :: _ => ((code c =? 46) || is_digit c) = true end.

Lemma leading_int_stop x s : nodigit s -> leading_int x s = Some (x, s).
Proof. destruct s; cbn; auto. intros ->. auto. Qed.

Lemma leading_int_pos f : forall n s, (N.size_nat n <= f)%nat -> n <= two63 ->
  leading_int 0 (decpos f n ++ s) = leading_int n s.
Proof.
  induction f as [|f IH]; intros n s Hf Hn.
  - destruct n as [|[]]; cbn in *; auto; lia.
  - cbn [decpos]. destruct (n =? 0) eqn:E; Nify_bool; [subst; auto|].
    rewrite <- app_assoc. assert (Hq : n / 10 <= two63 / 10) by (apply N.div_le_mono; lia).
    rewrite IH; [|apply size_div10; auto|]. 2: { transitivity (two63 / 10); auto. vm_compute. discriminate. }
    cbn [app leading_int]. rewrite digit_is_digit by (apply N.mod_lt; lia).
    destruct (two63 / 10 <? n / 10) eqn:E1; Nify_bool. { exfalso. apply N.le_ngt in Hq. auto. }
    rewrite dval_digit by (apply N.mod_lt; lia).
    replace (n / 10 * 10 + n mod 10) with n by (rewrite (N.div_mod n 10) at 1 by lia; lia).
    destruct (two63 <? n) eqn:E2; Nify_bool; auto. lia.
Qed.
Lemma leading_int_dec n s : n <= two63 -> nodigit s -> leading_int 0 (dec n ++ s) = Some (n, s).
Proof.
  intros Hn Hs. unfold dec. destruct (n =? 0) eqn:E; Nify_bool.
  - subst. cbn [app leading_int]. rewrite digit_is_digit by lia. rewrite dval_digit by lia.
    cbn. now apply leading_int_stop.
  - rewrite leading_int_pos by auto. now apply leading_int_stop.
Qed.

Lemma leading_fraction_digits ds : forall x k s, Forall (fun b => is_digit b = true) ds ->
  (x + 1) * 10 ^ N.of_nat (length ds) <= 10 ^ 17 -> nodigit s ->
  leading_fraction x k false (ds ++ s) = (readdec ds x, (k + length ds)%nat, s).
Proof.
  induction ds as [|c ds IH]; intros x k s Hd Hx Hs.
  - cbn. rewrite Nat.add_0_r. destruct s as [|c s]; auto. cbn in Hs. cbn. now rewrite Hs.
  - inversion Hd as [|? ? Hc Hd']; subst. cbn [app leading_fraction length] in *. rewrite Hc.
    rewrite Nat2N.inj_succ, N.pow_succ_r' in Hx.
    assert (Hp : 1 <= 10 ^ N.of_nat (length ds)).
    { change 1 with (10 ^ 0). apply N.pow_le_mono_r; lia. }
    assert (Hc' : dval c < 10). { unfold is_digit in Hc. unfold dval. Nify_bool. lia. }
    assert (Hx1 : x < 10 ^ 17) by nia.
    change (10 ^ 17) with 100000000000000000 in *. change two63 with 9223372036854775808.
    change ((9223372036854775808 - 1) / 10) with 922337203685477580.
    destruct (922337203685477580 <? x) eqn:E1; Nify_bool; [lia|].
    destruct (9223372036854775808 <? x * 10 + dval c) eqn:E2; Nify_bool; [lia|].
    rewrite IH; auto. 2: { nia. }
    cbn [readdec]. f_equal. f_equal. lia.
Qed.

Lemma take_unit_app u : forall s, Forall (fun c => ((code c =? 46) || is_digit c) = false) u -> unit_end s ->
  take_unit (u ++ s) = (u, s).
Proof.
  induction u as [|c u IH]; intros s Hu Hs.
  - destruct s as [|c s]; auto. cbn in Hs. cbn [app take_unit]. now rewrite Hs.
  - inversion Hu as [|? ? Hc Hu']; subst. cbn [app take_unit]. rewrite Hc, IH by auto. auto.
Qed.

(* fixed width decimals *)
Fixpoint fixed (p : nat) (v : N) : bytes :=
  match p with O => [] | S p' => fixed p' (v / 10) ++ [digit (v mod 10)] end.
Lemma fixed_length p : forall v, length (fixed p v) = p.
Proof. induction p; intros v; cbn; auto. rewrite app_length, IHp. cbn. lia. Qed.
Lemma fixed_digits p : forall v, Forall (fun b => is_digit b = true) (fixed p v).
Proof.
  induction p; intros v; cbn; [constructor|]. apply Forall_app. split; auto.
  constructor; [|constructor]. apply digit_is_digit, N.mod_lt. lia.
Qed.
Lemma mod_pow_succ v p : v mod 10 ^ N.of_nat (S p) = 10 * ((v / 10) mod 10 ^ N.of_nat p) + v mod 10.
Proof.
  rewrite Nat2N.inj_succ, N.pow_succ_r'. rewrite N.mod_mul_r; [lia|discriminate|apply N.pow_nonzero; discriminate].
Qed.
Lemma div_pow_succ v p : v / 10 ^ N.of_nat (S p) = v / 10 / 10 ^ N.of_nat p.
Proof.
  rewrite Nat2N.inj_succ, N.pow_succ_r'. rewrite N.div_div; [reflexivity|discriminate|apply N.pow_nonzero; discriminate].
Qed.
Lemma fixed_read p : forall v acc, readdec (fixed p v) acc = acc * 10 ^ N.of_nat p + v mod 10 ^ N.of_nat p.
Proof.
  induction p as [|p IH]; intros v acc.
  - cbn. rewrite N.mod_1_r. lia.
  - rewrite mod_pow_succ. cbn [fixed]. rewrite readdec_app, IH. cbn [readdec].
    rewrite dval_digit by (apply N.mod_lt; lia). rewrite Nat2N.inj_succ, N.pow_succ_r'. lia.
Qed.

Lemma frac_loop_true p : forall v out,
  frac_loop p v true out = (chr 46 :: fixed p v ++ out, v / 10 ^ N.of_nat p).
Proof.
  induction p as [|p IH]; intros v out.
  - cbn [frac_loop fixed]. now rewrite N.div_1_r.
  - cbn [frac_loop fixed]. rewrite orb_true_l, IH, div_pow_succ, <- app_assoc. reflexivity.
Qed.

Lemma frac_spec p : forall v, exists txt ds, frac_loop p v false [] = (txt, v / 10 ^ N.of_nat p) /\
  ((txt = [] /\ ds = []) \/ txt = chr 46 :: ds) /\ (length ds <= p)%nat /\
  Forall (fun b => is_digit b = true) ds /\
  v mod 10 ^ N.of_nat p = readdec ds 0 * 10 ^ N.of_nat (p - length ds).
Proof.
  induction p as [|p IH]; intros v.
  - exists [], []. cbn [frac_loop]. rewrite N.div_1_r, N.mod_1_r. repeat split; auto.
  - cbn [frac_loop]. destruct (v mod 10 =? 0) eqn:E; cbn [negb orb]; Nify_bool.
    + destruct (IH (v / 10)) as (txt & ds & H1 & H2 & H3 & H4 & H5).
      exists txt, ds. rewrite H1, div_pow_succ, mod_pow_succ, E, H5.
      repeat split; auto.
      replace (S p - length ds)%nat with (S (p - length ds)) by lia.
      rewrite Nat2N.inj_succ, N.pow_succ_r'. lia.
    + exists (chr 46 :: fixed (S p) v), (fixed (S p) v). rewrite frac_loop_true, div_pow_succ, mod_pow_succ.
      repeat split; auto.
      * rewrite fixed_length. lia.
      * apply fixed_digits.
      * rewrite fixed_read, mod_pow_succ, fixed_length, Nat.sub_diag. cbn [N.of_nat N.pow]. lia.
Qed.

Lemma dec_split n : exists c t, dec n = c :: t /\ is_digit c = true.
Proof.
  pose proof (dec_digits n) as H. pose proof (dec_nonnil n) as Hn. destruct (dec n) as [|c t]; [congruence|].
  inversion H; eauto.
Qed.

Section P.
  Context (fracval : N -> N -> nat -> N) (Hfl : float_exact fracval).

  (* one number with its unit *)
  Lemma parse_comp v p w txt ds u unit fuel d rest :
    ((txt = [] /\ ds = []) \/ txt = chr 46 :: ds) -> (length ds <= p)%nat -> (p <= 9)%nat ->
    Forall (fun b => is_digit b = true) ds ->
    w mod 10 ^ N.of_nat p = readdec ds 0 * 10 ^ N.of_nat (p - length ds) ->
    Forall (fun c => ((code c =? 46) || is_digit c) = false) u -> u <> [] -> unit_end rest ->
    unit_ns u = Some unit -> (p = O \/ unit = 10 ^ N.of_nat p) -> unit <> 0 ->
    v <= two63 -> v <= two63 / unit -> d + v * unit + w mod 10 ^ N.of_nat p <= two63 ->
    parse_loop fracval (S fuel) (dec v ++ txt ++ u ++ rest) d =
    parse_loop fracval fuel rest (d + v * unit + w mod 10 ^ N.of_nat p).
  Proof.
    intros Htxt Hlen Hp Hds Hw Hu Hun Hrest Hunit Hpu Hu0 Hv Hvu Hsum.
    destruct (dec_split v) as (c & t & Ec & Hc).
    remember (dec v ++ txt ++ u ++ rest) as s eqn:Es.
    assert (Hu1 : exists c1 u1, u = c1 :: u1 /\ ((code c1 =? 46) || is_digit c1) = false).
    { destruct u as [|c1 u1]; [congruence|]. inversion Hu; eauto. }
    destruct Hu1 as (c1 & u1 & -> & Hc1). Nify_bool.
    assert (Hnd : nodigit (txt ++ (c1 :: u1) ++ rest)).
    { destruct Htxt as [[-> _]| ->]; cbn; auto. tauto. }
    assert (Hli : leading_int 0 s = Some (v, txt ++ (c1 :: u1) ++ rest)).
    { subst s. apply leading_int_dec; auto. }
    assert (Hcs : exists t', s = c :: t').
    { subst s. rewrite Ec. cbn. eauto. }
    destruct Hcs as (t' & Hs). cbn [parse_loop]. rewrite Hs. rewrite <- Hs. rewrite Hc, orb_true_r. cbn [negb].
    rewrite Hli. clear Hli.
    assert (Hpre : (length (txt ++ (c1 :: u1) ++ rest) =? length s)%nat = false).
    { apply Nat.eqb_neq. rewrite Es, Ec, !app_length. cbn. lia. }
    rewrite Hpre. cbn [negb orb].
    set (F := readdec ds 0) in *.
    assert (Hsel : exists post,
      match txt ++ (c1 :: u1) ++ rest with
      | p0 :: t0 =>
          if code p0 =? 46 then
            let '(f, k, r) := leading_fraction 0 0 false t0 in (f, k, negb (length r =? length t0)%nat, r)
          else (0, O, false, txt ++ (c1 :: u1) ++ rest)
      | [] => (0, O, false, txt ++ (c1 :: u1) ++ rest)
      end = (F, length ds, post, (c1 :: u1) ++ rest)).
    { destruct Htxt as [[-> ->] | ->].
      - exists false. cbn [app]. destruct (code c1 =? 46) eqn:E; Nify_bool; [tauto|]. reflexivity.
      - eexists. cbn [app]. change (code (chr 46) =? 46) with true. cbn iota.
        rewrite (leading_fraction_digits ds 0 0 (c1 :: u1 ++ rest)); auto.
        + transitivity (10 ^ N.of_nat 9); [|vm_compute; discriminate].
          rewrite N.mul_1_l. apply N.pow_le_mono_r; lia.
        + cbn. tauto. }
    destruct Hsel as (post & Hsel).
    lazymatch goal with |- match ?X with _ => _ end = _ =>
      replace X with (F, length ds, post, (c1 :: u1) ++ rest) by (symmetry; exact Hsel) end.
    rewrite take_unit_app by auto. rewrite Hunit.
    destruct (two63 / unit <? v) eqn:E1; Nify_bool. { apply N.le_ngt in Hvu. tauto. }
    assert (Hfv : (if 0 <? F then v * unit + fracval F unit (length ds) else v * unit) =
                  v * unit + w mod 10 ^ N.of_nat p).
    { destruct (0 <? F) eqn:E2; Nify_bool.
      2: { rewrite Hw. replace F with 0 by lia. lia. }
      f_equal. destruct Hpu as [-> | Hpu].
      - assert (ds = []) by (destruct ds; cbn in Hlen; auto; lia). subst ds. unfold F in E2. cbn in E2. lia.
      - assert (Hdiv : unit = 10 ^ N.of_nat (p - length ds) * 10 ^ N.of_nat (length ds)).
        { rewrite <- N.pow_add_r, <- Nat2N.inj_add. rewrite Hpu. f_equal. f_equal. lia. }
        assert (Hnz : 10 ^ N.of_nat (length ds) <> 0) by (apply N.pow_nonzero; lia).
        assert (Hq : unit / 10 ^ N.of_nat (length ds) = 10 ^ N.of_nat (p - length ds)).
        { rewrite Hdiv. now apply N.div_mul. }
        rewrite Hfl.
        + rewrite Hq. symmetry. exact Hw.
        + rewrite Hdiv. now apply N.mod_mul.
        + rewrite Hq, <- Hw. apply N.lt_le_trans with (10 ^ N.of_nat p).
          * apply N.mod_lt. apply N.pow_nonzero. lia.
          * transitivity (10 ^ N.of_nat 9); [|vm_compute; discriminate]. apply N.pow_le_mono_r; lia. }
    rewrite Hfv. set (M := w mod 10 ^ N.of_nat p) in *. clearbody M.
    replace (two63 <? v * unit + M) with false by (symmetry; apply N.ltb_ge; lia).
    rewrite andb_false_r.
    replace (d + (v * unit + M)) with (d + v * unit + M) by lia.
    replace (two63 <? d + v * unit + M) with false by (symmetry; apply N.ltb_ge; lia).
    reflexivity.
  Qed.

  (* a whole number with its unit *)
  Lemma parse_comp0 v u unit fuel d rest :
    Forall (fun c => ((code c =? 46) || is_digit c) = false) u -> u <> [] -> unit_end rest ->
    unit_ns u = Some unit -> unit <> 0 ->
    v <= two63 -> v <= two63 / unit -> d + v * unit <= two63 ->
    parse_loop fracval (S fuel) (dec v ++ u ++ rest) d = parse_loop fracval fuel rest (d + v * unit).
  Proof.
    intros. pose proof (parse_comp v 0 0 [] [] u unit fuel d rest) as Hc. cbn [app length] in Hc.
    rewrite Hc; auto; try lia.
    - f_equal. cbn. lia.
    - cbn. lia.
  Qed.

  Lemma parse_abs u fuel : 0 < u -> u <= two63 ->
    parse_loop fracval (S (S (S fuel))) (dur_abs u) 0 = Some u.
  Proof.
    intros H0 Hu. unfold dur_abs.
    assert (Hle : forall k, k <> 0 -> u / k <= two63 / k) by (intros; apply N.div_le_mono; auto).
    assert (Hle2 : forall k, k <> 0 -> u / k <= two63).
    { intros k Hk. transitivity u; auto. apply N.div_le_upper_bound; auto. nia. }
    assert (Hdm : forall k, k <> 0 -> u / k * k + u mod k = u).
    { intros k Hk. rewrite (N.div_mod u k) at 3 by auto. lia. }
    assert (Hsub : forall p txtu unit, (p <= 9)%nat -> unit = 10 ^ N.of_nat p ->
      Forall (fun c => ((code c =? 46) || is_digit c) = false) txtu -> txtu <> [] -> unit_ns txtu = Some unit ->
      parse_loop fracval (S (S (S fuel))) (let '(f, v) := fmt_frac u p in dec v ++ f ++ txtu) 0 = Some u).
    { intros p txtu unit Hp Hunit Hf Hne Hun.
      destruct (frac_spec p u) as (txt & ds & H1 & H2 & H3 & H4 & H5). unfold fmt_frac. rewrite H1.
      assert (Hk : 10 ^ N.of_nat p <> 0) by (apply N.pow_nonzero; lia).
      rewrite <- (app_nil_r txtu).
      rewrite (parse_comp (u / 10 ^ N.of_nat p) p u txt ds txtu unit); auto; try (subst; auto; fail).
      - cbn [parse_loop]. f_equal. subst unit. rewrite N.add_0_l. auto.
      - cbn. auto.
      - subst. rewrite N.add_0_l, Hdm; auto. }
    destruct (u <? 1000000000) eqn:E1; Nify_bool.
    { destruct (u =? 0) eqn:E2; Nify_bool; [lia|].
      destruct (u <? 1000) eqn:E3; Nify_bool.
      { apply (Hsub 0%nat (B "ns") 1); [lia|reflexivity|repeat constructor|discriminate|reflexivity]. }
      destruct (u <? 1000000) eqn:E4; Nify_bool.
      { apply (Hsub 3%nat (micro_sign ++ B "s") 1000); [lia|reflexivity|repeat constructor|discriminate|reflexivity]. }
      apply (Hsub 6%nat (B "ms") 1000000); [lia|reflexivity|repeat constructor|discriminate|reflexivity]. }
    destruct (frac_spec 9 u) as (txt & ds & H1 & H2 & H3 & H4 & H5). unfold fmt_frac. rewrite H1.
    change (10 ^ N.of_nat 9) with 1000000000 in *.
    pose proof (Hdm 1000000000 ltac:(lia)) as Hd9.
    assert (Hf9 : u mod 1000000000 < 1000000000) by (apply N.mod_lt; lia).
    set (v := u / 1000000000) in *. set (fr := u mod 1000000000) in *.
    assert (Hv60 : v = 60 * (v / 60) + v mod 60) by (apply N.div_mod; lia).
    assert (Hvm : v mod 60 < 60) by (apply N.mod_lt; lia).
    set (m := v / 60) in *. set (sc := v mod 60) in *.
    assert (Hm60 : m = 60 * (m / 60) + m mod 60) by (apply N.div_mod; lia).
    assert (Hmm : m mod 60 < 60) by (apply N.mod_lt; lia).
    set (h := m / 60) in *. set (mn := m mod 60) in *.
    assert (Htot : h * 3600000000000 + mn * 60000000000 + sc * 1000000000 + fr = u) by lia.
    clearbody h mn. clearbody m sc. 
    assert (Hfr : fr = u mod 10 ^ N.of_nat 9) by reflexivity.
    clearbody v.
    assert (Hsecs : forall fl d, d + sc * 1000000000 + fr <= two63 ->
      parse_loop fracval (S fl) (dec sc ++ txt ++ B "s") d = Some (d + sc * 1000000000 + fr)).
    { intros fl d Hd. rewrite <- (app_nil_r (B "s")).
      rewrite (parse_comp sc 9 u txt ds (B "s") 1000000000); auto.
      - change (10 ^ N.of_nat 9) with 1000000000. fold fr. destruct fl; reflexivity.
      - repeat constructor.
      - discriminate.
      - cbn. auto.
      - discriminate.
      - unfold two63. lia.
      - transitivity 60; [lia|]. vm_compute. discriminate. }
    assert (Hse : unit_end (dec sc ++ txt ++ B "s")).
    { destruct (dec_split sc) as (c & t & -> & Hc). cbn [app unit_end]. now rewrite Hc, orb_true_r. }
    assert (Hmins : forall fl d, mn * 60000000000 + d + sc * 1000000000 + fr <= two63 ->
      parse_loop fracval (S (S fl)) ((dec mn ++ B "m") ++ dec sc ++ txt ++ B "s") d =
      Some (d + mn * 60000000000 + sc * 1000000000 + fr)).
    { intros fl d Hd. rewrite <- app_assoc.
      rewrite (parse_comp0 mn (B "m") 60000000000); auto.
      - rewrite Hsecs; [reflexivity|]. lia.
      - repeat constructor.
      - discriminate.
      - discriminate.
      - unfold two63. lia.
      - transitivity 60; [lia|]. vm_compute. discriminate.
      - lia. }
    destruct (0 <? m) eqn:E2; Nify_bool.
    2: { rewrite Hsecs; [f_equal; lia|]. lia. }
    destruct (0 <? h) eqn:E3; Nify_bool.
    2: { rewrite Hmins; [f_equal; lia|]. lia. }
    rewrite (parse_comp0 h (B "h") 3600000000000); auto.
    - rewrite Hmins; [f_equal; lia|]. lia.
    - repeat constructor.
    - discriminate.
    - destruct (dec_split mn) as (c & t & -> & Hc). cbn [app unit_end]. now rewrite Hc, orb_true_r.
    - discriminate.
    - lia.
    - apply N.div_le_lower_bound; lia.
    - lia.
  Qed.
End P.

Lemma dec_app_split n t : t <> [] -> exists c r, dec n ++ t = c :: r /\ is_digit c = true /\ r <> [].
Proof.
  intros Ht. destruct (dec_split n) as (c & r & -> & Hc). exists c, (r ++ t). repeat split; auto.
  destruct r; cbn; auto. discriminate.
Qed.
Lemma dur_abs_split u : exists c r, dur_abs u = c :: r /\ is_digit c = true /\ r <> [].
Proof.
  unfold dur_abs. destruct (u <? 1000000000).
  - destruct (u =? 0). { exists (chr 48), (B "s"). repeat split. discriminate. }
    destruct (u <? 1000); [|destruct (u <? 1000000)]; destruct (fmt_frac u _) as [f v];
      apply dec_app_split; intros H; apply app_eq_nil in H; destruct H; discriminate.
  - destruct (fmt_frac u 9) as [f v]. destruct (0 <? v / 60); [destruct (0 <? v / 60 / 60)|].
    + apply dec_app_split. discriminate.
    + rewrite <- app_assoc. apply dec_app_split. discriminate.
    + apply dec_app_split. intros H; apply app_eq_nil in H; destruct H; discriminate.
Qed.

Lemma dur_abs0 : dur_abs 0 = B "0s". Proof. reflexivity. Qed.

Lemma dur_round fracval d : float_exact fracval -> int64 d -> dur_parse fracval (dur_string d) = Some d.
Proof.
  intros Hfl Hd. unfold int64 in Hd. unfold dur_string.
  destruct (Z.eq_dec d 0) as [->|Hnz]. { vm_compute. reflexivity. }
  assert (Hu : 0 < Z.abs_N d) by lia.
  assert (Hu2 : Z.abs_N d <= two63) by (unfold two63; lia).
  destruct (dur_abs_split (Z.abs_N d)) as (c & r & Hs & Hc & Hr).
  assert (Hp : parse_loop fracval (S (S (length (dur_abs (Z.abs_N d))))) (dur_abs (Z.abs_N d)) 0 = Some (Z.abs_N d)).
  { rewrite Hs at 1. cbn [length]. apply parse_abs; auto. }
  assert (H0 : beqb (dur_abs (Z.abs_N d)) (B "0") = false).
  { destruct (beqb _ _) eqn:E; auto. apply beqb_eq in E. rewrite Hs in E. inversion E. congruence. }
  unfold dur_parse. destruct (d <? 0)%Z eqn:E.
  - unfold parse_duration. change ((code (chr 45) =? 45) || (code (chr 45) =? 43)) with true. cbn iota.
    rewrite H0, Hp. rewrite Hs. cbn iota. change (code (chr 45) =? 45) with true. cbn iota. f_equal. lia.
  - rewrite Hs. unfold parse_duration. rewrite <- Hs.
    assert (Hns : ((code c =? 45) || (code c =? 43)) = false).
    { unfold is_digit in Hc. Nify_bool. lia. }
    rewrite Hs. rewrite Hns. rewrite <- Hs, H0, Hp. cbn iota.
    destruct (two63 - 1 <? Z.abs_N d) eqn:E2; Nify_bool; [unfold two63 in *; lia|]. f_equal. lia.
Qed.

Lemma dur_text_round fracval d : float_exact fracval -> int64 d -> dur_parse fracval (dur_text d) = Some d.
Proof.
  intros Hfl Hd. unfold dur_text. destruct (d =? 0)%Z eqn:E; [apply Z.eqb_eq in E; subst; reflexivity|].
  now apply dur_round.
Qed.

(* an instance of the floating point assumption: truncated exact arithmetic *)
Definition frac_floor (f unit : N) (k : nat) : N := f * unit / 10 ^ N.of_nat k.
Lemma frac_floor_exact : float_exact frac_floor.
Proof.
  intros f unit k Hm _. unfold frac_floor. assert (Hn : 10 ^ N.of_nat k <> 0) by (apply N.pow_nonzero; lia).
  apply N.div_exact in Hm; auto. rewrite Hm at 1. rewrite N.mul_assoc, (N.mul_comm f), <- N.mul_assoc.
  rewrite (N.mul_comm (10 ^ N.of_nat k)). now rewrite N.div_mul.
Qed.

Lemma dur_string_inj a b : int64 a -> int64 b -> dur_string a = dur_string b -> a = b.
Proof.
  intros Ha Hb H. pose proof (dur_round frac_floor a frac_floor_exact Ha) as H1.
  rewrite H, (dur_round frac_floor b frac_floor_exact Hb) in H1. now inversion H1.
Qed.
