(* Numbers, keys and tags of MarModel. *)
From Coq Require Import Bool Ascii String Arith NArith ZArith Lia List Sorted Permutation.
From Verif Require Import Prelude PreludeFacts Utf8Model Utf8Facts DecModel DecFacts DurModel DurProofs EncModel JsonModel JsonSpec JsonFacts KvProofs JsonProofs MarModel MarSpec.
Import ListNotations.

(* ---- numbers ---- *)
Lemma bits_pos w : (8 <= bits w <= 64)%Z.
Proof. destruct w; cbn; lia. Qed.
Lemma swrap_id w z : int_range w z -> swrap w z = z.
Proof.
  unfold int_range, swrap. intros H. pose proof (bits_pos w). assert (2 ^ bits w = 2 * 2 ^ (bits w - 1))%Z.
  { rewrite <- Z.pow_succ_r by lia. f_equal. lia. }
  rewrite Z.mod_small; lia.
Qed.
Lemma uwrap_id w z : uint_range w z -> uwrap w z = z.
Proof. unfold uint_range, uwrap. intros H. apply Z.mod_small; lia. Qed.
Lemma swrap_range w z : int_range w (swrap w z).
Proof.
  unfold int_range, swrap. pose proof (bits_pos w). assert (2 ^ bits w = 2 * 2 ^ (bits w - 1))%Z.
  { rewrite <- Z.pow_succ_r by lia. f_equal. lia. }
  assert (0 < 2 ^ bits w)%Z by (apply Z.pow_pos_nonneg; lia).
  pose proof (Z.mod_pos_bound (z + 2 ^ (bits w - 1)) (2 ^ bits w)). lia.
Qed.
Lemma uwrap_range w z : uint_range w (uwrap w z).
Proof.
  unfold uint_range, uwrap. pose proof (bits_pos w). apply Z.mod_pos_bound. apply Z.pow_pos_nonneg; lia.
Qed.
Lemma range_le w w' z : (bits w <= bits w')%Z -> uint_range w z -> uint_range w' z.
Proof.
  unfold uint_range. intros H [H1 H2]. split; auto. eapply Z.lt_le_trans; eauto. apply Z.pow_le_mono_r; lia.
Qed.
Lemma uint64 w z : uint_range w z -> uint_range W64 z.
Proof. apply range_le. apply bits_pos. Qed.
Lemma int64_range w z : int_range w z -> int_range W64 z.
Proof.
  unfold int_range. pose proof (bits_pos w). cbn [bits]. intros [H1 H2].
  assert (2 ^ (bits w - 1) <= 2 ^ (64 - 1))%Z by (apply Z.pow_le_mono_r; lia). lia.
Qed.
Lemma swrap64_inj a b : uint_range W64 a -> uint_range W64 b -> swrap W64 a = swrap W64 b -> a = b.
Proof.
  unfold uint_range, swrap. cbn [bits]. change (2 ^ (64 - 1))%Z with 9223372036854775808%Z. change (2 ^ 64)%Z with 18446744073709551616%Z.
  intros H1 H2 H. assert (H3 : ((a + 9223372036854775808) mod 18446744073709551616 = (b + 9223372036854775808) mod 18446744073709551616)%Z) by lia.
  clear H. revert H3. 
  destruct (Z.ltb_spec a 9223372036854775808), (Z.ltb_spec b 9223372036854775808); intros H3;
    repeat match type of H3 with context [(?x mod ?m)%Z] =>
      first [rewrite (Z.mod_small x m) in H3 by lia | rewrite <- (Z.mod_unique x m 1 (x - m)) in H3 by lia] end; lia.
Qed.
Lemma uwrap_swrap z : uint_range W64 z -> uwrap W64 (swrap W64 z) = z.
Proof.
  unfold uint_range, uwrap, swrap. cbn [bits]. change (2 ^ (64 - 1))%Z with 9223372036854775808%Z. change (2 ^ 64)%Z with 18446744073709551616%Z.
  intros H. rewrite Zminus_mod_idemp_l. replace (z + 9223372036854775808 - 9223372036854775808)%Z with z by lia.
  apply Z.mod_small; lia.
Qed.
Lemma swrap_small z : (0 <= z < 2 ^ 63)%Z -> swrap W64 z = z.
Proof. intros H. apply swrap_id. unfold int_range. cbn [bits]. change (2 ^ (64 - 1))%Z with (2 ^ 63)%Z. lia. Qed.
Lemma swrap_big z : uint_range W64 z -> (2 ^ 63 <= z)%Z -> (swrap W64 z < 0)%Z.
Proof.
  unfold uint_range, swrap. cbn [bits]. change (2 ^ (64 - 1))%Z with 9223372036854775808%Z. change (2 ^ 64)%Z with 18446744073709551616%Z.
  change (2 ^ 63)%Z with 9223372036854775808%Z. intros H1 H2.
  rewrite <- (Z.mod_unique (z + 9223372036854775808) 18446744073709551616 1 (z + 9223372036854775808 - 18446744073709551616)); lia.
Qed.
Lemma swrap_zero z : uint_range W64 z -> (swrap W64 z =? 0)%Z = (z =? 0)%Z.
Proof.
  intros H. destruct (Z.eqb_spec z 0) as [->|E]; [reflexivity|]. apply Z.eqb_neq. intros H0. apply E.
  apply swrap64_inj; auto. unfold uint_range. cbn [bits]. lia.
Qed.

(* ---- text of numbers ---- *)
Lemma fold_readdec s : forall a, fold_left (fun a c => 10 * a + dval c)%N s a = readdec s a.
Proof. induction s as [|c s IH]; intros a; cbn [fold_left readdec]; auto. rewrite IH. f_equal. lia. Qed.
Lemma digits_val_dec n : digits_val (dec n) = Some n.
Proof.
  unfold digits_val. pose proof (dec_nonnil n). pose proof (dec_digits n) as Hd. destruct (dec n) as [|c s] eqn:E; [congruence|].
  rewrite <- E in *. assert (F : forallb is_digit (dec n) = true) by (apply forallb_forall; rewrite Forall_forall in Hd; auto).
  rewrite F. f_equal. rewrite fold_readdec. apply dec_read.
Qed.
Lemma digit_code_range c : is_digit c = true -> (48 <= code c <= 57)%N.
Proof. unfold is_digit. rewrite andb_true_iff, !N.leb_le. lia. Qed.
Lemma dec_cons n : exists c s, dec n = c :: s /\ is_digit c = true.
Proof.
  pose proof (dec_nonnil n). pose proof (dec_digits n) as Hd. destruct (dec n) as [|c s]; [congruence|].
  inversion Hd; subst. eauto.
Qed.
Lemma parse_int_decz z : int_range W64 z -> parse_int (decz z) = Some z.
Proof.
  unfold int_range. cbn [bits]. change (2 ^ (64 - 1))%Z with (2 ^ 63)%Z. intros H. unfold decz. destruct (z <? 0)%Z eqn:E.
  - apply Z.ltb_lt in E. cbn [parse_int]. rewrite code_chr by lia. cbn [N.eqb Pos.eqb orb]. rewrite digits_val_dec. rewrite N2Z.inj_abs_N.
    replace (Z.abs z <=? 2 ^ 63)%Z with true by (symmetry; apply Z.leb_le; lia). f_equal; lia.
  - apply Z.ltb_ge in E. destruct (dec_cons (Z.abs_N z)) as (c & s & Hc & Hd). unfold parse_int. rewrite Hc.
    apply digit_code_range in Hd.
    replace (code c =? 45)%N with false by (symmetry; apply N.eqb_neq; lia).
    replace (code c =? 43)%N with false by (symmetry; apply N.eqb_neq; lia). cbn [orb]. rewrite <- Hc, digits_val_dec, N2Z.inj_abs_N.
    replace (Z.abs z <? 2 ^ 63)%Z with true by (symmetry; apply Z.ltb_lt; lia). f_equal; lia.
Qed.
Lemma parse_uint_decz z : (0 <= z < 2 ^ 64)%Z -> parse_uint (decz z) = Some z.
Proof.
  intros H. unfold decz. replace (z <? 0)%Z with false by (symmetry; apply Z.ltb_ge; lia). unfold parse_uint.
  rewrite digits_val_dec, N2Z.inj_abs_N. replace (Z.abs z <? 2 ^ 64)%Z with true by (symmetry; apply Z.ltb_lt; lia). f_equal; lia.
Qed.
Lemma parse_uint_neg z : (z < 0)%Z -> parse_uint (decz z) = None.
Proof.
  intros H. unfold decz. replace (z <? 0)%Z with true by (symmetry; apply Z.ltb_lt; lia). unfold parse_uint, digits_val.
  cbn [forallb]. replace (is_digit (chr 45)) with false by reflexivity. reflexivity.
Qed.
Lemma trim_id s : Forall (fun c => code c <> 46%N) s -> trimDecimal s = s.
Proof.
  induction 1 as [|c s H Hs IH]; cbn [trimDecimal]; auto. replace (code c =? 46)%N with false by (symmetry; now apply N.eqb_neq). now rewrite IH.
Qed.
Lemma decz_nodot z : Forall (fun c => code c <> 46%N) (decz z).
Proof.
  assert (H : forall n, Forall (fun c => code c <> 46%N) (dec n)).
  { intros n. eapply Forall_impl; [|apply dec_digits]. intros c Hc. apply digit_code_range in Hc. lia. }
  unfold decz. destruct (z <? 0)%Z; auto. constructor; auto. rewrite code_chr by lia. lia.
Qed.
Lemma trim_decz z : trimDecimal (decz z) = decz z.
Proof. apply trim_id, decz_nodot. Qed.

(* ---- keys ---- *)
Lemma kltb_irrefl a : kltb a a = false.
Proof. destruct a; cbn; [apply bltb_irrefl|apply Z.ltb_irrefl]. Qed.
Lemma kltb_trans a b c : kltb a b = true -> kltb b c = true -> kltb a c = true.
Proof.
  destruct a, b, c; cbn; auto; try discriminate.
  - apply bltb_trans.
  - rewrite !Z.ltb_lt. lia.
Qed.
Lemma kltb_total a b : kltb a b = false -> kltb b a = false -> a = b.
Proof.
  destruct a as [a|a], b as [b|b]; cbn; try discriminate.
  - intros H1 H2. f_equal. destruct (list_eq_dec ascii_dec a b); auto. rewrite (bltb_total a b) in H2; auto; discriminate.
  - rewrite !Z.ltb_ge. intros. f_equal. lia.
Qed.
Definition kle (a b : key * val) : Prop := kltb (fst a) (fst b) = true.
Lemma kset_perm m k v : ~ In k (map fst m) -> Permutation ((k, v) :: m) (kset m k v).
Proof.
  induction m as [|[k' v'] m IH]; cbn [kset map fst In]; intros H; [auto|].
  destruct (kltb k k') eqn:E1; auto. destruct (kltb k' k) eqn:E2.
  - rewrite perm_swap. constructor. apply IH. tauto.
  - exfalso. apply H. left. symmetry. now apply kltb_total.
Qed.
Lemma kset_sorted m k v : StronglySorted kle m -> StronglySorted kle (kset m k v).
Proof.
  induction 1 as [|[k' v'] m Hs IH Hf]; cbn [kset].
  - repeat constructor.
  - destruct (kltb k k') eqn:E1; [|destruct (kltb k' k) eqn:E2].
    + constructor; [constructor; auto|]. constructor; auto. eapply Forall_impl; [|exact Hf]. intros [] H. unfold kle in *. cbn in *. eapply kltb_trans; eauto.
    + constructor; auto. clear -Hf E2. revert Hf. induction m as [|[k2 v2] m IH]; cbn [kset]; intros Hf.
      * repeat constructor; auto.
      * inversion Hf; subst. destruct (kltb k k2); [constructor; auto|]. destruct (kltb k2 k); [constructor; auto|]. constructor; auto.
    + assert (k = k') by now apply kltb_total. subst. constructor; auto.
Qed.
Lemma kle_unique l : forall m, StronglySorted kle l -> StronglySorted kle m -> Permutation l m -> l = m.
Proof.
  induction l as [|a l IH]; intros m Hl Hm Hp.
  - apply Permutation_nil in Hp. now subst.
  - destruct m as [|b m]; [apply Permutation_sym, Permutation_nil in Hp; discriminate|].
    inversion Hl as [|? ? Hl1 Hl2]; inversion Hm as [|? ? Hm1 Hm2]; subst.
    assert (a = b).
    { assert (Ha : In a (b :: m)) by (eapply Permutation_in; [exact Hp|now left]).
      assert (Hb : In b (a :: l)) by (eapply Permutation_in; [apply Permutation_sym; exact Hp|now left]).
      destruct Ha as [Ha|Ha]; auto. destruct Hb as [Hb|Hb]; auto.
      rewrite Forall_forall in Hl2, Hm2. specialize (Hl2 _ Hb). specialize (Hm2 _ Ha). unfold kle in *.
      pose proof (kltb_trans _ _ _ Hl2 Hm2). pose proof (kltb_irrefl (fst a)); congruence. }
    subst. f_equal. apply IH; auto. eapply Permutation_cons_inv; eauto.
Qed.
Lemma sorted_nodup (l : list (key * val)) : StronglySorted (fun a b => kltb a b = true) (map fst l) -> NoDup (map fst l).
Proof.
  induction (map fst l) as [|a m IH]; intros H; [constructor|]. inversion H as [|? ? H1 H2]; subst. constructor; auto.
  intros Hi. rewrite Forall_forall in H2. specialize (H2 _ Hi). rewrite kltb_irrefl in H2. discriminate.
Qed.
Lemma sorted_map (g : val -> val) (l : list (key * val)) : StronglySorted (fun a b => kltb a b = true) (map fst l) ->
  StronglySorted kle (map (fun e => (fst e, g (snd e))) l).
Proof.
  induction l as [|a l IH]; cbn [map]; intros H; [constructor|]. inversion H as [|? ? H1 H2]; subst. constructor; auto.
  rewrite Forall_forall in *. intros x Hx. apply in_map_iff in Hx as (y & <- & Hy). unfold kle. cbn. apply H2. now apply in_map.
Qed.

(* text of keys *)
Lemma ktext_inj k a b : key_of k a -> key_of k b -> ktext k a = ktext k b -> a = b.
Proof.
  destruct k, a, b; cbn; try contradiction; intros H1 H2 H; auto; try congruence.
  - f_equal. now apply decz_inj.
  - f_equal. apply decz_inj in H. apply swrap64_inj; eauto using uint64.
Qed.
Definition key_small (k : kty) (x : key) : Prop := match k, x with KTUint _, KNum z => (z < 2 ^ 63)%Z | _, _ => True end.
Lemma ukey_ktext k x : key_of k x -> key_small k x -> ukey k (ktext k x) = Some x.
Proof.
  destruct k, x; cbn [key_of key_small]; try contradiction; intros H H'; auto; unfold ukey, ktext.
  - rewrite parse_int_decz by eauto using int64_range. now rewrite swrap_id.
  - pose proof (uint64 _ _ H) as H64. pose proof H64 as H1. unfold uint_range in H1. cbn [bits] in H1.
    rewrite swrap_small by lia. rewrite parse_uint_decz by lia. now rewrite uwrap_id.
Qed.
Lemma ukey_big k x : key_of k x -> ~ key_small k x -> ukey k (ktext k x) = None.
Proof.
  destruct k, x; cbn [key_of key_small]; try contradiction; intros H H'; try tauto. unfold ukey, ktext.
  rewrite parse_uint_neg; auto. apply swrap_big; eauto using uint64. lia.
Qed.

(* ---- tags ---- *)
Lemma cut_comma_spec s : let (a, b) := cut_comma s in
  Forall (fun c => code c <> 44%N) a /\ ((s = a /\ b = []) \/ s = a ++ B "," ++ b).
Proof.
  induction s as [|c s IH]; cbn [cut_comma]; [auto|]. destruct (code c =? 44)%N eqn:E.
  - apply N.eqb_eq in E. split; auto. right. rewrite <- (chr_code c), E. reflexivity.
  - apply N.eqb_neq in E. destruct (cut_comma s) as [a b]. destruct IH as [H1 [[-> ->]| ->]]; split; auto; constructor; auto.
Qed.
Lemma cut_comma_no a : Forall (fun c => code c <> 44%N) a -> cut_comma a = (a, []).
Proof.
  induction 1 as [|c a H Ha IH]; cbn [cut_comma]; auto. apply N.eqb_neq in H. rewrite H, IH. reflexivity.
Qed.
Lemma cut_comma_at a b : Forall (fun c => code c <> 44%N) a -> cut_comma (a ++ B "," ++ b) = (a, b).
Proof.
  induction 1 as [|c a H Ha IH]; cbn [cut_comma app]; auto. apply N.eqb_neq in H. rewrite H, IH. reflexivity.
Qed.

(* the JSON name and omitempty of a field that takes part, in the model *)
Definition vis (f : fld) : option (bytes * bool) :=
  if f_exported f then
    match parseTag f with Ok tg => if g_skip tg then None else Some (g_json tg, g_omit tg) | Panic => None end
  else None.
Lemma tagged_vis f name o : tagged f name o <-> vis f = Some (name, o).
Proof.
  unfold tagged, vis, parseTag. destruct (f_exported f); [|split; [intros [H _]|intros H]; discriminate].
  destruct (beqb (f_tag f) (B "-")) eqn:E.
  { apply beqb_eq in E. split; [intros (_ & H & _); congruence|discriminate]. }
  apply beqb_neq in E. split.
  - intros (_ & _ & j & Hj & -> & [[H ->]|[[H ->]|[H ->]]]); rewrite H.
    + rewrite cut_comma_no by auto. reflexivity.
    + pose proof (cut_comma_at j [] Hj) as H1. change (B "," ++ []) with (B ",") in H1. rewrite H1. reflexivity.
    + pose proof (cut_comma_at j (B "omitempty") Hj) as H1. change (B ",omitempty") with (B "," ++ B "omitempty"). rewrite H1. reflexivity.
  - pose proof (cut_comma_spec (f_tag f)) as H. destruct (cut_comma (f_tag f)) as [a b]. destruct H as [Ha H].
    destruct (beqb b (B "omitempty")) eqn:E2.
    + apply beqb_eq in E2. subst b. cbn [g_skip g_json g_omit]. intros H1. inversion H1; subst. repeat split; auto. exists a. repeat split; auto.
      destruct H as [[_ H]|H]; [discriminate|]. auto.
    + destruct b; [|discriminate]. cbn [g_skip g_json g_omit]. intros H1. inversion H1; subst. repeat split; auto. exists a. repeat split; auto.
      destruct H as [[H _]|H]; auto.
Qed.
Lemma hidden_vis f : hidden f -> vis f = None.
Proof.
  unfold hidden, vis, parseTag. intros [->| ->]; auto. destruct (f_exported f); auto.
Qed.
(* what the struct type must be, for the model *)
Lemma vis_cases f : (hidden f \/ exists name o, tagged f name o) ->
  (f_exported f = false /\ vis f = None) \/
  (f_exported f = true /\ parseTag f = Ok (Tag [] false true) /\ vis f = None) \/
  (exists name o, f_exported f = true /\ parseTag f = Ok (Tag name o false) /\ vis f = Some (name, o)).
Proof.
  intros [H|(name & o & H)].
  - pose proof (hidden_vis f H) as Hv. destruct H as [H|H]; [auto|]. destruct (f_exported f) eqn:E; [|auto]. right; left. repeat split; auto.
    unfold parseTag. rewrite H. reflexivity.
  - apply tagged_vis in H. right; right. exists name, o. pose proof H as Hv. unfold vis in H. destruct (f_exported f); [|discriminate].
    destruct (parseTag f) as [[a b c]|]; [|discriminate]. cbn in H. destruct c; [discriminate|]. inversion H; subst. auto.
Qed.
Lemma vis_hidden f : vis f = None -> (hidden f \/ exists name o, tagged f name o) -> hidden f.
Proof. intros H [H1|(name & o & H1)]; auto. apply tagged_vis in H1. congruence. Qed.
