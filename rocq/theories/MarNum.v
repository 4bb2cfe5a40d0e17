(* Numbers read by Unmarshal: C32. *)
From Coq Require Import Bool Ascii String Arith NArith ZArith Lia List Sorted Permutation.
From Verif Require Import Prelude PreludeFacts Utf8Model Utf8Facts DecModel DecFacts DurModel DurProofs EncModel JsonModel KvSpec JsonSpec JsonFacts KvProofs JsonProofs MarModel MarSpec MarFacts.
Import ListNotations.

Lemma value10_fold s : forall a, Forall (fun c => is_digit c = true) s ->
  fold_left (fun a c => 10 * a + (Z.of_N (code c) - 48))%Z s (Z.of_N a) = Z.of_N (fold_left (fun a c => 10 * a + dval c)%N s a).
Proof.
  induction s as [|c s IH]; intros a H; cbn [fold_left]; auto. inversion H as [|? ? H1 H2]; subst. rewrite <- IH by auto. f_equal.
  apply digit_code_range in H1. unfold dval. lia.
Qed.
Lemma digits_value s : all_digits s -> digits_val s = Some (Z.to_N (value10 s)) /\ (0 <= value10 s)%Z.
Proof.
  intros [Hn Hd]. unfold digits_val, value10. destruct s as [|c s]; [congruence|].
  replace (forallb is_digit (c :: s)) with true by (symmetry; apply forallb_forall; rewrite Forall_forall in Hd; auto).
  pose proof (value10_fold (c :: s) 0 Hd) as E. cbn [Z.of_N] in E. rewrite E, N2Z.id. split; auto. apply N2Z.is_nonneg.
Qed.
Lemma digits_val_not s c : In c s -> is_digit c = false -> digits_val s = None.
Proof.
  intros Hi Hc. unfold digits_val. destruct s as [|a s]; auto. replace (forallb is_digit (a :: s)) with false; auto.
  symmetry. apply not_true_iff_false. intros H. rewrite forallb_forall in H. specialize (H _ Hi). congruence.
Qed.
Lemma parse_int_value (neg : bool) ip : all_digits ip ->
  parse_int ((if neg then B "-" else []) ++ ip) =
  let z := signed neg (value10 ip) in if (- 2 ^ 63 <=? z)%Z && (z <? 2 ^ 63)%Z then Some z else None.
Proof.
  intros H. destruct (digits_value ip H) as [Hv H0]. cbv zeta. destruct neg; cbn [signed].
  - change (B "-" ++ ip) with (chr 45 :: ip). cbn [parse_int]. rewrite code_chr by lia. cbn [N.eqb Pos.eqb orb]. rewrite Hv, Z2N.id by auto.
    replace (- value10 ip <? 2 ^ 63)%Z with true by (symmetry; apply Z.ltb_lt; lia). rewrite andb_true_r.
    destruct (Z.leb_spec (value10 ip) (2 ^ 63)); destruct (Z.leb_spec (- 2 ^ 63) (- value10 ip)); auto; lia.
  - cbn [app]. unfold parse_int. destruct H as [Hn Hd]. destruct ip as [|c ip]; [congruence|]. inversion Hd as [|? ? H1 H2]; subst. apply digit_code_range in H1.
    replace (code c =? 45)%N with false by (symmetry; apply N.eqb_neq; lia).
    replace (code c =? 43)%N with false by (symmetry; apply N.eqb_neq; lia). cbn [orb]. rewrite Hv, Z2N.id by auto.
    replace (- 2 ^ 63 <=? value10 (c :: ip))%Z with true by (symmetry; apply Z.leb_le; lia). reflexivity.
Qed.
Lemma parse_uint_value (neg : bool) ip : all_digits ip ->
  parse_uint ((if neg then B "-" else []) ++ ip) = if neg then None else if (value10 ip <? 2 ^ 64)%Z then Some (value10 ip) else None.
Proof.
  intros H. destruct (digits_value ip H) as [Hv H0]. unfold parse_uint. destruct neg.
  - rewrite (digits_val_not _ (chr 45)); auto. now left.
  - cbn [app]. rewrite Hv, Z2N.id by auto. reflexivity.
Qed.
(* an exponent without a point is refused *)
Lemma parse_exp (neg : bool) ip e g d : all_digits ip -> e = B "e" \/ e = B "E" ->
  parse_int ((if neg then B "-" else []) ++ ip ++ e ++ g ++ d) = None /\ parse_uint ((if neg then B "-" else []) ++ ip ++ e ++ g ++ d) = None.
Proof.
  intros [Hn Hd] He. assert (exists c, is_digit c = false /\ e = [c]) as (c & Hc & ->).
  { destruct He as [->| ->]; [exists (chr 101)|exists (chr 69)]; split; reflexivity. }
  clear He. assert (Hi : forall l, In c (l ++ [c] ++ g ++ d)) by (intros l; apply in_or_app; right; now left).
  split.
  - destruct ip as [|a ip]; [congruence|]. destruct neg.
    + change (B "-" ++ (a :: ip) ++ [c] ++ g ++ d) with (chr 45 :: (a :: ip) ++ [c] ++ g ++ d). cbn [parse_int]. rewrite code_chr by lia. cbn [N.eqb Pos.eqb orb].
      rewrite (digits_val_not _ c); auto.
    + cbn [app]. inversion Hd as [|? ? H1 H2]; subst. apply digit_code_range in H1. cbn [parse_int].
      replace (code a =? 45)%N with false by (symmetry; apply N.eqb_neq; lia).
      replace (code a =? 43)%N with false by (symmetry; apply N.eqb_neq; lia). cbn [orb].
      rewrite (digits_val_not (a :: ip ++ c :: g ++ d) c); auto. apply (Hi (a :: ip)).
  - unfold parse_uint. rewrite (digits_val_not _ c); auto. rewrite app_assoc. apply Hi.
Qed.
Lemma trim_app a b : Forall (fun c => code c <> 46%N) a -> trimDecimal (a ++ b) = a ++ trimDecimal b.
Proof.
  induction 1 as [|c a H Ha IH]; cbn [trimDecimal app]; auto. replace (code c =? 46)%N with false by (symmetry; now apply N.eqb_neq). now rewrite IH.
Qed.
Lemma digits_nodot d : Forall (fun c => is_digit c = true) d -> Forall (fun c => code c <> 46%N) d.
Proof. apply Forall_impl. intros c H. apply digit_code_range in H. lia. Qed.
Lemma sign_nodot (neg : bool) : Forall (fun c => code c <> 46%N) (if neg then B "-" else []).
Proof. destruct neg; repeat constructor. vm_compute. discriminate. Qed.
Lemma ip_digits ip : ip = B "0" \/ (all_digits ip /\ hd_error ip <> Some (digit 0)) -> all_digits ip.
Proof. intros [->|[H _]]; auto. split; [discriminate|]. repeat constructor. Qed.

(* what Int64 and Uint64 read *)
Lemma read_number s neg ip fr ex : number_text s neg ip fr ex ->
  let z := signed neg (value10 ip) in
  match fr, ex with
  | [], Some _ => parse_int (trimDecimal s) = None /\ parse_uint (trimDecimal s) = None
  | _, _ => parse_int (trimDecimal s) = (if (- 2 ^ 63 <=? z)%Z && (z <? 2 ^ 63)%Z then Some z else None) /\
            parse_uint (trimDecimal s) = (if neg then None else if (value10 ip <? 2 ^ 64)%Z then Some (value10 ip) else None)
  end.
Proof.
  intros (frt & ext & -> & Hip & Hfr & Hex). apply ip_digits in Hip. cbv zeta.
  rewrite trim_app by apply sign_nodot. rewrite trim_app by (apply digits_nodot, Hip).
  destruct Hfr as [[-> ->]|[-> Hfr]].
  - cbn [app]. destruct Hex as [|e g d He Hg Hd|e d He Hd].
    + cbn [trimDecimal]. rewrite app_nil_r. split; [now apply parse_int_value|now apply parse_uint_value].
    + assert (Forall (fun c => code c <> 46%N) (e ++ g ++ d)) as Hn.
      { apply Forall_app; split; [|apply Forall_app; split; [|apply digits_nodot, Hd]].
        - destruct He as [->| ->]; repeat constructor; vm_compute; discriminate.
        - destruct Hg as [->| ->]; repeat constructor; vm_compute; discriminate. }
      rewrite trim_id by auto. now apply parse_exp.
    + assert (Forall (fun c => code c <> 46%N) (e ++ B "-" ++ d)) as Hn.
      { apply Forall_app; split; [|apply Forall_app; split; [|apply digits_nodot, Hd]].
        - destruct He as [->| ->]; repeat constructor; vm_compute; discriminate.
        - repeat constructor; vm_compute; discriminate. }
      rewrite trim_id by auto. now apply parse_exp.
  - change (B "." ++ fr) with (chr 46 :: fr). cbn [app trimDecimal]. rewrite code_chr by lia. cbn [N.eqb Pos.eqb]. rewrite app_nil_r.
    destruct fr as [|c fr]; [destruct Hfr; congruence|]. split; [now apply parse_int_value|now apply parse_uint_value].
Qed.
Lemma json_number_text s : json_number s -> exists neg ip fr ex, number_text s neg ip fr ex.
Proof.
  intros (sg & ip & frt & ext & -> & Hsg & Hip & Hfr & Hex).
  assert (exists neg : bool, sg = if neg then B "-" else []) as [neg ->] by (destruct Hsg as [->| ->]; [exists false|exists true]; auto).
  assert (exists fr, (frt = [] /\ fr = []) \/ (frt = B "." ++ fr /\ all_digits fr)) as [fr Hf].
  { destruct Hfr as [->|(d & -> & Hd)]; [exists []|exists d]; auto. }
  assert (exists ex, exponent ext ex) as [ex He].
  { destruct Hex as [->|(e & g & d & -> & He & Hg & Hd)]; [eexists; constructor|].
    destruct Hg as [->|[->| ->]]; eexists; [eapply pos_exponent|eapply pos_exponent|eapply neg_exponent]; eauto. }
  exists neg, ip, fr, ex. exists frt, ext. auto.
Qed.
Lemma nodot_fr s neg ip fr ex : number_text s neg ip fr ex -> ~ In (chr 46) s -> fr = [].
Proof.
  intros (frt & ext & -> & _ & [[_ ->]|[-> _]] & _) H; auto. exfalso. apply H. apply in_or_app; right. apply in_or_app; right. now left.
Qed.
Lemma whole_is s neg ip : number_text s neg ip [] None -> number_is s (signed neg (value10 ip)).
Proof.
  intros H. exists neg, ip, [], None. split; auto. cbv zeta. rewrite app_nil_r. cbn [length]. cbn [Z.of_nat Z.sub Z.opp Z.add Z.leb Z.compare]. rewrite Z.pow_0_r. lia.
Qed.

Section Num.
  Context (f2i f2u : floatv -> Z) (uf : option (list pel -> node -> bool)).
  Lemma int_exact w p s old : json_number s -> ~ In (chr 46) s ->
    (exists z, unm f2i f2u uf (TInt w) p (NDigits s) old = (UOk (VNum (swrap w z)), []) /\ number_is s z /\ int_range W64 z) \/
    unm f2i f2u uf (TInt w) p (NDigits s) old = (UErr old, []).
  Proof.
    intros Hj Hd. apply json_number_text in Hj as (neg & ip & fr & ex & H). pose proof (nodot_fr _ _ _ _ _ H Hd) as ->.
    pose proof (read_number _ _ _ _ _ H) as Hr. cbn [unm unm_num]. destruct ex as [e|]; cbv zeta iota beta in Hr; destruct Hr as [-> _]; auto.
    destruct ((- 2 ^ 63 <=? signed neg (value10 ip))%Z && (signed neg (value10 ip) <? 2 ^ 63)%Z) eqn:E; auto.
    left. eexists. split; [reflexivity|]. split; [now apply whole_is|]. apply andb_true_iff in E as [E1 E2]. apply Z.leb_le in E1. apply Z.ltb_lt in E2. unfold int_range. cbn [bits]. change (2 ^ (64 - 1))%Z with (2 ^ 63)%Z. lia.
  Qed.
  Lemma uint_exact w p s old : json_number s -> ~ In (chr 46) s ->
    (exists z, unm f2i f2u uf (TUint w) p (NDigits s) old = (UOk (VNum (uwrap w z)), []) /\ number_is s z /\ uint_range W64 z) \/
    unm f2i f2u uf (TUint w) p (NDigits s) old = (UErr old, []).
  Proof.
    intros Hj Hd. apply json_number_text in Hj as (neg & ip & fr & ex & H). pose proof (nodot_fr _ _ _ _ _ H Hd) as ->.
    pose proof (read_number _ _ _ _ _ H) as Hr. cbn [unm unm_num]. destruct ex as [e|]; cbv zeta iota beta in Hr; destruct Hr as [_ ->]; auto.
    destruct neg; auto. destruct (value10 ip <? 2 ^ 64)%Z eqn:E; auto.
    left. eexists. split; [reflexivity|]. split; [now apply (whole_is s false)|]. apply Z.ltb_lt in E. unfold uint_range. cbn [bits]. split; auto.
    destruct H as (frt & ext & _ & Hip & _). apply ip_digits in Hip. now apply digits_value.
  Qed.
  (* every integer that fits, written without point and exponent, is stored *)
  Lemma int_stored w p s neg ip old : number_text s neg ip [] None -> int_range w (signed neg (value10 ip)) ->
    unm f2i f2u uf (TInt w) p (NDigits s) old = (UOk (VNum (signed neg (value10 ip))), []).
  Proof.
    intros H Hr. pose proof (read_number _ _ _ _ _ H) as [E _]. cbn [unm unm_num]. rewrite E. pose proof (int64_range _ _ Hr) as H64. unfold int_range in H64. cbn [bits] in H64. change (2 ^ (64 - 1))%Z with (2 ^ 63)%Z in H64.
    replace (- 2 ^ 63 <=? signed neg (value10 ip))%Z with true by (symmetry; apply Z.leb_le; lia).
    replace (signed neg (value10 ip) <? 2 ^ 63)%Z with true by (symmetry; apply Z.ltb_lt; lia). cbn [andb]. now rewrite swrap_id.
  Qed.
  Lemma uint_stored w p s ip old : number_text s false ip [] None -> uint_range w (value10 ip) ->
    unm f2i f2u uf (TUint w) p (NDigits s) old = (UOk (VNum (value10 ip)), []).
  Proof.
    intros H Hr. pose proof (read_number _ _ _ _ _ H) as [_ E]. cbn [unm unm_num]. rewrite E. pose proof (uint64 _ _ Hr) as H64. unfold uint_range in H64. cbn [bits] in H64.
    replace (value10 ip <? 2 ^ 64)%Z with true by (symmetry; apply Z.ltb_lt; lia). now rewrite uwrap_id.
  Qed.
  (* with a point: what follows it is dropped, the exponent too *)
  Lemma int_trunc w p s neg ip fr ex old : number_text s neg ip fr ex -> fr <> [] ->
    unm f2i f2u uf (TInt w) p (NDigits s) old =
      (if (- 2 ^ 63 <=? signed neg (value10 ip))%Z && (signed neg (value10 ip) <? 2 ^ 63)%Z
       then UOk (VNum (swrap w (signed neg (value10 ip)))) else UErr old, []).
  Proof.
    intros H Hf. pose proof (read_number _ _ _ _ _ H) as Hr. cbn [unm unm_num]. destruct fr; [congruence|]. destruct Hr as [-> _]. destruct (_ && _); auto.
  Qed.
  Lemma uint_trunc w p s neg ip fr ex old : number_text s neg ip fr ex -> fr <> [] ->
    unm f2i f2u uf (TUint w) p (NDigits s) old =
      (if negb neg && (value10 ip <? 2 ^ 64)%Z then UOk (VNum (uwrap w (value10 ip))) else UErr old, []).
  Proof.
    intros H Hf. pose proof (read_number _ _ _ _ _ H) as Hr. cbn [unm unm_num]. destruct fr; [congruence|]. destruct Hr as [_ ->]. destruct neg; cbn; auto. destruct (value10 ip <? _)%Z; auto.
  Qed.
  Lemma integer_iff w p z old : (unm f2i f2u uf (TInt w) p (NInt z) old = (UOk (VNum z), []) <-> int_range w z) /\
    (int_range W64 z -> (unm f2i f2u uf (TUint w) p (NInt z) old = (UOk (VNum z), []) <-> uint_range w z)).
  Proof.
    split.
    - cbn [unm unm_num]. split; intros H.
      + injection H as H. rewrite <- H. apply swrap_range.
      + now rewrite swrap_id.
    - intros H64. cbn [unm unm_num]. split; intros H.
      + injection H as H. rewrite <- H. apply uwrap_range.
      + rewrite (uwrap_id W64) by (eapply uint64; eauto). now rewrite uwrap_id.
  Qed.
  (* swrap and uwrap keep the residue *)
  Lemma int_mod w p s old : json_number s -> ~ In (chr 46) s ->
    (exists z z', unm f2i f2u uf (TInt w) p (NDigits s) old = (UOk (VNum z'), []) /\ number_is s z /\ int_range W64 z /\
       int_range w z' /\ (z' mod 2 ^ bits w = z mod 2 ^ bits w)%Z) \/
    unm f2i f2u uf (TInt w) p (NDigits s) old = (UErr old, []).
  Proof.
    intros Hj Hd. destruct (int_exact w p s old Hj Hd) as [(z & H1 & H2 & H3)|H]; auto. left. exists z, (swrap w z).
    split; [exact H1|]. split; [exact H2|]. split; [exact H3|]. split; [apply swrap_range|].
    unfold swrap. rewrite Zminus_mod_idemp_l. f_equal. ring.
  Qed.
  Lemma uint_mod w p s old : json_number s -> ~ In (chr 46) s ->
    (exists z z', unm f2i f2u uf (TUint w) p (NDigits s) old = (UOk (VNum z'), []) /\ number_is s z /\ uint_range W64 z /\
       uint_range w z' /\ (z' mod 2 ^ bits w = z mod 2 ^ bits w)%Z) \/
    unm f2i f2u uf (TUint w) p (NDigits s) old = (UErr old, []).
  Proof.
    intros Hj Hd. destruct (uint_exact w p s old Hj Hd) as [(z & H1 & H2 & H3)|H]; auto. left. exists z, (uwrap w z).
    split; [exact H1|]. split; [exact H2|]. split; [exact H3|]. split; [apply uwrap_range|].
    unfold uwrap. apply Zmod_mod.
  Qed.
  Lemma exact64 p s old : json_number s -> ~ In (chr 46) s ->
    (forall z, unm f2i f2u uf (TInt W64) p (NDigits s) old = (UOk (VNum z), []) -> number_is s z) /\
    (forall z, unm f2i f2u uf (TUint W64) p (NDigits s) old = (UOk (VNum z), []) -> number_is s z).
  Proof.
    intros Hj Hd. split; intros z H.
    - destruct (int_exact W64 p s old Hj Hd) as [(z' & H1 & H2 & H3)|H']; [|congruence]. rewrite swrap_id in H1 by exact H3. congruence.
    - destruct (uint_exact W64 p s old Hj Hd) as [(z' & H1 & H2 & H3)|H']; [|congruence]. rewrite uwrap_id in H1 by exact H3. congruence.
  Qed.
  Lemma int_trunc_range w p s neg ip fr ex old : number_text s neg ip fr ex -> fr <> [] -> int_range w (signed neg (value10 ip)) ->
    unm f2i f2u uf (TInt w) p (NDigits s) old = (UOk (VNum (signed neg (value10 ip))), []).
  Proof.
    intros H Hf Hr. rewrite (int_trunc w p s neg ip fr ex old H Hf). pose proof (int64_range _ _ Hr) as H64. unfold int_range in H64. cbn [bits] in H64. change (2 ^ (64 - 1))%Z with (2 ^ 63)%Z in H64.
    replace (- 2 ^ 63 <=? signed neg (value10 ip))%Z with true by (symmetry; apply Z.leb_le; lia).
    replace (signed neg (value10 ip) <? 2 ^ 63)%Z with true by (symmetry; apply Z.ltb_lt; lia). cbn [andb]. now rewrite swrap_id.
  Qed.
End Num.
