(* Decimal numbers: texts and their values. *)
From Coq Require Import Bool Ascii String Arith NArith ZArith Lia List.
From Verif Require Import Prelude Utf8Model Utf8Facts DecModel DecFacts DurModel EncModel JsonModel JsonSpec FlModel FlSpec.
Import ListNotations.
Local Open Scope Z_scope.

Definition stops (r : bytes) : Prop := match r with [] => True | c :: _ => is_digit c = false end.
Lemma digits_app d r : all_dig d -> stops r -> digits (d ++ r) = (d, r).
Proof.
  intros Hd Hr. induction Hd as [|c d Hc Hd IH]; cbn [app digits].
  - destruct r as [|c r]; cbn [digits]; [reflexivity|]. cbn [stops] in Hr. now rewrite Hr.
  - now rewrite Hc, IH.
Qed.
Lemma pow10_pos n : 0 < 10 ^ Z.of_nat n.
Proof. apply Z.pow_pos_nonneg; lia. Qed.
Lemma pow10_S n : 10 ^ Z.of_nat (S n) = 10 * 10 ^ Z.of_nat n.
Proof. rewrite Nat2Z.inj_succ, Z.pow_succ_r; lia. Qed.
Lemma worth_nonneg s : 0 <= worth s.
Proof. induction s as [|c s IH]; cbn [worth]; [lia|]. pose proof (pow10_pos (length s)). nia. Qed.
Lemma number_from s a : fold_left (fun a c => a * 10 + Z.of_N (dval c)) s a = a * 10 ^ Z.of_nat (length s) + worth s.
Proof.
  revert a. induction s as [|c s IH]; intros a; cbn [fold_left length worth]; [change (10 ^ Z.of_nat 0) with 1; lia|].
  rewrite IH, pow10_S. ring.
Qed.
Lemma number_worth s : number s = worth s.
Proof. unfold number. rewrite number_from. lia. Qed.
Lemma expo_from s a : 0 <= a -> a * 10 ^ Z.of_nat (length s) + worth s < 100000 ->
  fold_left (fun a c => if a <? 10000 then a * 10 + Z.of_N (dval c) else a) s a = a * 10 ^ Z.of_nat (length s) + worth s.
Proof.
  revert a. induction s as [|c s IH]; intros a Ha H; cbn [fold_left length worth] in *; [change (10 ^ Z.of_nat 0) with 1; lia|].
  rewrite pow10_S in *. pose proof (pow10_pos (length s)) as HP. pose proof (worth_nonneg s). destruct (Z.ltb_spec a 10000) as [Hl|Hl]; [|exfalso; nia].
  rewrite IH; [ring|lia|]. nia.
Qed.
Lemma expo_worth s : worth s < 100000 -> expo s = worth s.
Proof. intros H. unfold expo. rewrite expo_from; lia. Qed.
Lemma worth_app a b : worth (a ++ b) = worth a * 10 ^ Z.of_nat (length b) + worth b.
Proof.
  induction a as [|c a IH]; cbn [app worth]; [lia|]. rewrite IH, app_length, Nat2Z.inj_add, Z.pow_add_r by lia. ring.
Qed.
Lemma worth_zeros n : worth (repeat (chr 48) n) = 0.
Proof. induction n as [|n IH]; cbn [repeat worth]; [reflexivity|]. rewrite IH. change (Z.of_N (dval (chr 48))) with 0. lia. Qed.
Lemma digit_code c : is_digit c = true <-> (48 <= code c <= 57)%N.
Proof. unfold is_digit. rewrite andb_true_iff, !N.leb_le. tauto. Qed.
Lemma starts2_digit a b c r : is_digit c = true -> (a < 48)%N \/ (57 < a)%N -> (b < 48)%N \/ (57 < b)%N -> starts2 a b (c :: r) = false.
Proof. intros H Ha Hb. apply digit_code in H. unfold starts2. apply orb_false_iff. rewrite !N.eqb_neq. lia. Qed.
(* what may follow a sign *)
Lemma sign_app s neg r : sg_ s neg -> (match r with [] => False | c :: _ => is_digit c = true \/ c = chr 46 end) -> sign (s ++ r) = (neg, r).
Proof.
  intros Hs Hr. destruct r as [|c r]; [easy|]. destruct Hs; [|reflexivity..]. cbn [app]. unfold sign.
  assert (E : starts2 43 45 (c :: r) = false). { destruct Hr as [Hr| ->]; [|reflexivity]. apply starts2_digit; auto; lia. }
  now rewrite E.
Qed.
Lemma exponent_ok ex x : ex_ ex x -> exponent ex = Some x.
Proof.
  intros H. destruct H as [|e s neg d He Hs Hd Hn Hw]; [reflexivity|].
  assert (Es : sign (s ++ d) = (neg, d)). { apply sign_app; auto. destruct d as [|c d]; [congruence|]. left. now inversion Hd. }
  assert (Ed : digits d = (d, [])). { rewrite <- (app_nil_r d) at 1. now apply digits_app. }
  assert (K : forall c, starts2 101 69 (c :: s ++ d) = true -> exponent (c :: s ++ d) = Some (if neg then - worth d else worth d)).
  { intros c Hc. unfold exponent. rewrite Hc. cbn [tl]. rewrite Es, Ed. rewrite expo_worth by assumption. destruct d; [congruence|reflexivity]. }
  destruct He as [->| ->]; apply K; reflexivity.
Qed.
Lemma ex_stops ex x : ex_ ex x -> stops ex /\ starts2 46 46 ex = false.
Proof. intros H. destruct H as [|e s neg d He Hs Hd Hn Hw]; [now split|]. destruct He as [->| ->]; split; reflexivity. Qed.
Lemma decimal_ok s neg n k : numeral s neg n k -> decimal s = Some (neg, n, k).
Proof.
  intros H. destruct H as [s neg ip fr d ex x Hs Hip Hfr Hne Hex]. destruct (ex_stops _ _ Hex) as [Ht Hdot]. pose proof (exponent_ok _ _ Hex) as Hx.
  unfold decimal. rewrite (sign_app s neg) by first [assumption | destruct ip as [|c ip]; [destruct Hfr; [now elim Hne|right; reflexivity]|left; now inversion Hip]].
  rewrite (digits_app ip); [|assumption|destruct Hfr; [exact Ht|reflexivity]].
  assert (E : (if starts2 46 46 (fr ++ ex) then digits (tl (fr ++ ex)) else ([], fr ++ ex)) = (d, ex)).
  { destruct Hfr as [|d Hd]; [cbn [app]; now rewrite Hdot|]. change (starts2 46 46 ((B "." ++ d) ++ ex)) with true. cbv iota. change (tl ((B "." ++ d) ++ ex)) with (d ++ ex). now apply digits_app. }
  match goal with |- context [if ?b then ?y else ?z] => replace (if b then y else z) with (d, ex) by (symmetry; exact E) end. rewrite Hx, number_worth. destruct (ip ++ d); [congruence|reflexivity].
Qed.
(* numbers of JSON are decimal numbers *)
Lemma json_numeral s : json_number s -> (exists neg n k, numeral s neg n k) \/ exists a e g d, s = a ++ e ++ g ++ d /\ all_dig d /\ 100000 <= worth d.
Proof.
  intros (sg & ip & fr & ex & -> & Hsg & Hip & Hfr & Hex).
  assert (S1 : exists neg, sg_ sg neg) by (destruct Hsg as [->| ->]; eexists; constructor). destruct S1 as [neg S1].
  assert (S2 : all_dig ip /\ ip <> []) by (destruct Hip as [->|[[Hn Hd] _]]; [split; [repeat constructor|discriminate]|now split]). destruct S2 as [S2 S2'].
  assert (S3 : exists d, fr_ fr d) by (destruct Hfr as [->|(d & -> & Hn & Hd)]; eexists; constructor; exact Hd). destruct S3 as [d S3].
  assert (S4 : (exists x, ex_ ex x) \/ exists e g d, ex = e ++ g ++ d /\ all_dig d /\ 100000 <= worth d).
  { destruct Hex as [->|(e & g & d' & -> & He & Hg & Hn & Hd)]; [left; eexists; constructor|].
    destruct (Z.lt_ge_cases (worth d') 100000) as [Hl|Hl]; [left|right; exists e, g, d'; auto].
    destruct Hg as [->|[->| ->]]; eexists; eapply ex_some; eauto; constructor. }
  destruct S4 as [[x S4]|(e & g & d' & -> & Hd & Hw)].
  - left. exists neg, (worth (ip ++ d)), (x - Z.of_nat (length d)). apply numeral_; auto. destruct ip; [congruence|discriminate].
  - right. exists (sg ++ ip ++ fr), e, g, d'. rewrite <- !app_assoc. auto.
Qed.
