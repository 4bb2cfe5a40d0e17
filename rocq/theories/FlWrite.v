(* The texts of floats are decimal numbers of JSON, with the right value. *)
From Coq Require Import Bool Ascii String Arith NArith ZArith Lia List.
From Verif Require Import Prelude Utf8Model Utf8Facts DecModel DecFacts DurModel EncModel JsonModel JsonSpec FlModel FlSpec FlText.
Import ListNotations.
Local Open Scope Z_scope.

Lemma readdec_worth t a : Z.of_N (readdec t a) = Z.of_N a * 10 ^ Z.of_nat (length t) + worth t.
Proof.
  revert a. induction t as [|c t IH]; intros a; cbn [readdec length worth]; [change (10 ^ Z.of_nat 0) with 1; lia|].
  rewrite IH, pow10_S. rewrite N2Z.inj_add, N2Z.inj_mul. change (Z.of_N 10) with 10. ring.
Qed.
Lemma dec_worth n : worth (dec n) = Z.of_N n.
Proof. rewrite <- (dec_read n) at 2. rewrite readdec_worth. lia. Qed.
Lemma all_dig_zeros n : all_dig (repeat (chr 48) n).
Proof. induction n; cbn [repeat]; constructor; auto. Qed.

(* the value 0.d * 10^dp, as a fraction *)
Definition val_of (d : bytes) (dp n k : Z) : Prop :=
  let k0 := dp - Z.of_nat (length d) in n * 10 ^ Z.max 0 k * bottom k0 = worth d * 10 ^ Z.max 0 k0 * bottom k /\ 0 <= n.
Lemma val_same d dp n k : n = worth d -> k = dp - Z.of_nat (length d) -> val_of d dp n k.
Proof. intros -> ->. split; [reflexivity|apply worth_nonneg]. Qed.
Lemma sg_of neg : sg_ (if neg : bool then [chr 45] else []) neg.
Proof. destruct neg; [apply sg_minus|apply sg_none]. Qed.
Definition good_text (s : bytes) (neg : bool) (d : bytes) (dp : Z) : Prop :=
  json_number s /\ exists n k, numeral s neg n k /\ val_of d dp n k.
(* from the parts of the text *)
Lemma good_parts neg ip fr d' ex x d dp :
  ip = B "0" \/ (all_digits ip /\ hd_error ip <> Some (chr 48)) -> fr_ fr d' -> (fr = [] \/ d' <> []) -> ex_ ex x ->
  val_of d dp (worth (ip ++ d')) (x - Z.of_nat (length d')) -> good_text ((if neg : bool then [chr 45] else []) ++ ip ++ fr ++ ex) neg d dp.
Proof.
  intros Hip Hfr Hfr' Hex HV. assert (Hi : all_dig ip /\ ip <> []) by (destruct Hip as [->|[[Hn Hd] _]]; [split; [repeat constructor|discriminate]|now split]). split.
  - exists (if neg : bool then [chr 45] else []), ip, fr, ex. split; [reflexivity|]. split; [destruct neg; [right|left]; reflexivity|]. split; [exact Hip|]. split.
    + destruct Hfr as [|d' Hd]; [now left|]. right. exists d'. split; [reflexivity|]. destruct Hfr' as [X|X]; [discriminate|now split].
    + destruct Hex as [|e s sn ed He Hs Hd Hn Hw]; [now left|]. right. exists e, s, ed. split; [reflexivity|]. split; [exact He|]. split; [destruct Hs; auto|now split].
  - exists (worth (ip ++ d')), (x - Z.of_nat (length d')). split; [|exact HV]. apply numeral_; auto; [apply sg_of|tauto|]. destruct ip; [tauto|discriminate].
Qed.

Lemma hd_firstn (n : nat) (d : bytes) c : hd_error (firstn (S n) d) = Some c -> hd_error d = Some c.
Proof. now destruct d. Qed.
Lemma Forall_firstn {A} (P : A -> Prop) n l : Forall P l -> Forall P (firstn n l).
Proof. intros H. revert n. induction H; intros [|n]; cbn; constructor; auto. Qed.
Lemma Forall_skipn {A} (P : A -> Prop) n l : Forall P l -> Forall P (skipn n l).
Proof. intros H. revert n. induction H; intros [|n]; cbn; auto; try constructor; auto. Qed.
Lemma fmtF_good neg d dp : shown d dp -> good_text (fmtF neg d dp) neg d dp.
Proof.
  intros (Hd & Hh & H0 & _). unfold fmtF. destruct (Z.ltb_spec 0 dp) as [Hp|Hp].
  - assert (Hnil : d <> []) by (intros ->; specialize (H0 eq_refl); lia).
    destruct (Z.ltb_spec 0 (Z.max 0 (Z.of_nat (length d) - dp))) as [Hl|Hl]; cbv zeta.
    + replace (Z.to_nat (Z.min (Z.max 0 (Z.of_nat (length d) - dp)) (- dp))) with 0%nat by lia. replace (Z.to_nat dp - length d)%nat with 0%nat by lia. cbn [repeat]. rewrite app_nil_r. cbn [app].
      set (n := Z.to_nat dp). assert (Hn : (0 < n < length d)%nat) by lia.
      rewrite <- (app_nil_r (chr 46 :: skipn n d)). apply (good_parts neg (firstn n d) (chr 46 :: skipn n d) (skipn n d) [] 0).
      * right. split; [split; [|now apply Forall_firstn]|].
        -- intros X. apply (f_equal (@length ascii)) in X. rewrite firstn_length_le in X by lia. cbn [length] in X. lia.
        -- destruct n as [|n']; [lia|]. intros X. apply Hh. now apply (hd_firstn n').
      * apply (fr_some (skipn n d)). now apply Forall_skipn.
      * right. intros X. apply (f_equal (@length ascii)) in X. rewrite skipn_length in X. cbn [length] in X. lia.
      * constructor.
      * rewrite firstn_skipn, skipn_length. apply val_same; [reflexivity|]. lia.
    + rewrite <- (app_nil_r (firstn _ _ ++ _)) at 1. rewrite <- app_assoc. set (j := (Z.to_nat dp - length d)%nat). rewrite firstn_all2 by lia. rewrite !app_nil_r.
      replace ((if neg then [chr 45] else []) ++ d ++ repeat (chr 48) j) with ((if neg then [chr 45] else []) ++ (d ++ repeat (chr 48) j) ++ [] ++ []) by now rewrite app_nil_r.
      apply (good_parts neg (d ++ repeat (chr 48) j) [] [] [] 0).
      * right. split; [split; [destruct d; [congruence|discriminate]|]|].
        -- apply Forall_app. split; [exact Hd|apply all_dig_zeros].
        -- destruct d as [|c d]; [congruence|]. exact Hh.
      * constructor.
      * now left.
      * constructor.
      * rewrite app_nil_r, worth_app, worth_zeros, repeat_length. unfold val_of, bottom. cbn [length Z.of_nat]. replace (dp - Z.of_nat (length d)) with (Z.of_nat j) by lia.
        rewrite (Z.max_r 0 (Z.of_nat j)) by lia. replace (Z.max 0 (- Z.of_nat j)) with 0 by lia. change (Z.max 0 (0 - 0)) with 0. change (Z.max 0 (- (0 - 0))) with 0. change (10 ^ 0) with 1. split; [ring|]. pose proof (worth_nonneg d). pose proof (pow10_pos j). nia.
  - cbv zeta. destruct (Z.ltb_spec 0 (Z.max 0 (Z.of_nat (length d) - dp))) as [Hl|Hl].
    + replace (Z.to_nat dp) with 0%nat by lia. cbn [skipn]. set (z := repeat (chr 48) (Z.to_nat (Z.min (Z.max 0 (Z.of_nat (length d) - dp)) (- dp)))). rewrite <- (app_nil_r (chr 46 :: z ++ d)).
      apply (good_parts neg [chr 48] (chr 46 :: z ++ d) (z ++ d) [] 0).
      * now left.
      * apply (fr_some (z ++ d)). apply Forall_app. split; [apply all_dig_zeros|exact Hd].
      * right. intros X. apply (f_equal (@length ascii)) in X. unfold z in X. rewrite app_length, repeat_length in X. cbn [length] in X. lia.
      * constructor.
      * apply val_same.
        -- cbn [app]. change (chr 48 :: z ++ d) with ([chr 48] ++ z ++ d). rewrite !worth_app. unfold z. rewrite worth_zeros. change (worth [chr 48]) with 0. lia.
        -- unfold z. rewrite app_length, repeat_length. lia.
    + assert (L0 : length d = 0%nat) by lia. destruct d; [|discriminate]. assert (dp = 0) by lia. subst dp.
      apply (good_parts neg [chr 48] [] [] [] 0); [now left|constructor|now left|constructor|]. apply val_same; reflexivity.
Qed.

(* the exponent *)
Definition exdig (x : Z) : bytes := let t := dec (Z.abs_N x) in match t with [_] => chr 48 :: t | _ => t end.
Lemma exdig_ok x : all_dig (exdig x) /\ exdig x <> [] /\ worth (exdig x) = Z.abs x.
Proof.
  unfold exdig. cbv zeta. pose proof (dec_digits (Z.abs_N x)) as Hd. pose proof (dec_nonnil (Z.abs_N x)) as Hn. pose proof (dec_worth (Z.abs_N x)) as Hw. rewrite N2Z.inj_abs_N in Hw.
  destruct (dec (Z.abs_N x)) as [|a [|b t]]; [congruence| |repeat split; auto; discriminate].
  split; [|split; [discriminate|]]; [constructor; [reflexivity|exact Hd]|]. rewrite <- Hw. cbn [worth]. change (Z.of_N (dval (chr 48))) with 0. lia.
Qed.
(* clean drops a zero of the exponent or nothing *)
Lemma clean_ok P g x : (g = chr 43 \/ g = chr 45) -> exists t, clean (P ++ [chr 101] ++ [g] ++ exdig x) = P ++ [chr 101] ++ [g] ++ t /\ all_dig t /\ t <> [] /\ worth t = Z.abs x.
Proof.
  intros Hg. destruct (exdig_ok x) as (Hd & Hn & Hw).
  assert (K : clean (P ++ [chr 101] ++ [g] ++ exdig x) = P ++ [chr 101] ++ [g] ++ exdig x \/ (exists a, exdig x = [chr 48; a] /\ clean (P ++ [chr 101] ++ [g] ++ exdig x) = P ++ [chr 101] ++ [g] ++ [a])).
  { unfold clean. rewrite !rev_app_distr. cbn [rev app]. remember (rev (exdig x)) as t eqn:Et. assert (Hdt : all_dig t) by (rewrite Et; apply Forall_rev; exact Hd).
    destruct t as [|c1 [|c2 [|c3 [|c4 t]]]]; cbn [app].
    - exfalso. apply Hn. rewrite <- (rev_involutive (exdig x)), <- Et. reflexivity.
    - left. destruct (rev P) as [|c5 q]; [reflexivity|].
      assert (En : (code c5 =? 101)%N && (code (chr 101) =? 45)%N && (code g =? 48)%N = false) by (change (code (chr 101) =? 45)%N with false; now rewrite andb_false_r). now rewrite En.
    - destruct ((code (chr 101) =? 101)%N && (code g =? 45)%N && (code c2 =? 48)%N) eqn:Ec; [|now left]. right.
      apply andb_prop in Ec as [_ Ec]. apply N.eqb_eq in Ec. exists c1. assert (Ex : exdig x = [c2; c1]) by (rewrite <- (rev_involutive (exdig x)), <- Et; reflexivity).
      split; [rewrite Ex; f_equal; apply code_inj; rewrite Ec; reflexivity|]. now rewrite rev_involutive.
    - left. assert (En : (code g =? 101)%N = false) by (destruct Hg as [->| ->]; reflexivity). now rewrite En.
    - left. assert (En : (code c4 =? 101)%N = false). { apply N.eqb_neq. assert (Hc : is_digit c4 = true) by (unfold all_dig in Hdt; rewrite Forall_forall in Hdt; apply Hdt; cbn; auto). apply FlText.digit_code in Hc. lia. } now rewrite En. }
  destruct K as [K|(a & Ea & K)]; [exists (exdig x); auto|]. exists [a]. split; [exact K|]. rewrite Ea in *. split; [now inversion Hd|]. split; [discriminate|]. rewrite <- Hw. cbn [worth]. change (Z.of_N (dval (chr 48))) with 0. lia.
Qed.
Lemma fmtE_good neg d dp : shown d dp -> good_text (clean (fmtE neg d dp)) neg d dp.
Proof.
  intros (Hd & Hh & H0 & Hr). unfold fmtE. cbv zeta. set (x := match d with [] => 0 | _ => dp - 1 end). fold (exdig x).
  set (g := if x <? 0 then chr 45 else chr 43). assert (Hg : g = chr 43 \/ g = chr 45) by (unfold g; destruct (x <? 0); auto).
  set (sg := if neg then [chr 45] else []). set (ip := match d with c :: _ => [c] | [] => [chr 48] end). set (fr := match d with _ :: ((_ :: _) as r) => chr 46 :: r | _ => [] end).
  destruct (clean_ok (sg ++ ip ++ fr) g x Hg) as (t & Et & Ht & Hn & Hw). rewrite <- !app_assoc in Et. match goal with |- good_text ?u _ _ _ => replace u with (sg ++ ip ++ fr ++ [chr 101] ++ [g] ++ t) by (symmetry; exact Et) end.
  assert (Hx : Z.abs x < 100000) by (unfold x; destruct d; lia).
  apply (good_parts neg ip fr (tl d) _ x).
  - unfold ip. destruct d as [|c d]; [now left|]. right. split; [split; [discriminate|]|].
    + inversion Hd; auto.
    + exact Hh.
  - unfold fr. destruct d as [|c [|c' d]]; [constructor..|]. apply (fr_some (c' :: d)). now inversion Hd.
  - unfold fr. destruct d as [|c [|c' d]]; [now left..|]. right. discriminate.
  - replace x with (if x <? 0 then - worth t else worth t) by (destruct (Z.ltb_spec x 0); lia). apply (ex_some [chr 101] [g] (x <? 0) t); auto; [|lia]. unfold g. destruct (x <? 0); constructor.
  - apply val_same.
    + unfold ip. destruct d; reflexivity.
    + unfold x. destruct d as [|c d]; [specialize (H0 eq_refl); cbn [tl length]; lia|]. cbn [tl length]. lia.
Qed.
Lemma json_text_good sci neg d dp : shown d dp -> good_text (json_text sci neg d dp) neg d dp.
Proof. destruct sci; [apply fmtE_good|apply fmtF_good]. Qed.
