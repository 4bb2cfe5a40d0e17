(* Lemmas about DecModel. *)
From Coq Require Import Bool Ascii String Arith NArith ZArith Lia List.
From Verif Require Import Prelude Utf8Model Utf8Facts DecModel.
Import ListNotations.
Local Open Scope N_scope.

Lemma digit_is_digit d : d < 10 -> is_digit (digit d) = true.
Proof. intros H. unfold is_digit, digit. rewrite code_chr by lia. Nify_bool. lia. Qed.
Lemma dval_digit d : d < 10 -> dval (digit d) = d.
Proof. intros H. unfold dval, digit. rewrite code_chr by lia. lia. Qed.

(* value of a digit string read left to right *)
Fixpoint readdec (l : bytes) (acc : N) : N :=
  match l with [] => acc | b :: t => readdec t (acc * 10 + dval b) end.

Lemma readdec_app l1 l2 : forall acc, readdec (l1 ++ l2) acc = readdec l2 (readdec l1 acc).
Proof. induction l1; intros acc; cbn; auto. Qed.

Lemma size_div10 f n : n <> 0 -> (N.size_nat n <= S f)%nat -> (N.size_nat (n / 10) <= f)%nat.
Proof.
  intros Hn Hf. destruct (N.eq_dec (n / 10) 0) as [->|Hq]; [cbn; lia|].
  assert (H : (S (N.size_nat (n / 10)) <= N.size_nat n)%nat); [|lia].
  assert (Hs : forall m, m <> 0 -> N.of_nat (N.size_nat m) = N.size m).
  { intros [|p] Hm; [congruence|]. clear Hm. unfold N.size_nat, N.size.
    induction p as [p IH|p IH|]; cbn [Pos.size_nat Pos.size]; rewrite ?Nat2N.inj_succ, ?IH; reflexivity. }
  assert (N.succ (N.size (n / 10)) <= N.size n); [|rewrite <- !Hs in H by auto; lia].
  rewrite !N.size_log2 by auto. apply -> N.succ_le_mono.
  apply N.le_trans with (N.log2 (2 * (n / 10))).
  - rewrite N.log2_double by (apply N.neq_0_lt_0; auto). reflexivity.
  - apply N.log2_le_mono. assert (10 * (n / 10) <= n) by (apply N.mul_div_le; lia). set (q := n / 10) in *; clearbody q; lia.
Qed.

Lemma decpos_digits f : forall n, Forall (fun b => is_digit b = true) (decpos f n).
Proof.
  induction f as [|f IH]; intros n; cbn; [constructor|]. destruct (n =? 0); [constructor|].
  apply Forall_app. split; auto. constructor; [|constructor]. apply digit_is_digit. apply N.mod_lt. lia.
Qed.
Lemma decpos_read f : forall n, (N.size_nat n <= f)%nat -> readdec (decpos f n) 0 = n.
Proof.
  induction f as [|f IH]; intros n Hf.
  - destruct n as [|[]]; cbn in *; auto; lia.
  - cbn. destruct (n =? 0) eqn:E; Nify_bool; [cbn; auto|]. rewrite readdec_app, IH by (apply size_div10; auto).
    cbn. rewrite dval_digit by (apply N.mod_lt; lia). rewrite (N.div_mod n 10) at 3 by lia. lia.
Qed.
Lemma decpos_nil f n : (N.size_nat n <= f)%nat -> n <> 0 -> decpos f n <> [].
Proof.
  intros Hf Hn. destruct f as [|f].
  - destruct n as [|[]]; cbn in *; try congruence; lia.
  - cbn. destruct (n =? 0) eqn:E; Nify_bool; [congruence|]. destruct (decpos f (n / 10)); discriminate.
Qed.
(* no leading zero *)
Lemma decpos_head f n : (N.size_nat n <= f)%nat -> n <> 0 ->
  exists d t, decpos f n = digit d :: t /\ 0 < d < 10.
Proof.
  revert n. induction f as [|f IH]; intros n Hf Hn.
  - destruct n as [|[]]; cbn in *; try congruence; lia.
  - cbn. destruct (n =? 0) eqn:E; Nify_bool; [congruence|].
    destruct (N.eq_dec (n / 10) 0) as [Hz|Hz].
    + exists (n mod 10), []. rewrite Hz. split.
      * destruct f; reflexivity.
      * assert (n mod 10 < 10) by (apply N.mod_lt; lia). 
        pose proof (N.div_mod n 10 ltac:(lia)) as Hdm. rewrite Hz in Hdm.
        set (m := n mod 10) in *. clearbody m. lia.
    + destruct (IH (n / 10)) as (d & t & Ht & Hd); auto. { apply size_div10; auto. }
      exists d, (t ++ [digit (n mod 10)]). rewrite Ht. split; auto.
Qed.

Lemma dec_digits n : Forall (fun b => is_digit b = true) (dec n).
Proof. unfold dec. destruct (n =? 0); [repeat constructor|apply decpos_digits]. Qed.
Lemma dec_read n : readdec (dec n) 0 = n.
Proof. unfold dec. destruct (n =? 0) eqn:E; Nify_bool; [subst; reflexivity|]. now apply decpos_read. Qed.
Lemma dec_nonnil n : dec n <> [].
Proof. unfold dec. destruct (n =? 0) eqn:E; Nify_bool; [discriminate|]. now apply decpos_nil. Qed.
Lemma dec_head n : exists d t, dec n = digit d :: t /\ d < 10 /\ (d = 0 -> n = 0 /\ t = []).
Proof.
  unfold dec. destruct (n =? 0) eqn:E; Nify_bool.
  - exists 0, []. repeat split; auto.
  - destruct (decpos_head (N.size_nat n) n) as (d & t & Ht & Hd); auto. exists d, t. repeat split; auto; lia.
Qed.
Lemma dec_inj a b : dec a = dec b -> a = b.
Proof. intros H. rewrite <- (dec_read a), <- (dec_read b). now f_equal. Qed.

Lemma digit_code d : d < 10 -> code (digit d) = 48 + d.
Proof. intros H. unfold digit. apply code_chr. lia. Qed.

Lemma decz_inj a b : decz a = decz b -> a = b.
Proof.
  unfold decz. destruct (a <? 0)%Z eqn:Ea; destruct (b <? 0)%Z eqn:Eb; intros H.
  - inversion H as [H1]. apply dec_inj in H1. lia.
  - destruct (dec_head (Z.abs_N b)) as (d & t & Ht & Hd & _). rewrite Ht in H.
    pose proof (f_equal (fun l => code (hd zero l)) H) as H1. cbn [hd] in H1. rewrite digit_code in H1 by auto. rewrite code_chr in H1 by lia. lia.
  - destruct (dec_head (Z.abs_N a)) as (d & t & Ht & Hd & _). rewrite Ht in H.
    pose proof (f_equal (fun l => code (hd zero l)) H) as H1. cbn [hd] in H1. rewrite digit_code in H1 by auto. rewrite code_chr in H1 by lia. lia.
  - apply dec_inj in H. lia.
Qed.
