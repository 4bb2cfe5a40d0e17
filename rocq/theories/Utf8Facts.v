(* Lemmas about Utf8Model. *)
From Coq Require Import Bool Ascii String Arith NArith ZArith Lia List.
From Verif Require Import Prelude Utf8Model.
Import ListNotations.
Local Open Scope N_scope.

Ltac Nify_bool := rewrite ?orb_true_iff, ?andb_true_iff, ?orb_false_iff, ?andb_false_iff,
  ?N.ltb_lt, ?N.ltb_ge, ?N.leb_le, ?N.leb_gt, ?N.eqb_eq, ?N.eqb_neq in *.

Ltac gen_dm := repeat match goal with
  | |- context [?a mod ?b] => let m := fresh "m" in set (m := a mod b) in *; clearbody m
  end; repeat match goal with
  | |- context [?a / ?b] => let m := fresh "d" in set (m := a / b) in *; clearbody m
  end.

Lemma code_lt b : code b < 256.
Proof. apply N_ascii_bounded. Qed.
Lemma chr_code b : chr (code b) = b.
Proof. apply ascii_N_embedding. Qed.
Lemma code_chr n : n < 256 -> code (chr n) = n.
Proof. intros. now apply N_ascii_embedding. Qed.
Lemma code_inj a b : code a = code b -> a = b.
Proof. intros H. rewrite <- (chr_code a), <- (chr_code b). now f_equal. Qed.

Definition item_bytes (i : item) : bytes :=
  match i with IRune r => encode_rune r | IBad b => [b] end.

Lemma div_mod_small a b k : 0 < k -> b < k -> (a * k + b) / k = a /\ (a * k + b) mod k = b.
Proof.
  intros Hk Hb. split.
  - symmetry. apply N.div_unique with b; lia.
  - symmetry. apply N.mod_unique with a; lia.
Qed.

Ltac cs b x H := pose proof (code_lt b) as H; rewrite <- (chr_code b); set (x := code b) in *; clearbody x.

Lemma cont_spec b : cont b = true -> exists y, y < 64 /\ b = chr (0x80 + y) /\ code b = 0x80 + y.
Proof.
  unfold cont. intros H. Nify_bool. exists (code b - 0x80). split; [lia|]. split; [|lia].
  rewrite <- (chr_code b) at 1. f_equal. lia.
Qed.
Lemma second_spec c0 b : second_ok c0 b = true ->
  exists y, y < 64 /\ b = chr (0x80 + y) /\ code b = 0x80 + y /\
    (c0 = 0xE0 -> 0x20 <= y) /\ (c0 = 0xF0 -> 0x10 <= y) /\ (c0 = 0xED -> y < 0x20) /\ (c0 = 0xF4 -> y < 0x10).
Proof.
  unfold second_ok. intros H. Nify_bool. exists (code b - 0x80).
  destruct (c0 =? 0xE0) eqn:E1; destruct (c0 =? 0xF0) eqn:E2; destruct (c0 =? 0xED) eqn:E3; destruct (c0 =? 0xF4) eqn:E4;
    Nify_bool; (split; [lia|]); (split; [rewrite <- (chr_code b) at 1; f_equal; lia|]); lia.
Qed.

Lemma enc2 x y : y < 64 -> 2 <= x -> x < 32 ->
  encode_rune (x * 64 + y) = [chr (0xC0 + x); chr (0x80 + y)].
Proof.
  intros. unfold encode_rune.
  destruct (x * 64 + y <? 0x80) eqn:E1; Nify_bool; [lia|].
  destruct (x * 64 + y <? 0x800) eqn:E2; Nify_bool; [|lia].
  destruct (div_mod_small x y 64) as [-> ->]; try lia. reflexivity.
Qed.

Lemma enc3 x y z : y < 64 -> z < 64 -> x < 16 -> (x = 0 -> 32 <= y) -> (x = 13 -> y < 32) ->
  encode_rune (x * 4096 + y * 64 + z) = [chr (0xE0 + x); chr (0x80 + y); chr (0x80 + z)] /\
  valid_rune (x * 4096 + y * 64 + z) = true.
Proof.
  intros Hy Hz Hx H0 Hd.
  assert (Hv : valid_rune (x * 4096 + y * 64 + z) = true).
  { unfold valid_rune. Nify_bool. lia. }
  split; auto. unfold encode_rune. rewrite Hv.
  destruct (x * 4096 + y * 64 + z <? 0x80) eqn:E1; Nify_bool; [lia|].
  destruct (x * 4096 + y * 64 + z <? 0x800) eqn:E2; Nify_bool; [lia|]. cbn [negb].
  destruct (x * 4096 + y * 64 + z <? 0x10000) eqn:E3; Nify_bool; [|lia].
  replace (x * 4096 + y * 64 + z) with (x * 4096 + (y * 64 + z)) by lia.
  destruct (div_mod_small x (y * 64 + z) 4096) as [-> _]; try lia.
  replace (x * 4096 + (y * 64 + z)) with ((x * 64 + y) * 64 + z) by lia.
  destruct (div_mod_small (x * 64 + y) z 64) as [-> ->]; try lia.
  destruct (div_mod_small x y 64) as [_ ->]; try lia. reflexivity.
Qed.

Lemma enc4 x y z w : y < 64 -> z < 64 -> w < 64 -> x < 5 -> (x = 0 -> 16 <= y) -> (x = 4 -> y < 16) ->
  encode_rune (x * 262144 + y * 4096 + z * 64 + w) =
    [chr (0xF0 + x); chr (0x80 + y); chr (0x80 + z); chr (0x80 + w)] /\
  valid_rune (x * 262144 + y * 4096 + z * 64 + w) = true.
Proof.
  intros Hy Hz Hw Hx H0 Hd.
  set (r := x * 262144 + y * 4096 + z * 64 + w).
  assert (Hv : valid_rune r = true).
  { unfold valid_rune, r. Nify_bool. lia. }
  split; auto. unfold encode_rune. rewrite Hv.
  destruct (r <? 0x80) eqn:E1; Nify_bool; [unfold r in *; lia|].
  destruct (r <? 0x800) eqn:E2; Nify_bool; [unfold r in *; lia|]. cbn [negb].
  destruct (r <? 0x10000) eqn:E3; Nify_bool; [unfold r in *; lia|].
  assert (Hr1 : r / 262144 = x).
  { unfold r. replace (x * 262144 + y * 4096 + z * 64 + w) with (x * 262144 + (y * 4096 + z * 64 + w)) by lia.
    apply div_mod_small; lia. }
  assert (Hr2 : r / 4096 = x * 64 + y).
  { unfold r. replace (x * 262144 + y * 4096 + z * 64 + w) with ((x * 64 + y) * 4096 + (z * 64 + w)) by lia.
    apply div_mod_small; lia. }
  assert (Hr3 : r / 64 = (x * 64 + y) * 64 + z /\ r mod 64 = w).
  { unfold r. replace (x * 262144 + y * 4096 + z * 64 + w) with (((x * 64 + y) * 64 + z) * 64 + w) by lia.
    apply div_mod_small; lia. }
  destruct Hr3 as [Hr3 Hr4]. rewrite Hr1, Hr2, Hr3, Hr4.
  destruct (div_mod_small (x * 64 + y) z 64) as [_ ->]; try lia.
  destruct (div_mod_small x y 64) as [_ ->]; try lia. reflexivity.
Qed.

Lemma decode_good s r w : decode_rune s = RGood r w ->
  valid_rune r = true /\ length (encode_rune r) = w /\ s = encode_rune r ++ skipn w s /\ (0 < w)%nat.
Proof.
  destruct s as [|b0 t]; cbn [decode_rune]; [discriminate|].
  pose proof (code_lt b0) as Hb0. pose proof (chr_code b0) as Hc0. set (c0 := code b0) in *.
  destruct (c0 <? 0x80) eqn:E1.
  { intros H; injection H as <- <-. Nify_bool. unfold encode_rune, valid_rune.
    replace (c0 <? 0x80) with true by (symmetry; Nify_bool; lia). rewrite Hc0.
    split; [Nify_bool; lia|]. cbn. auto. }
  destruct (c0 <? 0xC2) eqn:E2; [discriminate|].
  destruct (c0 <? 0xE0) eqn:E3.
  { destruct t as [|b1 t]; [discriminate|]. destruct (second_ok c0 b1) eqn:E4; [|discriminate].
    intros H; injection H as <- <-. destruct (second_spec _ _ E4) as (y & Hy & Hb1 & -> & _).
    Nify_bool. replace (0x80 + y - 0x80) with y by lia.
    rewrite enc2 by lia. rewrite <- Hb1. replace (0xC0 + (c0 - 0xC0)) with c0 by lia. rewrite Hc0.
    split; [unfold valid_rune; Nify_bool; lia|]. cbn. auto. }
  destruct (c0 <? 0xF0) eqn:E4.
  { destruct t as [|b1 [|b2 t]]; try discriminate. destruct (second_ok c0 b1) eqn:E5; [|discriminate].
    destruct (cont b2) eqn:E6; [|discriminate]. cbn [andb].
    intros H; injection H as <- <-. destruct (second_spec _ _ E5) as (y & Hy & Hb1 & -> & Hs1 & _ & Hs3 & _).
    destruct (cont_spec _ E6) as (z & Hz & Hb2 & ->).
    Nify_bool. replace (0x80 + y - 0x80) with y by lia. replace (0x80 + z - 0x80) with z by lia.
    destruct (enc3 (c0 - 0xE0) y z) as [-> Hv]; try lia.
    rewrite <- Hb1, <- Hb2. replace (0xE0 + (c0 - 0xE0)) with c0 by lia. rewrite Hc0. split; [exact Hv|]. split; [reflexivity|]. split; [reflexivity|lia]. }
  destruct (c0 <? 0xF5) eqn:E5; [|discriminate].
  destruct t as [|b1 [|b2 [|b3 t]]]; try discriminate. destruct (second_ok c0 b1) eqn:E6; [|discriminate].
  destruct (cont b2) eqn:E7; [|discriminate]. destruct (cont b3) eqn:E8; [|discriminate]. cbn [andb].
  intros H; injection H as <- <-. destruct (second_spec _ _ E6) as (y & Hy & Hb1 & -> & _ & Hs2 & _ & Hs4).
  destruct (cont_spec _ E7) as (z & Hz & Hb2 & ->). destruct (cont_spec _ E8) as (x & Hx & Hb3 & ->).
  Nify_bool. replace (0x80 + y - 0x80) with y by lia. replace (0x80 + z - 0x80) with z by lia.
  replace (0x80 + x - 0x80) with x by lia.
  destruct (enc4 (c0 - 0xF0) y z x) as [-> Hv]; try lia.
  rewrite <- Hb1, <- Hb2, <- Hb3. replace (0xF0 + (c0 - 0xF0)) with c0 by lia. rewrite Hc0. split; [exact Hv|]. split; [reflexivity|]. split; [reflexivity|lia].
Qed.

Lemma cont_chr y : y < 64 -> cont (chr (0x80 + y)) = true.
Proof. intros. unfold cont. rewrite code_chr by lia. Nify_bool. lia. Qed.

Lemma second_chr c0 y : y < 64 -> (c0 = 0xE0 -> 0x20 <= y) -> (c0 = 0xF0 -> 0x10 <= y) ->
  (c0 = 0xED -> y < 0x20) -> (c0 = 0xF4 -> y < 0x10) -> second_ok c0 (chr (0x80 + y)) = true.
Proof.
  intros Hy H1 H2 H3 H4. unfold second_ok. rewrite code_chr by lia.
  destruct (c0 =? 0xE0) eqn:E1; destruct (c0 =? 0xF0) eqn:E2; destruct (c0 =? 0xED) eqn:E3; destruct (c0 =? 0xF4) eqn:E4;
    Nify_bool; lia.
Qed.

Lemma decode_encode r t : valid_rune r = true ->
  decode_rune (encode_rune r ++ t) = RGood r (length (encode_rune r)).
Proof.
  intros Hv.
  assert (Hr : r < 0x80 \/ (exists x y, r = x * 64 + y /\ y < 64 /\ 2 <= x /\ x < 32) \/
    (exists x y z, r = x * 4096 + y * 64 + z /\ y < 64 /\ z < 64 /\ x < 16 /\ (x = 0 -> 32 <= y) /\ (x = 13 -> y < 32)) \/
    (exists x y z w, r = x * 262144 + y * 4096 + z * 64 + w /\ y < 64 /\ z < 64 /\ w < 64 /\ x < 5 /\
       (x = 0 -> 16 <= y) /\ (x = 4 -> y < 16))).
  { unfold valid_rune in Hv. Nify_bool.
    assert (Hdm : forall a, a = 64 * (a / 64) + a mod 64 /\ a mod 64 < 64).
    { intros a. split; [apply N.div_mod; lia|apply N.mod_lt; lia]. }
    pose proof (Hdm r) as [Hr1 Hr2]. pose proof (Hdm (r / 64)) as [Hr3 Hr4]. pose proof (Hdm (r / 64 / 64)) as [Hr5 Hr6].
    set (q1 := r / 64) in *. set (m1 := r mod 64) in *. set (q2 := q1 / 64) in *. set (m2 := q1 mod 64) in *.
    set (q3 := q2 / 64) in *. set (m3 := q2 mod 64) in *. clearbody q1 q2 q3 m1 m2 m3. clear Hdm.
    destruct (N.lt_ge_cases r 0x80) as [|H1]; auto. right.
    destruct (N.lt_ge_cases r 0x800) as [H2|H2].
    { left. exists q1, m1. lia. }
    right. destruct (N.lt_ge_cases r 0x10000) as [H3|H3].
    { left. exists q2, m2, m1. lia. }
    right. exists q3, m3, m2, m1.
    lia. }
  destruct Hr as [Hr|[(x & y & -> & Hy & Hx & Hx')|[(x & y & z & -> & Hy & Hz & Hx & H0 & Hd)|(x & y & z & w & -> & Hy & Hz & Hw & Hx & H0 & Hd)]]].
  - unfold encode_rune. replace (r <? 0x80) with true by (symmetry; Nify_bool; lia). cbn [app decode_rune length].
    rewrite code_chr by lia. replace (r <? 0x80) with true by (symmetry; Nify_bool; lia). reflexivity.
  - rewrite enc2 by auto. cbn [app decode_rune length]. rewrite !code_chr by lia.
    replace (0xC0 + x <? 0x80) with false by (symmetry; Nify_bool; lia).
    replace (0xC0 + x <? 0xC2) with false by (symmetry; Nify_bool; lia).
    replace (0xC0 + x <? 0xE0) with true by (symmetry; Nify_bool; lia).
    rewrite second_chr by lia. f_equal. lia.
  - destruct (enc3 x y z) as [-> _]; auto. cbn [app decode_rune length]. rewrite !code_chr by lia.
    replace (0xE0 + x <? 0x80) with false by (symmetry; Nify_bool; lia).
    replace (0xE0 + x <? 0xC2) with false by (symmetry; Nify_bool; lia).
    replace (0xE0 + x <? 0xE0) with false by (symmetry; Nify_bool; lia).
    replace (0xE0 + x <? 0xF0) with true by (symmetry; Nify_bool; lia).
    rewrite second_chr, cont_chr by lia. cbn [andb]. f_equal. lia.
  - destruct (enc4 x y z w) as [-> _]; auto. cbn [app decode_rune length]. rewrite !code_chr by lia.
    replace (0xF0 + x <? 0x80) with false by (symmetry; Nify_bool; lia).
    replace (0xF0 + x <? 0xC2) with false by (symmetry; Nify_bool; lia).
    replace (0xF0 + x <? 0xE0) with false by (symmetry; Nify_bool; lia).
    replace (0xF0 + x <? 0xF0) with false by (symmetry; Nify_bool; lia).
    replace (0xF0 + x <? 0xF5) with true by (symmetry; Nify_bool; lia).
    rewrite second_chr, !cont_chr by lia. cbn [andb]. f_equal. lia.
Qed.

Lemma runes_fuel_more f : forall g s, (length s <= f)%nat -> (length s <= g)%nat -> runes_fuel f s = runes_fuel g s.
Proof.
  induction f as [|f IH]; intros g s Hf Hg.
  - destruct s; [|cbn in Hf; lia]. destruct g; reflexivity.
  - destruct s as [|b t]; [destruct g; reflexivity|]. destruct g as [|g]; [cbn in Hg; lia|].
    cbn [runes_fuel]. destruct (decode_rune (b :: t)) as [| |r w] eqn:Hd; auto.
    + f_equal. cbn in *. apply IH; lia.
    + f_equal. apply decode_good in Hd as (_ & _ & _ & Hw). destruct w as [|w]; [lia|].
      cbn [skipn]. pose proof (skipn_length w t). cbn in *. apply IH; lia.
Qed.

Lemma runes_cons_bad b t : decode_rune (b :: t) = RBad -> runes (b :: t) = IBad b :: runes t.
Proof. intros H. unfold runes. cbn [length runes_fuel]. now rewrite H. Qed.

Lemma runes_cons_good b t r w : decode_rune (b :: t) = RGood r w -> runes (b :: t) = IRune r :: runes (skipn w (b :: t)).
Proof.
  intros H. unfold runes. cbn [length runes_fuel]. rewrite H. f_equal.
  apply decode_good in H as (_ & _ & _ & Hw). destruct w as [|w]; [lia|]. cbn [skipn].
  apply runes_fuel_more; pose proof (skipn_length w t); lia.
Qed.

Lemma runes_encode r t : valid_rune r = true -> runes (encode_rune r ++ t) = IRune r :: runes t.
Proof.
  intros Hv. pose proof (decode_encode r t Hv) as Hd.
  destruct (encode_rune r) as [|b e] eqn:He.
  - cbn in Hd. exfalso. unfold encode_rune in He.
    destruct (r <? 0x80), (r <? 0x800), (negb (valid_rune r)), (r <? 0x10000); discriminate.
  - cbn [app] in *. rewrite (runes_cons_good _ _ _ _ Hd). f_equal. f_equal.
    cbn [length skipn]. clear. induction e; cbn; auto.
Qed.

(* the string is the concatenation of its items *)
Lemma runes_ind (P : bytes -> Prop) : P [] ->
  (forall b t, decode_rune (b :: t) = RBad -> P t -> P (b :: t)) ->
  (forall r t, valid_rune r = true -> P t -> P (encode_rune r ++ t)) ->
  forall s, P s.
Proof.
  intros H0 Hb Hg s. remember (length s) as n eqn:Hn. assert (Hle : (length s <= n)%nat) by lia. clear Hn.
  revert s Hle. induction n as [|n IH]; intros s Hle.
  - destruct s; [auto|cbn in Hle; lia].
  - destruct s as [|b t]; [auto|]. destruct (decode_rune (b :: t)) as [| |r w] eqn:Hd.
    + exfalso. cbn in Hd. repeat match type of Hd with context [if ?c then _ else _] => destruct c; try discriminate end;
        destruct t as [|b1 t]; try discriminate;
        repeat match type of Hd with context [if ?c then _ else _] => destruct c; try discriminate end;
        destruct t as [|b2 t]; try discriminate;
        repeat match type of Hd with context [if ?c then _ else _] => destruct c; try discriminate end;
        destruct t as [|b3 t]; try discriminate;
        repeat match type of Hd with context [if ?c then _ else _] => destruct c; try discriminate end.
    + apply Hb; auto. apply IH. cbn in Hle. lia.
    + pose proof (decode_good _ _ _ Hd) as (Hv & Hl & Hs & Hw). rewrite Hs. apply Hg; auto. apply IH.
      destruct w as [|w]; [lia|]. cbn [skipn]. pose proof (skipn_length w t). cbn in Hle. lia.
Qed.

Lemma runes_concat s : concat (map item_bytes (runes s)) = s.
Proof.
  induction s using runes_ind.
  - reflexivity.
  - rewrite runes_cons_bad by auto. cbn. now f_equal.
  - rewrite runes_encode by auto. cbn. now f_equal.
Qed.

Lemma runes_valid s : Forall (fun i => match i with IRune r => valid_rune r = true | IBad _ => True end) (runes s).
Proof.
  induction s using runes_ind.
  - constructor.
  - rewrite runes_cons_bad by auto. constructor; auto.
  - rewrite runes_encode by auto. constructor; auto.
Qed.

(* an undecodable byte is not ASCII *)
Lemma bad_high b t : decode_rune (b :: t) = RBad -> 0x80 <= code b.
Proof. cbn. destruct (code b <? 0x80) eqn:E; [discriminate|]. now Nify_bool. Qed.

Lemma encode_ascii r : r < 0x80 -> encode_rune r = [chr r].
Proof. intros H. unfold encode_rune. replace (r <? 0x80) with true by (symmetry; Nify_bool; lia). reflexivity. Qed.

(* every byte of a multi-byte rune is above ASCII *)
Lemma encode_high r : 0x80 <= r -> Forall (fun b => 0x80 <= code b) (encode_rune r).
Proof.
  intros H. unfold encode_rune. destruct (r <? 0x80) eqn:E1; Nify_bool; [lia|].
  assert (Hm : forall a, a mod 64 < 64) by (intros a; apply N.mod_lt; lia).
  pose proof (Hm r). pose proof (Hm (r / 64)). pose proof (Hm (r / 4096)).
  destruct (r <? 0x800) eqn:E2; Nify_bool.
  { pose proof (N.div_lt_upper_bound r 64 32 ltac:(lia) ltac:(lia)).
    gen_dm; repeat apply Forall_cons; try apply Forall_nil; rewrite code_chr; lia. }
  destruct (negb (valid_rune r)) eqn:E3.
  { gen_dm; repeat apply Forall_cons; try apply Forall_nil; rewrite code_chr; lia. }
  apply negb_false_iff in E3. unfold valid_rune in E3. Nify_bool.
  destruct (r <? 0x10000) eqn:E4; Nify_bool.
  { pose proof (N.div_lt_upper_bound r 4096 16 ltac:(lia) ltac:(lia)).
    gen_dm; repeat apply Forall_cons; try apply Forall_nil; rewrite code_chr; lia. }
  pose proof (N.div_lt_upper_bound r 262144 5 ltac:(lia) ltac:(lia)).
  gen_dm; repeat apply Forall_cons; try apply Forall_nil; rewrite code_chr; lia.
Qed.
