(* Lemmas about JSON strings and numbers. *)
From Coq Require Import Bool Ascii String Arith NArith ZArith Lia List Permutation.
From Verif Require Import Prelude Utf8Model Utf8Facts QuoteModel DecModel DecFacts DurModel DurProofs EncModel
  JsonModel JsonSpec.
Import ListNotations.
Local Open Scope N_scope.

Lemma hexval_hexdig n : n < 16 -> hexval (hexdig n) = Some n.
Proof.
  intros H. unfold hexval, hexdig, is_digit. destruct (n <? 10) eqn:E; Nify_bool; rewrite code_chr by lia.
  - replace ((48 <=? 48 + n) && (48 + n <=? 57)) with true by (symmetry; Nify_bool; lia). f_equal. lia.
  - replace ((48 <=? 87 + n) && (87 + n <=? 57)) with false by (symmetry; Nify_bool; lia).
    replace ((97 <=? 87 + n) && (87 + n <=? 102)) with true by (symmetry; Nify_bool; lia). f_equal. lia.
Qed.

Lemma get4_hexs n t : n < 0x10000 -> get4 (hexs 4 n ++ t) = Some (n, t).
Proof.
  intros H. cbn [hexs app]. unfold get4.
  assert (Hm : forall a, a mod 16 < 16) by (intros; apply N.mod_lt; lia).
  rewrite !hexval_hexdig by apply Hm.
  assert (Hd : forall a, a = 16 * (a / 16) + a mod 16) by (intros; apply N.div_mod; lia).
  pose proof (Hd n) as H1. pose proof (Hd (n / 16)) as H2. pose proof (Hd (n / 16 / 16)) as H3.
  pose proof (Hd (n / 16 / 16 / 16)) as H4.
  assert (H5 : n / 16 / 16 / 16 / 16 = 0).
  { rewrite !N.div_div by lia. apply N.div_small. cbn. lia. }
  rewrite H5 in H4.
  set (a := n / 16 / 16 / 16) in *. set (b := n / 16 / 16) in *. set (c := n / 16) in *.
  set (m1 := n mod 16) in *. set (m2 := c mod 16) in *. set (m3 := b mod 16) in *. set (m4 := a mod 16) in *.
  clearbody a b c m1 m2 m3 m4. do 2 f_equal. lia.
Qed.

Lemma puts_app p q r : puts p (puts q r) = puts (p ++ q) r.
Proof. destruct r as [[a t]|]; cbn; auto. now rewrite app_assoc. Qed.

Definition clean_item (i : item) : bytes := match i with IRune r => encode_rune r | IBad _ => encode_rune 0xFFFD end.

(* one round of pstr on an escape of one letter *)
Lemma pstr_esc1 f e p t : code e <> 117 -> esc1 e = Some p -> pstr (S f) (backslash :: e :: t) = puts p (pstr f t).
Proof.
  intros He Hp. cbn [pstr]. change (code backslash =? 34) with false. change (code backslash =? 92) with true.
  cbv iota. apply N.eqb_neq in He. now rewrite He, Hp.
Qed.
Lemma pstr_u f r t : r < 0xD800 -> pstr (S f) (B "\u" ++ hexs 4 r ++ t) = puts (encode_rune r) (pstr f t).
Proof.
  intros Hr. change (B "\u") with [backslash; chr 117]. rewrite <- app_comm_cons. cbn [app pstr].
  change (code backslash =? 34) with false. change (code backslash =? 92) with true.
  change (code (chr 117) =? 117) with true. cbv iota.
  unfold punicode. rewrite get4_hexs by lia.
  replace ((0xD800 <=? r) && (r <? 0xE000)) with false by (symmetry; Nify_bool; lia). reflexivity.
Qed.

Lemma skipn_app_length {A} (a b : list A) : skipn (length a) (a ++ b) = b.
Proof. induction a; cbn; auto. Qed.

Lemma pstr_raw f r t : valid_rune r = true -> 32 <= r -> r <> 34 -> r <> 92 ->
  pstr (S f) (encode_rune r ++ t) = puts (encode_rune r) (pstr f t).
Proof.
  intros Hv H1 H2 H3. pose proof (decode_encode r t Hv) as Hd.
  assert (Hh : exists b e, encode_rune r = b :: e /\ code b <> 34 /\ code b <> 92 /\ 32 <= code b).
  { destruct (N.lt_ge_cases r 0x80) as [H|H].
    - rewrite encode_ascii by auto. exists (chr r), []. rewrite code_chr by lia. repeat split; auto.
    - pose proof (encode_high r H) as Hf. destruct (encode_rune r) as [|b e] eqn:E.
      + cbn in Hd. destruct t as [|c t]; cbn in Hd; [discriminate|].
        exfalso. unfold encode_rune in E.
        destruct (r <? 0x80); [discriminate|]. destruct (r <? 0x800); [discriminate|].
        destruct (negb (valid_rune r)); [discriminate|]. destruct (r <? 0x10000); discriminate.
      + inversion Hf; subst. exists b, e. repeat split; lia. }
  destruct Hh as (b & e & He & Hb1 & Hb2 & Hb3).
  cbn [pstr]. rewrite He. cbn [app]. apply N.eqb_neq in Hb1, Hb2. rewrite Hb1, Hb2.
  replace (code b <? 32) with false by (symmetry; Nify_bool; lia).
  rewrite He in Hd. cbn [app] in Hd. rewrite Hd. rewrite He.
  change (b :: e ++ t) with ((b :: e) ++ t). now rewrite skipn_app_length.
Qed.

Lemma pstr_item short f i t : (match i with IRune r => valid_rune r = true | IBad _ => True end) ->
  pstr (S f) (jesc_item short i ++ t) = puts (clean_item i) (pstr f t).
Proof.
  destruct i as [r|b]; intros Hv.
  2: { change (jesc_item short (IBad b)) with (B "\u" ++ hexs 4 0xFFFD). rewrite <- app_assoc.
       change (B "\u") with [backslash; chr 117]. rewrite <- app_comm_cons. cbn [app pstr].
       change (code backslash =? 34) with false. change (code backslash =? 92) with true.
       change (code (chr 117) =? 117) with true. cbv iota.
       unfold punicode. rewrite get4_hexs by lia. reflexivity. }
  cbn [jesc_item clean_item]. unfold jesc_rune.
  destruct ((r =? 34) || (r =? 92)) eqn:E0.
  { Nify_bool. rewrite encode_ascii by lia. cbn [app]. destruct E0 as [-> | ->]; now apply pstr_esc1. }
  assert (Hs : forall n e p, r = n -> n < 0x80 -> code e <> 117 -> esc1 e = Some [chr n] ->
     p = [backslash; e] -> pstr (S f) (p ++ t) = puts (encode_rune r) (pstr f t)).
  { intros n e p -> Hn He Hp ->. rewrite encode_ascii by auto. cbn [app]. now apply pstr_esc1. }
  destruct (r =? 10) eqn:E1; [Nify_bool; apply (Hs 10 (chr 110)); auto; [lia|discriminate]|].
  destruct (r =? 13) eqn:E2; [Nify_bool; apply (Hs 13 (chr 114)); auto; [lia|discriminate]|].
  destruct (r =? 9) eqn:E3; [Nify_bool; apply (Hs 9 (chr 116)); auto; [lia|discriminate]|].
  destruct (short && (r =? 8)) eqn:E4; [Nify_bool; apply (Hs 8 (chr 98)); auto; [lia|lia|discriminate]|].
  destruct (short && (r =? 12)) eqn:E5; [Nify_bool; apply (Hs 12 (chr 102)); auto; [lia|lia|discriminate]|].
  clear E4 E5.
  destruct ((r <? 32) || (r =? 60) || (r =? 62) || (r =? 38) || (r =? 0x2028) || (r =? 0x2029)) eqn:E6.
  - rewrite <- app_assoc. apply pstr_u. Nify_bool. lia.
  - apply pstr_raw; auto; Nify_bool; lia.
Qed.

Lemma pstr_items short l : forall f rest,
  Forall (fun i => match i with IRune r => valid_rune r = true | IBad _ => True end) l -> (length l < f)%nat ->
  pstr f (concat (map (jesc_item short) l) ++ dquote :: rest) = Some (concat (map clean_item l), rest).
Proof.
  induction l as [|i l IH]; intros f rest Hv Hf; (destruct f as [|f]; [cbn in Hf; lia|]).
  - reflexivity.
  - inversion Hv; subst. cbn [map concat]. rewrite <- app_assoc, pstr_item by auto.
    rewrite IH by (auto; cbn in Hf; lia). reflexivity.
Qed.

Lemma encode_nonnil r : encode_rune r <> [].
Proof.
  unfold encode_rune. destruct (r <? 0x80); [discriminate|]. destruct (r <? 0x800); [discriminate|].
  destruct (negb (valid_rune r)); [discriminate|]. destruct (r <? 0x10000); discriminate.
Qed.
Lemma jesc_nonnil short i : (1 <= length (jesc_item short i))%nat.
Proof.
  destruct i as [r|b]; [|cbn; lia]. cbn [jesc_item]. unfold jesc_rune.
  repeat (match goal with |- context [if ?c then _ else _] => destruct c end; [cbn; lia|]).
  pose proof (encode_nonnil r). destruct (encode_rune r); [contradiction|cbn; lia].
Qed.
Lemma jesc_length short l : (length l <= length (concat (map (jesc_item short) l)))%nat.
Proof.
  induction l as [|i l IH]; cbn; [lia|]. rewrite app_length. pose proof (jesc_nonnil short i). lia.
Qed.

(* a written string reads back as itself with undecodable bytes replaced *)
Lemma pstring_jstr short s rest : exists q, jstr short s = dquote :: q /\ pstring (q ++ rest) = Some (cleaned s, rest).
Proof.
  unfold jstr. eexists. split; [reflexivity|]. unfold pstring. rewrite <- app_assoc. cbn [app].
  apply pstr_items; [apply runes_valid|]. rewrite app_length. cbn [length]. pose proof (jesc_length short (runes s)). lia.
Qed.

Lemma cleaned_valid s : valid_utf8 s = true -> cleaned s = s.
Proof.
  intros H. rewrite <- (runes_concat s) at 2. unfold cleaned. f_equal. unfold valid_utf8 in H.
  apply map_ext_in. intros i Hi. rewrite forallb_forall in H. specialize (H i Hi). destruct i; [reflexivity|discriminate].
Qed.

(* ---- UTF-8 validity of the texts of durations ---- *)
Lemma valid_app a b : valid_utf8 a = true -> valid_utf8 b = true -> valid_utf8 (a ++ b) = true.
Proof.
  intros Ha Hb. revert Ha. induction a using runes_ind; intros Ha; auto.
  - unfold valid_utf8 in Ha. rewrite runes_cons_bad in Ha by auto. discriminate.
  - unfold valid_utf8 in *. rewrite runes_encode in Ha by auto. rewrite <- app_assoc, runes_encode by auto.
    cbn in *. auto.
Qed.
Lemma valid_ascii s : Forall (fun b => code b < 0x80) s -> valid_utf8 s = true.
Proof.
  induction 1 as [|b s Hb Hs IH]; auto. change (b :: s) with ([b] ++ s). apply valid_app; auto.
  assert (He : [b] = encode_rune (code b) ++ []) by (rewrite encode_ascii, chr_code by auto; reflexivity).
  rewrite He. unfold valid_utf8. rewrite runes_encode; auto.
  unfold valid_rune. Nify_bool. lia.
Qed.
Lemma valid_digits s : Forall (fun b => is_digit b = true) s -> valid_utf8 s = true.
Proof.
  intros H. apply valid_ascii. eapply Forall_impl; [|exact H]. cbn. intros b Hb. unfold is_digit in Hb. Nify_bool. lia.
Qed.
Lemma valid_dec n : valid_utf8 (dec n) = true.
Proof. apply valid_digits, dec_digits. Qed.
Lemma frac_loop_ascii p : forall v b out, Forall (fun b => code b < 0x80) out ->
  Forall (fun b => code b < 0x80) (fst (frac_loop p v b out)).
Proof.
  induction p as [|p IH]; intros v b out Ho.
  - cbn. destruct b; auto. constructor; auto. vm_compute. reflexivity.
  - cbn [frac_loop]. apply IH. destruct (b || negb (v mod 10 =? 0)); auto. constructor; auto.
    assert (v mod 10 < 10) by (apply N.mod_lt; lia). rewrite digit_code by auto. lia.
Qed.
Lemma valid_frac v p : valid_utf8 (fst (fmt_frac v p)) = true.
Proof. apply valid_ascii. apply frac_loop_ascii. constructor. Qed.
Lemma dur_abs_valid u : valid_utf8 (dur_abs u) = true.
Proof.
  unfold dur_abs.
  assert (Hf : forall p f v, fmt_frac u p = (f, v) -> valid_utf8 f = true).
  { intros p f v H. pose proof (valid_frac u p) as Hp. now rewrite H in Hp. }
  repeat match goal with
  | |- valid_utf8 (if ?c then _ else _) = true => destruct c
  | |- valid_utf8 (let '(_, _) := ?x in _) = true => destruct x as [f v] eqn:?
  | |- valid_utf8 (_ ++ _) = true => apply valid_app
  | |- valid_utf8 (dec _) = true => apply valid_dec
  end; eauto; try (vm_compute; reflexivity).
Qed.
Lemma dur_text_valid d : valid_utf8 (dur_text d) = true.
Proof.
  unfold dur_text, dur_string. destruct (d =? 0)%Z; [reflexivity|]. destruct (d <? 0)%Z.
  - change (chr 45 :: dur_abs (Z.abs_N d)) with ([chr 45] ++ dur_abs (Z.abs_N d)). apply valid_app; [reflexivity|apply dur_abs_valid].
  - apply dur_abs_valid.
Qed.

(* ---- numbers ---- *)
(* what may follow a number so that it ends there *)
Definition num_end (rest : bytes) : Prop :=
  match rest with
  | [] => True
  | c :: _ => is_digit c = false /\ code c <> 46 /\ code c <> 101 /\ code c <> 69
  end.
Lemma take_digits_app d rest : Forall (fun c => is_digit c = true) d ->
  match rest with [] => True | c :: _ => is_digit c = false end -> take_digits (d ++ rest) = (d, rest).
Proof.
  intros Hd Hr. induction Hd as [|c d Hc Hd IH]; cbn [app take_digits].
  - destruct rest as [|c t]; auto. cbn [take_digits]. now rewrite Hr.
  - now rewrite Hc, IH.
Qed.
Lemma digit_range c : is_digit c = true -> 48 <= code c <= 57.
Proof. unfold is_digit. intros. Nify_bool. lia. Qed.

Lemma pexp_ok ex rest : (ex = [] \/ exists e g d, ex = e ++ g ++ d /\ (e = B "e" \/ e = B "E") /\
       (g = [] \/ g = B "+" \/ g = B "-") /\ all_digits d) -> num_end rest -> pexp (ex ++ rest) = Some (ex, rest).
Proof.
  intros [->|(e & g & d & -> & He & Hg & Hd1 & Hd2)] Hr.
  - cbn [app]. unfold pexp. destruct rest as [|c t]; auto. destruct Hr as (H1 & H2 & H3 & H4).
    apply N.eqb_neq in H3, H4. now rewrite H3, H4.
  - assert (Hrd : match rest with [] => True | c :: _ => is_digit c = false end) by (destruct rest; cbn in Hr; tauto).
    pose proof (take_digits_app d rest Hd2 Hrd) as Ht.
    assert (Hc : exists c, e = [c] /\ (code c =? 101) || (code c =? 69) = true).
    { destruct He as [->| ->]; eexists; split; try reflexivity; vm_compute; reflexivity. }
    destruct Hc as (c & -> & Hc). rewrite <- !app_assoc. cbn [app]. unfold pexp. rewrite Hc.
    destruct Hg as [->|[->| ->]].
    + cbn [app]. destruct d as [|x d]; [contradiction|]. cbn [app]. inversion Hd2 as [|? ? Hx ?]; subst.
      pose proof (digit_range x Hx). replace ((code x =? 43) || (code x =? 45)) with false by (symmetry; Nify_bool; lia).
      cbn [app] in Ht. rewrite Ht. reflexivity.
    + change (B "+" ++ d ++ rest) with (chr 43 :: d ++ rest). cbv iota beta. change ((code (chr 43) =? 43) || (code (chr 43) =? 45)) with true.
      cbv iota beta. rewrite Ht. destruct d; [contradiction|reflexivity].
    + change (B "-" ++ d ++ rest) with (chr 45 :: d ++ rest). cbv iota beta. change ((code (chr 45) =? 43) || (code (chr 45) =? 45)) with true.
      cbv iota beta. rewrite Ht. destruct d; [contradiction|reflexivity].
Qed.

(* what follows the integer part and the fraction does not continue them *)
Lemma ex_head ex rest : (ex = [] \/ exists e g d, ex = e ++ g ++ d /\ (e = B "e" \/ e = B "E") /\
       (g = [] \/ g = B "+" \/ g = B "-") /\ all_digits d) -> num_end rest ->
  match ex ++ rest with [] => True | c :: _ => is_digit c = false /\ code c <> 46 end.
Proof.
  intros [->|(e & g & d & -> & He & _)] Hr.
  - cbn [app]. destruct rest; cbn in *; tauto.
  - destruct He as [->| ->]; cbn; split; try reflexivity; discriminate.
Qed.

Lemma pfrac_ok fr t : (fr = [] \/ exists d, fr = B "." ++ d /\ all_digits d) ->
  match t with [] => True | c :: _ => is_digit c = false /\ code c <> 46 end -> pfrac (fr ++ t) = Some (fr, t).
Proof.
  intros [->|(d & -> & Hd1 & Hd2)] Ht; unfold pfrac, eat.
  - cbn [app]. destruct t as [|c t]; auto. destruct Ht as [_ H]. apply N.eqb_neq in H. now rewrite H.
  - rewrite <- app_assoc. change (B "." ++ d ++ t) with (chr 46 :: d ++ t).
    cbv iota beta. change (code (chr 46) =? 46) with true. cbv iota beta. rewrite take_digits_app; auto.
    + destruct d; [contradiction|reflexivity].
    + destruct t; tauto.
Qed.
Lemma fr_head fr t : (fr = [] \/ exists d, fr = B "." ++ d /\ all_digits d) ->
  match t with [] => True | c :: _ => is_digit c = false /\ code c <> 46 end ->
  match fr ++ t with [] => True | c :: _ => is_digit c = false end.
Proof.
  intros [->|(d & -> & _)] Ht; [cbn; destruct t; tauto|reflexivity].
Qed.

Lemma pnum_ok s rest : json_number s -> num_end rest -> pnum (s ++ rest) = Some (s, rest).
Proof.
  intros (sg & ip & fr & ex & -> & Hsg & Hip & Hfr & Hex) Hr.
  pose proof (ex_head ex rest Hex Hr) as He. pose proof (fr_head fr (ex ++ rest) Hfr He) as Hf.
  rewrite <- !app_assoc. unfold pnum.
  assert (Hi : forall s1, s1 = ip ++ fr ++ ex ++ rest ->
    match s1 with
    | c :: t => if code c =? 48 then Some ([c], t) else if is_digit c then Some (take_digits s1) else None
    | [] => None
    end = Some (ip, fr ++ ex ++ rest)).
  { intros s1 ->. destruct Hip as [->|[[Hd1 Hd2] Hh]].
    - reflexivity.
    - destruct ip as [|c ip]; [contradiction|]. inversion Hd2 as [|? ? Hc Hd3]; subst. cbn [app].
      destruct (code c =? 48) eqn:E.
      + Nify_bool. exfalso. apply Hh. cbn. f_equal. apply code_inj. rewrite E. reflexivity.
      + rewrite Hc. f_equal. change (c :: ip ++ fr ++ ex ++ rest) with ((c :: ip) ++ fr ++ ex ++ rest).
        now apply take_digits_app. }
  assert (Hne : forall t, ip ++ t <> [] /\ (forall c u, ip ++ t = c :: u -> code c <> 45)).
  { intros t. destruct Hip as [->|[[Hd1 Hd2] _]].
    - split; [discriminate|]. intros c u H. inversion H; subst. discriminate.
    - destruct ip as [|c ip]; [contradiction|]. split; [discriminate|]. intros c' u H. inversion H; subst.
      inversion Hd2 as [|? ? Hc ?]; subst. apply digit_range in Hc. lia. }
  destruct Hsg as [->| ->].
  - cbn [app].
    replace (eat 45 (ip ++ fr ++ ex ++ rest)) with (@None bytes).
    + rewrite (Hi _ eq_refl), pfrac_ok by auto. rewrite pexp_ok by auto. reflexivity.
    + destruct (Hne (fr ++ ex ++ rest)) as [H1 H2]. destruct (ip ++ fr ++ ex ++ rest) as [|c u]; [contradiction|].
      unfold eat. specialize (H2 c u eq_refl). apply N.eqb_neq in H2. now rewrite H2.
  - change (B "-" ++ ip ++ fr ++ ex ++ rest) with (chr 45 :: ip ++ fr ++ ex ++ rest).
    change (eat 45 (chr 45 :: ip ++ fr ++ ex ++ rest)) with (Some (ip ++ fr ++ ex ++ rest)). cbv iota beta.
    rewrite (Hi _ eq_refl), pfrac_ok by auto. rewrite pexp_ok by auto. reflexivity.
Qed.

Lemma take_digits_spec s : forall d r, take_digits s = (d, r) -> s = d ++ r /\ Forall (fun c => is_digit c = true) d.
Proof.
  induction s as [|c s IH]; intros d r H; cbn in H.
  - inversion H. auto.
  - destruct (is_digit c) eqn:E.
    + destruct (take_digits s) as [d' r']. inversion H; subst. destruct (IH d' r eq_refl) as [-> Hf]. auto.
    + inversion H; subst. auto.
Qed.

(* the number read is a JSON number and a prefix of the input *)
Lemma pnum_spec s v r : pnum s = Some (v, r) -> s = v ++ r /\ json_number v.
Proof.
  unfold pnum. intros H.
  destruct (match eat 45 s with Some t => ([chr 45], t) | None => ([], s) end) as [sg s1] eqn:E0.
  assert (Hs : s = sg ++ s1 /\ (sg = [] \/ sg = B "-")).
  { destruct (eat 45 s) as [t|] eqn:E; inversion E0; subst; [|auto]. unfold eat in E. destruct s as [|c u]; [discriminate|].
    destruct (code c =? 45) eqn:E1; [|discriminate]. inversion E; subst. Nify_bool. split; [|right; reflexivity].
    cbn. f_equal. apply code_inj. rewrite E1. reflexivity. }
  destruct Hs as [-> Hsg].
  destruct (match s1 with
            | [] => None
            | c :: t => if code c =? 48 then Some ([c], t) else if is_digit c then Some (take_digits s1) else None
            end) as [[i s2]|] eqn:E1; [|discriminate].
  assert (Hi : s1 = i ++ s2 /\ (i = B "0" \/ (all_digits i /\ hd_error i <> Some (digit 0)))).
  { destruct s1 as [|c t]; [discriminate|]. destruct (code c =? 48) eqn:E2.
    - inversion E1; subst. Nify_bool. split; auto. left. unfold B. cbn. f_equal. apply code_inj. rewrite E2. reflexivity.
    - destruct (is_digit c) eqn:E3; [|discriminate].
      assert (E4 : take_digits (c :: t) = (i, s2)) by congruence. pose proof E4 as E5. clear E1.
      apply take_digits_spec in E5 as [E5 Hf]. rewrite E5. split; auto. right.
      cbn [take_digits] in E4. rewrite E3 in E4. destruct (take_digits t) as [d' r']. inversion E4; subst. split.
      + split; [discriminate|auto].
      + cbn. intros Hc. inversion Hc. subst c. Nify_bool. apply E2. reflexivity. }
  destruct Hi as [-> Hi].
  destruct (pfrac s2) as [[f s3]|] eqn:E2; [|discriminate].
  assert (Hf : s2 = f ++ s3 /\ (f = [] \/ exists d, f = B "." ++ d /\ all_digits d)).
  { unfold pfrac in E2. destruct (eat 46 s2) as [t|] eqn:E3; [|inversion E2; subst; auto].
    unfold eat in E3. destruct s2 as [|c u]; [discriminate|]. destruct (code c =? 46) eqn:E4; [|discriminate].
    inversion E3; subst. destruct (take_digits t) as [d r'] eqn:E5. apply take_digits_spec in E5 as [-> Hd].
    destruct d as [|x d]; [discriminate|]. inversion E2; subst. split.
    - cbn. f_equal. Nify_bool. apply code_inj. rewrite E4. reflexivity.
    - right. exists (x :: d). split; [reflexivity|]. split; [discriminate|auto]. }
  destruct Hf as [-> Hf].
  destruct (pexp s3) as [[e s4]|] eqn:E3; [|discriminate].
  assert (He : s3 = e ++ s4 /\ (e = [] \/ exists e' g d, e = e' ++ g ++ d /\ (e' = B "e" \/ e' = B "E") /\
       (g = [] \/ g = B "+" \/ g = B "-") /\ all_digits d)).
  { unfold pexp in E3. destruct s3 as [|c t]; [inversion E3; auto|].
    destruct ((code c =? 101) || (code c =? 69)) eqn:E4; [|inversion E3; subst; auto].
    destruct (match t with
              | g :: t' => if (code g =? 43) || (code g =? 45) then ([g], t') else ([], t)
              | [] => ([], t) end) as [g t1] eqn:E5.
    assert (Hg : t = g ++ t1 /\ (g = [] \/ g = B "+" \/ g = B "-")).
    { destruct t as [|x t']; [inversion E5; auto|]. destruct ((code x =? 43) || (code x =? 45)) eqn:E6.
      - inversion E5; subst. split; auto. right. Nify_bool. destruct E6 as [E6|E6]; [left|right]; unfold B; cbn; f_equal; apply code_inj; rewrite E6; reflexivity.
      - inversion E5; subst. auto. }
    destruct Hg as [-> Hg]. destruct (take_digits t1) as [d r'] eqn:E6. apply take_digits_spec in E6 as [-> Hd].
    destruct d as [|x d]; [discriminate|]. inversion E3; subst. split; [cbn [app]; now rewrite <- app_assoc|].
    right. exists [c], g, (x :: d). repeat split; auto; try discriminate.
    Nify_bool. destruct E4 as [E4|E4]; [left|right]; unfold B; cbn; f_equal; apply code_inj; rewrite E4; reflexivity. }
  destruct He as [-> He]. inversion H; subst. split; [now rewrite <- !app_assoc|].
  exists sg, i, f, e. auto.
Qed.

Lemma is_number_spec s : is_number s = true <-> json_number s.
Proof.
  unfold is_number. split.
  - intros H. destruct (pnum s) as [[v r]|] eqn:E; [|discriminate]. destruct r; [|discriminate].
    apply pnum_spec in E as [-> Hj]. now rewrite app_nil_r.
  - intros H. rewrite <- (app_nil_r s), pnum_ok by (auto; exact I). reflexivity.
Qed.

Lemma decz_number z : json_number (decz z).
Proof.
  assert (Hd : forall n, dec n = B "0" \/ (all_digits (dec n) /\ hd_error (dec n) <> Some (digit 0))).
  { intros n. pose proof (dec_digits n) as Hf. destruct (dec_head n) as (d & t & Hd & Hlt & H0). rewrite Hd in *.
    destruct (N.eq_dec d 0) as [->|Hne].
    - destruct (H0 eq_refl) as [_ ->]. left. reflexivity.
    - right. split; [split; [discriminate|auto]|]. cbn [hd_error]. intros H1.
      apply (f_equal (fun o => match o with Some c => code c | None => 0 end)) in H1. cbv beta iota in H1.
      rewrite !digit_code in H1 by lia. lia. }
  unfold decz. destruct (z <? 0)%Z.
  - exists (B "-"), (dec (Z.abs_N z)), [], []. rewrite !app_nil_r. repeat split; auto.
  - exists [], (dec (Z.abs_N z)), [], []. rewrite !app_nil_r. repeat split; auto.
Qed.
