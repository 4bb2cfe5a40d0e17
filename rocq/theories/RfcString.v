(* The strings the JSON parser takes. *)
From Coq Require Import Bool Ascii String Arith NArith ZArith Lia List.
From Verif Require Import Prelude PreludeFacts Utf8Model Utf8Facts QuoteModel QuoteFacts DecModel DecFacts DurModel DurProofs
  EncModel JsonModel JsonSpec JsonFacts JsonProofs JsonParse RfcSpec.
Import ListNotations.
Local Open Scope N_scope.

Lemma code_eq c n : n < 256 -> (code c =? n) = true -> c = chr n.
Proof. intros Hn H. apply N.eqb_eq in H. rewrite <- H. symmetry. apply chr_code. Qed.

Lemma hexdigit_val c n : hexdigit c n -> hexval c = Some n.
Proof.
  intros H. unfold hexdigit in H. cbn [combine list_ascii_of_string In] in H.
  repeat (destruct H as [E|H]; [injection E as <- <-; reflexivity|]). destruct H.
Qed.
Lemma hexval_digit c n : hexval c = Some n -> hexdigit c n.
Proof.
  intros H. unfold hexval, is_digit in H. rewrite <- (chr_code c). pose proof (code_lt c). set (k := code c) in *. clearbody k. clear c.
  assert (E : (exists m, m <= 9 /\ k = 48 + m /\ n = m) \/ (exists m, m <= 5 /\ k = 97 + m /\ n = 10 + m) \/ (exists m, m <= 5 /\ k = 65 + m /\ n = 10 + m)).
  { destruct ((48 <=? k) && (k <=? 57)) eqn:E1.
    - left. exists (k - 48). injection H as <-. Nify_bool. lia.
    - destruct ((97 <=? k) && (k <=? 102)) eqn:E2.
      + right; left. exists (k - 97). injection H as <-. Nify_bool. lia.
      + destruct ((65 <=? k) && (k <=? 70)) eqn:E3; [|discriminate]. right; right. exists (k - 65). injection H as <-. Nify_bool. lia. }
  assert (C9 : forall m, m <= 9 -> m = 0 \/ m = 1 \/ m = 2 \/ m = 3 \/ m = 4 \/ m = 5 \/ m = 6 \/ m = 7 \/ m = 8 \/ m = 9) by (intros; lia).
  unfold hexdigit. cbn [combine list_ascii_of_string In].
  destruct E as [(m & Hm & -> & ->)|[(m & Hm & -> & ->)|(m & Hm & -> & ->)]];
    (assert (Hm9 : m <= 9) by lia); destruct (C9 m Hm9) as [->|[->|[->|[->|[->|[->|[->|[->|[->| ->]]]]]]]]]; try lia;
    cbv; tauto.
Qed.

Lemma get4_hex4 s n t : get4 s = Some (n, t) <-> exists h, s = h ++ t /\ hex4 h n.
Proof.
  split.
  - destruct s as [|a [|b [|c [|d s]]]]; cbn [get4]; try discriminate.
    destruct (hexval a) as [w|] eqn:E1, (hexval b) as [x|] eqn:E2, (hexval c) as [y|] eqn:E3, (hexval d) as [z|] eqn:E4; try discriminate.
    intros H. injection H as <- <-. exists [a; b; c; d]. split; auto. exists a, b, c, d, w, x, y, z.
    repeat (split; auto using hexval_digit). lia.
  - intros (h & -> & a & b & c & d & w & x & y & z & -> & H1 & H2 & H3 & H4 & ->). cbn [app get4].
    rewrite (hexdigit_val _ _ H1), (hexdigit_val _ _ H2), (hexdigit_val _ _ H3), (hexdigit_val _ _ H4). do 2 f_equal. lia.
Qed.

Lemma hex4_lt h n : hex4 h n -> n < 0x10000.
Proof. intros H. apply (get4_lt (h ++ []) n []). apply get4_hex4. eauto. Qed.

(* ---- what is taken is in the grammar ---- *)
Lemma esc1_in e p : esc1 e = Some p -> exists n, p = [chr n] /\
  In ([backslash; e], n) [(B "\""", 34); (B "\\", 92); (B "\/", 47); (B "\b", 8); (B "\f", 12); (B "\n", 10); (B "\r", 13); (B "\t", 9)].
Proof.
  unfold esc1. intros H.
  destruct (code e =? 34) eqn:E1. { apply code_eq in E1; [|lia]. subst e. injection H as <-. exists 34. split; auto. cbn. auto. }
  destruct (code e =? 92) eqn:E2. { apply code_eq in E2; [|lia]. subst e. injection H as <-. exists 92. split; auto. cbn. auto. }
  destruct (code e =? 47) eqn:E3. { apply code_eq in E3; [|lia]. subst e. injection H as <-. exists 47. split; auto. cbn. auto. }
  cbn [orb] in H.
  destruct (code e =? 98) eqn:E4. { apply code_eq in E4; [|lia]. subst e. injection H as <-. exists 8. split; auto. cbn. tauto. }
  destruct (code e =? 102) eqn:E5. { apply code_eq in E5; [|lia]. subst e. injection H as <-. exists 12. split; auto. cbn. tauto. }
  destruct (code e =? 110) eqn:E6. { apply code_eq in E6; [|lia]. subst e. injection H as <-. exists 10. split; auto. cbn. tauto. }
  destruct (code e =? 114) eqn:E7. { apply code_eq in E7; [|lia]. subst e. injection H as <-. exists 13. split; auto. cbn. tauto. }
  destruct (code e =? 116) eqn:E8; [|discriminate]. apply code_eq in E8; [|lia]. subst e. injection H as <-. exists 9. split; auto. cbn. tauto.
Qed.

Lemma bytes_u : B "\u" = [chr 92; chr 117]. Proof. reflexivity. Qed.
Lemma dq_code : code dquote = 34. Proof. reflexivity. Qed.

(* a \u escape and what follows it up to the closing quote *)
Lemma punicode_sound u p w q r v : punicode u = Some (p, w) -> w = q ++ dquote :: r -> jstring q v ->
  exists q', u = q' ++ dquote :: r /\ jstring (B "\u" ++ q') (p ++ v).
Proof.
  unfold punicode. intros H Hw Hv. destruct (get4 u) as [[n u']|] eqn:E; [|discriminate].
  apply get4_hex4 in E as (h & -> & Hh).
  destruct ((0xD800 <=? n) && (n <? 0xE000)) eqn:Es.
  - assert (Hrep : Some (replacement, u') = Some (p, w) -> ~ (n < 0xDC00 /\ begins_low q) ->
      exists q', h ++ u' = q' ++ dquote :: r /\ jstring (B "\u" ++ q') (p ++ v)).
    { intros Hq Hb. injection Hq as <- ->. exists (h ++ q). rewrite Hw, app_assoc. split; auto. apply js_half with (n := n); auto. Nify_bool. lia. }
    assert (Hlow : begins_low q -> forall t, u' = q ++ t -> exists k x b c z, u' = b :: c :: z /\ (code b =? 92) && (code c =? 117) = true /\
      get4 z = Some (k, x) /\ 0xDC00 <= k < 0xE000).
    { intros (k & m & t & -> & Hk & Hm) t' ->. exists m, (t ++ t'), (chr 92), (chr 117), (k ++ t ++ t').
      rewrite bytes_u. cbn [app]. rewrite <- app_assoc. split; [reflexivity|split; [reflexivity|]]. split; auto. apply get4_hex4. eauto. }
    assert (Hno : (forall b c z, u' = b :: c :: z -> (code b =? 92) && (code c =? 117) = true -> forall k x, get4 z = Some (k, x) ->
        (n <? 0xDC00) && (0xDC00 <=? k) && (k <? 0xE000) = false) -> u' = w -> ~ (n < 0xDC00 /\ begins_low q)).
    { intros Hn -> [Hlt Hb]. destruct (Hlow Hb (dquote :: r) Hw) as (k & x & b & c & z & Hu & Hbc & Hg & Hk).
      specialize (Hn b c z Hu Hbc k x Hg). apply Bool.not_true_iff_false in Hn. apply Hn. Nify_bool. lia. }
    destruct u' as [|b [|c z]].
    + apply Hrep; auto. apply Hno; [|congruence]. discriminate.
    + apply Hrep; auto. apply Hno; [|congruence]. discriminate.
    + destruct ((code b =? 92) && (code c =? 117)) eqn:Ebc.
      * destruct (get4 z) as [[k x]|] eqn:Eg.
        -- destruct ((n <? 0xDC00) && (0xDC00 <=? k) && (k <? 0xE000)) eqn:Ec.
           ++ apply get4_hex4 in Eg as (hk & -> & Hhk). injection H as <- <-. apply andb_prop in Ebc as [Eb Ecc].
              apply code_eq in Eb; [|lia]. apply code_eq in Ecc; [|lia]. subst b c. exists (h ++ B "\u" ++ hk ++ q). split.
              ** rewrite Hw, <- !app_assoc, bytes_u. reflexivity.
              ** apply js_pair; auto; Nify_bool; lia.
           ++ apply Hrep; auto. apply Hno; [|congruence]. intros b' c' z' Hu _ k' x' Hg. injection Hu as <- <- <-. rewrite Eg in Hg. injection Hg as <- <-. exact Ec.
        -- apply Hrep; auto. apply Hno; [|congruence]. intros b' c' z' Hu _ k' x' Hg. injection Hu as <- <- <-. congruence.
      * apply Hrep; auto. apply Hno; [|congruence]. intros b' c' z' Hu Hb' k' x' Hg. injection Hu as <- <- <-. congruence.
  - injection H as <- ->. exists (h ++ q). rewrite Hw, app_assoc. split; auto. apply js_hex; auto. Nify_bool. lia.
Qed.

Lemma pstr_sound f : forall s v r, pstr f s = Some (v, r) -> exists q, s = q ++ dquote :: r /\ jstring q v.
Proof.
  induction f as [|f IH]; intros s v r H; [discriminate|]. cbn [pstr] in H. destruct s as [|c t]; [discriminate|].
  destruct (code c =? 34) eqn:E1. { injection H as <- <-. apply code_eq in E1; [|lia]. subst c. exists []. split; [reflexivity|constructor]. }
  destruct (code c =? 92) eqn:E2.
  { apply code_eq in E2; [|lia]. subst c. destruct t as [|e u]; [discriminate|]. destruct (code e =? 117) eqn:E3.
    - apply code_eq in E3; [|lia]. subst e. destruct (punicode u) as [[p w]|] eqn:E; [|discriminate].
      apply puts_some in H as (a & Ha & ->). apply IH in Ha as (q & Hq & Hj).
      destruct (punicode_sound _ _ _ _ _ _ E Hq Hj) as (q' & -> & Hj'). exists (B "\u" ++ q'). rewrite <- app_assoc, bytes_u in *. split; auto.
    - destruct (esc1 e) as [p|] eqn:E; [|discriminate]. apply puts_some in H as (a & Ha & ->). apply IH in Ha as (q & -> & Hj).
      apply esc1_in in E as (n & -> & Hn). exists ([backslash; e] ++ q). split; [reflexivity|]. now apply (js_esc [backslash; e] n). }
  destruct (code c <? 32) eqn:E3; [discriminate|].
  destruct (decode_rune (c :: t)) as [| |r0 w] eqn:E.
  - cbn [decode_rune] in E. exfalso. revert E.
    destruct (code c <? 128); [discriminate|]. destruct (code c <? 194); [discriminate|].
    destruct (code c <? 224). { destruct t as [|b1 t1]; [discriminate|]. destruct (second_ok _ b1); discriminate. }
    destruct (code c <? 240). { destruct t as [|b1 [|b2 t1]]; try discriminate. destruct (second_ok _ b1 && cont b2); discriminate. }
    destruct (code c <? 245); [|discriminate]. destruct t as [|b1 [|b2 [|b3 t1]]]; try discriminate.
    destruct (second_ok _ b1 && cont b2 && cont b3); discriminate.
  - apply puts_some in H as (a & Ha & ->). apply IH in Ha as (q & -> & Hj). exists (c :: q). split; auto.
    apply js_bad; auto. { now apply bad_high in E. }
    intros (r1 & t1 & Hv1 & Ht1). rewrite app_comm_cons, Ht1, <- app_assoc, decode_encode in E by auto. discriminate.
  - pose proof (decode_good _ _ _ E) as (Hv & Hw & Hs & Hp). apply puts_some in H as (a & Ha & ->).
    apply IH in Ha as (q & Hq & Hj). rewrite Hq in Hs. exists (encode_rune r0 ++ q). rewrite <- app_assoc. split; auto.
    assert (Hc : r0 < 128 -> code c = r0).
    { intros Hr. rewrite (encode_ascii r0 Hr) in Hs. injection Hs as -> _. apply code_chr. lia. }
    assert (Hge : r0 < 128 \/ 128 <= r0) by lia. Nify_bool.
    apply js_rune; auto; destruct Hge as [Hr|Hr]; try lia; specialize (Hc Hr); lia.
Qed.

(* ---- what is in the grammar is taken ---- *)
Lemma esc_esc1 c n : In (c, n) [(B "\""", 34); (B "\\", 92); (B "\/", 47); (B "\b", 8); (B "\f", 12); (B "\n", 10); (B "\r", 13); (B "\t", 9)] ->
  exists e, c = [backslash; e] /\ code e <> 117 /\ esc1 e = Some [chr n].
Proof.
  intros H. cbn [In] in H.
  repeat (destruct H as [E|H]; [injection E as <- <-; eexists; (split; [reflexivity|]); split; [vm_compute; discriminate|reflexivity]|]). destruct H.
Qed.

Lemma app_cases {A} (a b c d : list A) : a ++ b = c ++ d -> (exists x, a = c ++ x) \/ (exists x y, c = a ++ x :: y /\ b = (x :: y) ++ d).
Proof.
  revert c. induction a as [|h a IH]; intros c H.
  - cbn in H. destruct c as [|y c]; [left; exists []; reflexivity|right]. exists y, c. split; auto.
  - destruct c as [|y c]; [left; exists (h :: a); reflexivity|]. cbn in H. injection H as <- H.
    destruct (IH c H) as [(x & ->)|(x & z & -> & ->)]; [left; exists x; reflexivity|right; exists x, z; split; reflexivity].
Qed.

Lemma bad_stays c s rest : 128 <= code c -> ~ begins_rune (c :: s) -> decode_rune (c :: s ++ dquote :: rest) = RBad.
Proof.
  intros Hc Hb. destruct (decode_rune (c :: s ++ dquote :: rest)) as [| |r w] eqn:E; auto; exfalso.
  - cbn [decode_rune] in E. destruct (code c <? 128); [discriminate|]. destruct (code c <? 194); [discriminate|].
    destruct (s ++ dquote :: rest) as [|b1 [|b2 [|b3 t1]]]; destruct (code c <? 224), (code c <? 240), (code c <? 245); try discriminate;
      try (destruct (second_ok (code c) b1); discriminate); try (destruct (second_ok (code c) b1 && cont b2); discriminate);
      try (destruct (second_ok (code c) b1 && cont b2 && cont b3); discriminate).
  - apply decode_good in E as (Hv & Hw & Hs & _). set (X := skipn w _) in Hs. clearbody X.
    assert (Hr : 128 <= r).
    { destruct (N.lt_ge_cases r 128) as [Hl|]; auto. rewrite (encode_ascii r Hl) in Hs. injection Hs as -> _. rewrite code_chr in Hc; lia. }
    rewrite app_comm_cons in Hs. destruct (app_cases _ _ _ _ Hs) as [(x & Hx)|(x & y & Hx & Hy)].
    + apply Hb. exists r, x. auto.
    + pose proof (encode_high r Hr) as Hh. rewrite Hx in Hh. apply Forall_app in Hh as [_ Hh]. inversion Hh as [|? ? H1 _]; subst.
      injection Hy as <- _. rewrite dq_code in H1. lia.
Qed.

Lemma hex4_plain h n : hex4 h n -> Forall (fun c => code c <> 34) h /\ length h = 4%nat.
Proof.
  intros (a & b & c & d & w & x & y & z & -> & H1 & H2 & H3 & H4 & _). split; auto.
  assert (G : forall c n, hexdigit c n -> code c <> 34).
  { intros e k He Hc. apply hexdigit_val in He. unfold hexval, is_digit in He. rewrite Hc in He. discriminate. }
  repeat constructor; eauto.
Qed.

Lemma low_stays s rest : begins_low (s ++ dquote :: rest) -> begins_low s.
Proof.
  intros (h & n & t & Hs & Hh & Hn). rewrite app_assoc in Hs. destruct (app_cases _ _ _ _ Hs) as [(x & ->)|(x & y & Hx & Hy)].
  - exists h, n, x. rewrite <- app_assoc. auto.
  - exfalso. destruct (hex4_plain h n Hh) as [Hp _].
    assert (Hall : Forall (fun c => code c <> 34) (B "\u" ++ h)). { rewrite bytes_u. repeat constructor; auto; vm_compute; discriminate. }
    rewrite Hx in Hall. apply Forall_app in Hall as [_ Hall]. inversion Hall as [|? ? H1 _]; subst. injection Hy as <- _. apply H1. reflexivity.
Qed.

Lemma pstr_u_gen f u : pstr (S f) (B "\u" ++ u) = match punicode u with Some (p, v) => puts p (pstr f v) | None => None end.
Proof. reflexivity. Qed.

Lemma pstr_complete q v : jstring q v -> forall f rest, (length q < f)%nat -> pstr f (q ++ dquote :: rest) = Some (v, rest).
Proof.
  induction 1 as [|r s v Hv H1 H2 H3 Hs IH|c s v Hc Hb Hs IH|c n s v Hc Hs IH|h n s v Hh Hn Hs IH|h n k m s v Hh Hn Hk Hm Hs IH|h n s v Hh Hn Hb Hs IH];
    intros f rest Hf; (destruct f as [|f]; [lia|]).
  - reflexivity.
  - rewrite <- app_assoc, pstr_raw by auto. rewrite IH; [reflexivity|]. rewrite app_length in Hf. pose proof (encode_nonnil r). destruct (encode_rune r); [congruence|cbn in Hf; lia].
  - rewrite <- app_comm_cons. cbn [pstr]. rewrite (bad_stays c s rest Hc Hb).
    replace (code c =? 34) with false by (symmetry; apply N.eqb_neq; lia). replace (code c =? 92) with false by (symmetry; apply N.eqb_neq; lia).
    replace (code c <? 32) with false by (symmetry; apply N.ltb_ge; lia). rewrite IH by (cbn in Hf; lia). reflexivity.
  - destruct (esc_esc1 c n Hc) as (e & -> & He & He1). rewrite <- app_assoc. cbn [app]. rewrite (pstr_esc1 f e [chr n]) by auto.
    rewrite IH by (cbn in Hf; lia). reflexivity.
  - rewrite <- !app_assoc, pstr_u_gen. unfold punicode. rewrite (proj2 (get4_hex4 (h ++ s ++ dquote :: rest) n (s ++ dquote :: rest))) by eauto.
    replace ((0xD800 <=? n) && (n <? 0xE000)) with false. 2:{ symmetry. apply Bool.not_true_iff_false. Nify_bool. lia. }
    rewrite IH; [reflexivity|]. rewrite bytes_u, !app_length in Hf. cbn [length] in Hf. lia.
  - rewrite <- !app_assoc, pstr_u_gen. unfold punicode. rewrite (proj2 (get4_hex4 (h ++ B "\u" ++ k ++ s ++ dquote :: rest) n (B "\u" ++ k ++ s ++ dquote :: rest))) by eauto.
    replace ((0xD800 <=? n) && (n <? 0xE000)) with true. 2:{ symmetry. Nify_bool. lia. }
    rewrite bytes_u. cbn [app]. change ((code (chr 92) =? 92) && (code (chr 117) =? 117)) with true. cbv iota.
    rewrite (proj2 (get4_hex4 (k ++ s ++ dquote :: rest) m (s ++ dquote :: rest))) by eauto.
    replace ((n <? 0xDC00) && (0xDC00 <=? m) && (m <? 0xE000)) with true. 2:{ symmetry. Nify_bool. lia. }
    rewrite IH; [reflexivity|]. rewrite bytes_u, !app_length in Hf. cbn [length] in Hf. lia.
  - rewrite <- !app_assoc, pstr_u_gen. unfold punicode. rewrite (proj2 (get4_hex4 (h ++ s ++ dquote :: rest) n (s ++ dquote :: rest))) by eauto.
    replace ((0xD800 <=? n) && (n <? 0xE000)) with true. 2:{ symmetry. Nify_bool. lia. }
    assert (HI : puts replacement (pstr f (s ++ dquote :: rest)) = Some (encode_rune 0xFFFD ++ v, rest)).
    { rewrite IH; [reflexivity|]. rewrite bytes_u, !app_length in Hf. cbn [length] in Hf. lia. }
    destruct (s ++ dquote :: rest) as [|b [|c z]] eqn:Es; auto.
    destruct ((code b =? 92) && (code c =? 117)) eqn:Ebc; auto. destruct (get4 z) as [[k x]|] eqn:Eg; auto.
    destruct ((n <? 0xDC00) && (0xDC00 <=? k) && (k <? 0xE000)) eqn:Ec; auto. exfalso. apply Hb. Nify_bool. split; [lia|].
    apply get4_hex4 in Eg as (hk & -> & Hhk). apply (low_stays s rest). rewrite Es. exists hk, k, x.
    destruct Ebc as [Eb Ecc]. rewrite <- (chr_code b), <- (chr_code c), bytes_u. rewrite Eb, Ecc. repeat split; auto; lia.
Qed.

Lemma pstring_complete q v rest : jstring q v -> pstring (q ++ dquote :: rest) = Some (v, rest).
Proof. intros H. apply pstr_complete; auto. rewrite app_length. cbn. lia. Qed.
