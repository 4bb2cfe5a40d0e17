(* strconv.Quote can be undone, whatever follows: it is injective and prefix-free. *)
From Coq Require Import Bool Ascii String Arith NArith Lia List.
From Verif Require Import Prelude Utf8Model Utf8Facts QuoteModel.
Import ListNotations.
Local Open Scope N_scope.

Definition unhexdig (b : ascii) : N :=
  let c := code b in if c <? 58 then c - 48 else c - 87.

Fixpoint unhexs (l : bytes) (acc : N) : N :=
  match l with [] => acc | b :: t => unhexs t (acc * 16 + unhexdig b) end.

Lemma unhexdig_hexdig n : n < 16 -> unhexdig (hexdig n) = n.
Proof.
  intros H. unfold unhexdig, hexdig. destruct (n <? 10) eqn:E; Nify_bool; rewrite code_chr by lia.
  - replace (48 + n <? 58) with true by (symmetry; Nify_bool; lia). lia.
  - replace (87 + n <? 58) with false by (symmetry; Nify_bool; lia). lia.
Qed.

Lemma hexs_length k : forall n, length (hexs k n) = k.
Proof. induction k as [|k IH]; intros n; cbn; auto. rewrite app_length, IH. cbn. lia. Qed.

Lemma unhexs_app l1 l2 : forall acc, unhexs (l1 ++ l2) acc = unhexs l2 (unhexs l1 acc).
Proof. induction l1; intros acc; cbn; auto. Qed.

Lemma unhexs_hexs k : forall n acc, n < 16 ^ N.of_nat k -> unhexs (hexs k n) acc = acc * 16 ^ N.of_nat k + n.
Proof.
  induction k as [|k IH]; intros n acc Hn.
  - cbn in *. lia.
  - cbn [hexs]. rewrite unhexs_app. rewrite Nat2N.inj_succ, N.pow_succ_r' in *.
    assert (Hd : n = 16 * (n / 16) + n mod 16) by (apply N.div_mod; lia).
    assert (Hm : n mod 16 < 16) by (apply N.mod_lt; lia).
    rewrite IH by (apply N.div_lt_upper_bound; lia). cbn [unhexs]. rewrite unhexdig_hexdig by auto.
    set (q := n / 16) in *. set (m := n mod 16) in *. clearbody q m. subst n. lia.
Qed.

(* undo the body of a quoted string up to the closing quote *)
Fixpoint unq (s : bytes) : option (bytes * bytes) :=
  let put (p : bytes) (r : option (bytes * bytes)) :=
    match r with Some (a, b) => Some (p ++ a, b) | None => None end in
  match s with
  | [] => None
  | c :: t =>
      if (code c =? 34) then Some ([], t)
      else if (code c =? 92) then
        match t with
        | [] => None
        | e :: u =>
            if code e =? 120 then      (* x *)
              match u with
              | h1 :: h2 :: v => put [chr (unhexs [h1; h2] 0)] (unq v)
              | _ => None
              end
            else if code e =? 117 then (* u *)
              match u with
              | h1 :: h2 :: h3 :: h4 :: v => put (encode_rune (unhexs [h1; h2; h3; h4] 0)) (unq v)
              | _ => None
              end
            else if code e =? 85 then  (* U *)
              match u with
              | h1 :: h2 :: h3 :: h4 :: h5 :: h6 :: h7 :: h8 :: v =>
                  put (encode_rune (unhexs [h1; h2; h3; h4; h5; h6; h7; h8] 0)) (unq v)
              | _ => None
              end
            else if code e =? 97 then put [chr 7] (unq u)
            else if code e =? 98 then put [chr 8] (unq u)
            else if code e =? 102 then put [chr 12] (unq u)
            else if code e =? 110 then put [chr 10] (unq u)
            else if code e =? 114 then put [chr 13] (unq u)
            else if code e =? 116 then put [chr 9] (unq u)
            else if code e =? 118 then put [chr 11] (unq u)
            else put [e] (unq u)
        end
      else put [c] (unq t)
  end.

Definition putb (p : bytes) (r : option (bytes * bytes)) :=
  match r with Some (a, b) => Some (p ++ a, b) | None => None end.

Lemma putb_app p q r : putb p (putb q r) = putb (p ++ q) r.
Proof. destruct r as [[a b]|]; cbn; auto. now rewrite app_assoc. Qed.

(* raw bytes other than quote and backslash are copied *)
Lemma unq_raw l t : Forall (fun b => code b <> 34 /\ code b <> 92) l -> unq (l ++ t) = putb l (unq t).
Proof.
  induction 1 as [|b l [H1 H2] Hf IH].
  - cbn. destruct (unq t) as [[a b]|]; reflexivity.
  - cbn [app unq]. apply N.eqb_neq in H1, H2. rewrite H1, H2.
    change (putb [b] (unq (l ++ t)) = putb (b :: l) (unq t)).
    rewrite IH, putb_app. reflexivity.
Qed.

Lemma hexs2_ex n : exists a b, hexs 2 n = [a; b].
Proof. cbn. eauto. Qed.
Lemma hexs4_ex n : exists a b c d, hexs 4 n = [a; b; c; d].
Proof. cbn. eauto 10. Qed.
Lemma hexs8_ex n : exists a b c d e f g h, hexs 8 n = [a; b; c; d; e; f; g; h].
Proof. cbn. eauto 20. Qed.

(* one escape *)
Lemma unq_esc e u : unq (backslash :: e :: u) =
  if code e =? 120 then
    match u with h1 :: h2 :: v => putb [chr (unhexs [h1; h2] 0)] (unq v) | _ => None end
  else if code e =? 117 then
    match u with
    | h1 :: h2 :: h3 :: h4 :: v => putb (encode_rune (unhexs [h1; h2; h3; h4] 0)) (unq v)
    | _ => None
    end
  else if code e =? 85 then
    match u with
    | h1 :: h2 :: h3 :: h4 :: h5 :: h6 :: h7 :: h8 :: v =>
        putb (encode_rune (unhexs [h1; h2; h3; h4; h5; h6; h7; h8] 0)) (unq v)
    | _ => None
    end
  else if code e =? 97 then putb [chr 7] (unq u)
  else if code e =? 98 then putb [chr 8] (unq u)
  else if code e =? 102 then putb [chr 12] (unq u)
  else if code e =? 110 then putb [chr 10] (unq u)
  else if code e =? 114 then putb [chr 13] (unq u)
  else if code e =? 116 then putb [chr 9] (unq u)
  else if code e =? 118 then putb [chr 11] (unq u)
  else putb [e] (unq u).
Proof. reflexivity. Qed.

Section P.
  Context (isprint : N -> bool).

  Lemma unq_x n t : n < 256 -> unq (B "\x" ++ hexs 2 n ++ t) = putb [chr n] (unq t).
  Proof.
    intros Hn. destruct (hexs2_ex n) as (a & b & Hx). pose proof (unhexs_hexs 2 n 0 ltac:(cbn; lia)) as Hu.
    rewrite Hx in *. change (B "\x") with [backslash; chr 120]. cbn [app]. rewrite unq_esc.
    change (code (chr 120) =? 120) with true. cbv iota. rewrite Hu. reflexivity.
  Qed.
  Lemma unq_u n t : n < 0x10000 -> unq (B "\u" ++ hexs 4 n ++ t) = putb (encode_rune n) (unq t).
  Proof.
    intros Hn. destruct (hexs4_ex n) as (a & b & c & d & Hx). pose proof (unhexs_hexs 4 n 0 ltac:(cbn; lia)) as Hu.
    rewrite Hx in *. change (B "\u") with [backslash; chr 117]. cbn [app]. rewrite unq_esc.
    change (code (chr 117) =? 120) with false. change (code (chr 117) =? 117) with true. cbv iota.
    rewrite Hu. reflexivity.
  Qed.
  Lemma unq_U n t : n < 0x100000000 -> unq (B "\U" ++ hexs 8 n ++ t) = putb (encode_rune n) (unq t).
  Proof.
    intros Hn. destruct (hexs8_ex n) as (a & b & c & d & e & f & g & h & Hx).
    pose proof (unhexs_hexs 8 n 0 ltac:(cbn; lia)) as Hu.
    rewrite Hx in *. change (B "\U") with [backslash; chr 85]. cbn [app]. rewrite unq_esc.
    change (code (chr 85) =? 120) with false. change (code (chr 85) =? 117) with false.
    change (code (chr 85) =? 85) with true. cbv iota. rewrite Hu. reflexivity.
  Qed.

  Lemma unq_item i t : (match i with IRune r => valid_rune r = true | IBad _ => True end) ->
    unq (esc_item isprint i ++ t) = putb (item_bytes i) (unq t).
  Proof.
    destruct i as [r|b]; cbn [esc_item item_bytes]; intros Hv.
    2: { rewrite <- app_assoc, unq_x by apply code_lt. now rewrite chr_code. }
    unfold esc_rune. destruct ((r =? 34) || (r =? 92)) eqn:E0.
    { Nify_bool. rewrite encode_ascii by lia. destruct E0 as [-> | ->]; reflexivity. }
    Nify_bool.
    destruct (isprint r).
    { apply unq_raw. destruct (N.lt_ge_cases r 0x80) as [H|H].
      - rewrite encode_ascii by auto. constructor; [|constructor]. rewrite code_chr by lia. lia.
      - eapply Forall_impl; [|apply encode_high; exact H]. cbn. intros b Hb. lia. }
    assert (Hsimple : forall n e, r = n -> n < 0x80 ->
      (forall t, unq (e ++ t) = putb [chr n] (unq t)) -> unq (e ++ t) = putb (encode_rune r) (unq t)).
    { intros n e -> Hn He. rewrite encode_ascii by auto. apply He. }
    destruct (r =? 7) eqn:E1; [Nify_bool; apply (Hsimple 7); [assumption|lia|reflexivity]|].
    destruct (r =? 8) eqn:E2; [Nify_bool; apply (Hsimple 8); [assumption|lia|reflexivity]|].
    destruct (r =? 12) eqn:E3; [Nify_bool; apply (Hsimple 12); [assumption|lia|reflexivity]|].
    destruct (r =? 10) eqn:E4; [Nify_bool; apply (Hsimple 10); [assumption|lia|reflexivity]|].
    destruct (r =? 13) eqn:E5; [Nify_bool; apply (Hsimple 13); [assumption|lia|reflexivity]|].
    destruct (r =? 9) eqn:E6; [Nify_bool; apply (Hsimple 9); [assumption|lia|reflexivity]|].
    destruct (r =? 11) eqn:E7; [Nify_bool; apply (Hsimple 11); [assumption|lia|reflexivity]|].
    destruct ((r <? 32) || (r =? 127)) eqn:E8.
    { Nify_bool. rewrite <- app_assoc, unq_x by lia. rewrite encode_ascii by lia. reflexivity. }
    destruct (r <? 0x10000) eqn:E9; Nify_bool.
    - rewrite <- app_assoc. apply unq_u. auto.
    - rewrite <- app_assoc. apply unq_U. unfold valid_rune in Hv. Nify_bool. lia.
  Qed.

  Lemma unq_items l t : Forall (fun i => match i with IRune r => valid_rune r = true | IBad _ => True end) l ->
    unq (concat (map (esc_item isprint) l) ++ t) = putb (concat (map item_bytes l)) (unq t).
  Proof.
    induction 1 as [|i l Hi Hf IH].
    - cbn. destruct (unq t) as [[a b]|]; reflexivity.
    - cbn [map concat]. rewrite <- app_assoc, unq_item by auto. rewrite IH, putb_app. reflexivity.
  Qed.

  Lemma unq_quote s t : exists q, quote isprint s = dquote :: q /\ unq (q ++ t) = Some (s, t).
  Proof.
    unfold quote. eexists. split; [reflexivity|].
    rewrite <- app_assoc, unq_items by apply runes_valid. rewrite runes_concat. cbn. now rewrite app_nil_r.
  Qed.

  Lemma quote_prefix s1 s2 t1 t2 : quote isprint s1 ++ t1 = quote isprint s2 ++ t2 -> s1 = s2 /\ t1 = t2.
  Proof.
    intros H. destruct (unq_quote s1 t1) as (q1 & Hq1 & H1). destruct (unq_quote s2 t2) as (q2 & Hq2 & H2).
    rewrite Hq1, Hq2 in H. cbn in H. inversion H. rewrite H3 in H1. rewrite H1 in H2. now inversion H2.
  Qed.
  Lemma quote_inj s1 s2 : quote isprint s1 = quote isprint s2 -> s1 = s2.
  Proof.
    intros H. destruct (quote_prefix s1 s2 [] []) as [H1 _]; auto. now rewrite !app_nil_r.
  Qed.
End P.
