(* What the JSON parser returns. *)
From Coq Require Import Bool Ascii String Arith NArith ZArith Lia List Permutation.
From Verif Require Import Prelude PreludeFacts Utf8Model Utf8Facts QuoteModel QuoteFacts DecModel DecFacts DurModel DurSpec DurProofs
  EncModel EncFacts KvSpec KvProofs JsonModel JsonSpec JsonFacts JsonProofs.
Import ListNotations.
Local Open Scope N_scope.

Lemma maxdepth_n : N.of_nat maxdepth = 10000. Proof. unfold maxdepth. apply N2Nat.id. Qed.
Lemma maxdepth_le n : (n <= maxdepth)%nat <-> N.of_nat n <= 10000.
Proof. rewrite <- maxdepth_n. lia. Qed.
Local Opaque maxdepth.
Lemma ws_length s : (length (ws s) <= length s)%nat.
Proof. induction s as [|c s IH]; cbn; auto. destruct (is_space c); cbn; lia. Qed.
Lemma eat_length n s t : eat n s = Some t -> S (length t) = length s.
Proof. destruct s as [|c s]; cbn; [discriminate|]. destruct (code c =? n); [|discriminate]. intros H. inversion H. reflexivity. Qed.
Lemma strip_length w : forall s t, strip w s = Some t -> (length t <= length s)%nat.
Proof.
  induction w as [|x w IH]; intros s t H; cbn in H.
  - inversion H. auto.
  - destruct s as [|y s]; [discriminate|]. destruct (code x =? code y); [|discriminate]. apply IH in H. cbn. lia.
Qed.
Lemma get4_length s n t : get4 s = Some (n, t) -> (length t < length s)%nat.
Proof.
  destruct s as [|a [|b [|c [|d s]]]]; cbn [get4]; try discriminate.
  destruct (hexval a), (hexval b), (hexval c), (hexval d); try discriminate. intros H. inversion H. cbn. lia.
Qed.
Lemma hexval_lt c x : hexval c = Some x -> x < 16.
Proof.
  unfold hexval, is_digit. destruct ((48 <=? code c) && (code c <=? 57)) eqn:E1; [|destruct ((97 <=? code c) && (code c <=? 102)) eqn:E2;
    [|destruct ((65 <=? code c) && (code c <=? 70)) eqn:E3; [|discriminate]]]; intros H; inversion H; Nify_bool; lia.
Qed.
Lemma get4_lt s n t : get4 s = Some (n, t) -> n < 0x10000.
Proof.
  destruct s as [|a [|b [|c [|d s]]]]; cbn [get4]; try discriminate.
  destruct (hexval a) eqn:E1, (hexval b) eqn:E2, (hexval c) eqn:E3, (hexval d) eqn:E4; try discriminate. intros H.
  apply hexval_lt in E1, E2, E3, E4. inversion H. lia.
Qed.
Lemma encode_valid r : valid_rune r = true -> valid_utf8 (encode_rune r) = true.
Proof. intros H. rewrite <- (app_nil_r (encode_rune r)). unfold valid_utf8. rewrite runes_encode; auto. Qed.
Lemma replacement_valid : valid_utf8 replacement = true. Proof. reflexivity. Qed.

Lemma punicode_spec s p t : punicode s = Some (p, t) -> valid_utf8 p = true /\ (length t < length s)%nat.
Proof.
  unfold punicode. destruct (get4 s) as [[r u]|] eqn:E; [|discriminate]. pose proof (get4_length _ _ _ E). pose proof (get4_lt _ _ _ E).
  assert (Hrep : forall q v, Some (replacement, u) = Some (q, v) -> valid_utf8 q = true /\ (length v < length s)%nat).
  { intros q v Hq. inversion Hq; subst. split; auto. }
  destruct ((0xD800 <=? r) && (r <? 0xE000)) eqn:Es.
  - destruct u as [|b [|v w]]; [now apply Hrep|now apply Hrep|]. destruct ((code b =? 92) && (code v =? 117)); [|now apply Hrep].
    destruct (get4 w) as [[r1 x]|] eqn:E1; [|now apply Hrep].
    destruct ((r <? 0xDC00) && (0xDC00 <=? r1) && (r1 <? 0xE000)) eqn:Ec; [|now apply Hrep].
    intros Hq. inversion Hq; subst. apply get4_length in E1. cbn [length] in *. split; [|lia].
    apply encode_valid. unfold valid_rune. Nify_bool. lia.
  - intros Hq. inversion Hq; subst. split; auto. apply encode_valid. unfold valid_rune. Nify_bool. lia.
Qed.
Lemma esc1_valid e p : esc1 e = Some p -> valid_utf8 p = true.
Proof.
  unfold esc1. destruct ((code e =? 34) || (code e =? 92) || (code e =? 47)) eqn:E.
  { intros H. inversion H. apply valid_ascii. constructor; auto. Nify_bool. lia. }
  destruct (code e =? 98); [|destruct (code e =? 102); [|destruct (code e =? 110); [|destruct (code e =? 114); [|destruct (code e =? 116)]]]];
    intros H; inversion H; reflexivity.
Qed.
Lemma puts_some p o v r : puts p o = Some (v, r) -> exists a, o = Some (a, r) /\ v = p ++ a.
Proof. destruct o as [[a t]|]; cbn; [|discriminate]. intros H. inversion H. eauto. Qed.

Lemma pstr_spec f : forall s v r, pstr f s = Some (v, r) -> valid_utf8 v = true /\ (length r < length s)%nat.
Proof.
  induction f as [|f IH]; intros s v r H; [discriminate|]. cbn [pstr] in H. destruct s as [|c t]; [discriminate|].
  destruct (code c =? 34). { inversion H; subst. split; auto. }
  destruct (code c =? 92).
  { destruct t as [|e u]; [discriminate|]. destruct (code e =? 117).
    - destruct (punicode u) as [[p w]|] eqn:E; [|discriminate]. apply punicode_spec in E as [Hp Hl].
      apply puts_some in H as (a & Ha & ->). apply IH in Ha as [Ha1 Ha2]. split; [now apply valid_app|]. cbn. lia.
    - destruct (esc1 e) as [p|] eqn:E; [|discriminate]. apply esc1_valid in E.
      apply puts_some in H as (a & Ha & ->). apply IH in Ha as [Ha1 Ha2]. split; [now apply valid_app|]. cbn. lia. }
  destruct (code c <? 32); [discriminate|].
  destruct (decode_rune (c :: t)) as [| |r0 w] eqn:E.
  - apply puts_some in H as (a & Ha & ->). apply IH in Ha as [Ha1 Ha2]. split; [now apply valid_app|]. cbn. lia.
  - apply puts_some in H as (a & Ha & ->). apply IH in Ha as [Ha1 Ha2]. split; [now apply valid_app|]. cbn. lia.
  - apply puts_some in H as (a & Ha & ->). apply IH in Ha as [Ha1 Ha2].
    pose proof (decode_good _ _ _ E) as (Hv & Hw & _ & Hp).
    split; [apply valid_app; auto; now apply encode_valid|]. rewrite skipn_length in Ha2. lia.
Qed.
Lemma pstring_spec s v r : pstring s = Some (v, r) -> valid_utf8 v = true /\ (length r < length s)%nat.
Proof. apply pstr_spec. Qed.

(* ---- every value returned is a good node within the depth limit, and bytes are consumed ---- *)
Definition okv (d : nat) (v : jval) : Prop := good_node (fromNative v) /\ (d + ndepth (fromNative v) <= maxdepth)%nat.
Definition okm (d : nat) (l : list (bytes * jval)) : Prop :=
  NoDup (map fst l) /\ Forall (fun e => valid_utf8 (fst e) = true /\ okv d (snd e)) l.

Lemma okm_mset d l k v : okm d l -> valid_utf8 k = true -> okv d v -> okm d (mset beqb l k v).
Proof.
  intros [Hn Hf] Hk Hv. split; [now apply (mset_nodup beqb beqb_ok)|].
  clear Hn. induction Hf as [|[k' v'] l [H1 H2] Hf IH]; cbn [mset].
  - repeat constructor; auto; apply Hv.
  - destruct (beqb k k'); constructor; auto.
Qed.
Lemma okm_obj d l : okm (S d) l -> (S d <= maxdepth)%nat -> okv d (JObj l).
Proof.
  intros [Hn Hf] Hd. split; cbn [fromNative good_node ndepth].
  - split.
    + rewrite map_map. exact Hn.
    + clear Hn. induction Hf as [|e l [H1 [H2 _]] Hf IH]; cbn; auto.
  - clear Hn. rewrite Nat.add_succ_r. change (S (d + ?x)) with (S d + x)%nat.
    induction Hf as [|e l [H1 [_ H2]] Hf IH]; cbn [map fold_right]; [lia|]. cbn [snd]. lia.
Qed.
Lemma okl_arr d l : Forall (okv (S d)) l -> (S d <= maxdepth)%nat -> okv d (JArr l).
Proof.
  intros Hf Hd. split; cbn [fromNative good_node ndepth].
  - induction Hf as [|e l [H1 _] Hf IH]; cbn; auto.
  - rewrite Nat.add_succ_r. induction Hf as [|e l [_ H2] Hf IH]; cbn [map fold_right]; [lia|]. lia.
Qed.

Lemma parse_spec f : forall d s v r,
  ((d <= maxdepth)%nat -> pvalue f d s = Some (v, r) -> okv d v /\ (length r < length s)%nat) /\
  (forall acc, (S d <= maxdepth)%nat -> okm (S d) acc -> pmembers f (S d) acc s = Some (v, r) -> okv d v /\ (length r < length s)%nat) /\
  (forall acc, (S d <= maxdepth)%nat -> Forall (okv (S d)) acc -> pelems f (S d) acc s = Some (v, r) -> okv d v /\ (length r < length s)%nat).
Proof.
  induction f as [|f IH]; intros d s v r; (split; [|split]); try discriminate.
  - intros Hd H. cbn [pvalue] in H. pose proof (ws_length s) as Hw. destruct (ws s) as [|c t] eqn:Ews; [discriminate|]. cbn [length] in Hw.
    destruct (code c =? 123).
    { destruct (maxdepth <=? d)%nat eqn:Em; [discriminate|]. apply Nat.leb_gt in Em. pose proof (ws_length t).
      destruct (eat 125 (ws t)) as [r1|] eqn:Ee.
      - injection H as <- <-. apply eat_length in Ee. split; [|lia]. split; cbn; [repeat constructor|lia].
      - apply (IH d t v r) in H; [|lia|split; constructor]. split; [tauto|lia]. }
    destruct (code c =? 91).
    { destruct (maxdepth <=? d)%nat eqn:Em; [discriminate|]. apply Nat.leb_gt in Em. pose proof (ws_length t).
      destruct (eat 93 (ws t)) as [r1|] eqn:Ee.
      - injection H as <- <-. apply eat_length in Ee. split; [|lia]. split; cbn; [exact I|lia].
      - apply (IH d t v r) in H; [|lia|constructor]. split; [tauto|lia]. }
    destruct (code c =? 34).
    { destruct (pstring t) as [[x r1]|] eqn:E; [|discriminate]. injection H as <- <-. apply pstring_spec in E as [E1 E2].
      split; [|lia]. split; cbn; [exact E1|lia]. }
    destruct (code c =? 116).
    { destruct (strip (B "rue") t) as [r1|] eqn:E; [|discriminate]. injection H as <- <-. apply strip_length in E.
      split; [|lia]. split; cbn; [exact I|lia]. }
    destruct (code c =? 102).
    { destruct (strip (B "alse") t) as [r1|] eqn:E; [|discriminate]. injection H as <- <-. apply strip_length in E.
      split; [|lia]. split; cbn; [exact I|lia]. }
    destruct (code c =? 110).
    { destruct (strip (B "ull") t) as [r1|] eqn:E; [|discriminate]. injection H as <- <-. apply strip_length in E.
      split; [|lia]. split; cbn; [exact I|lia]. }
    destruct (pnum (c :: t)) as [[x r1]|] eqn:E; [|discriminate]. injection H as <- <-. apply pnum_spec in E as [E1 E2].
    assert (Hx : (1 <= length x)%nat). { destruct (number_head x E2) as (? & ? & -> & _). cbn. lia. }
    apply (f_equal (@length _)) in E1. rewrite app_length in E1. cbn [length] in E1.
    split; [|unfold bytes in *; lia]. split; cbn; [exact E2|lia].
  - intros acc Hd Ha H. cbn [pmembers] in H. pose proof (ws_length s) as Hw.
    destruct (eat 34 (ws s)) as [t|] eqn:E1; [|discriminate]. apply eat_length in E1.
    destruct (pstring t) as [[k r0]|] eqn:E2; [|discriminate]. apply pstring_spec in E2 as [E2 E2l].
    pose proof (ws_length r0). destruct (eat 58 (ws r0)) as [r1|] eqn:E3; [|discriminate]. apply eat_length in E3.
    destruct (pvalue f (S d) r1) as [[x r2]|] eqn:E4; [|discriminate]. apply IH in E4 as [E4 E4l]; [|lia].
    pose proof (ws_length r2). destruct (ws r2) as [|c r3] eqn:E5; [discriminate|]. cbn [length] in *.
    destruct (code c =? 44).
    { apply (IH d r3 v r) in H; [|lia|now apply okm_mset]. split; [tauto|lia]. }
    destruct (code c =? 125); [|discriminate]. injection H as <- <-. split; [|lia].
    apply okm_obj; auto. now apply okm_mset.
  - intros acc Hd Ha H. cbn [pelems] in H.
    destruct (pvalue f (S d) s) as [[x r1]|] eqn:E1; [|discriminate]. apply IH in E1 as [E1 E1l]; [|lia].
    pose proof (ws_length r1). destruct (ws r1) as [|c r2] eqn:E5; [discriminate|]. cbn [length] in *.
    assert (Hf : Forall (okv (S d)) (acc ++ [x])). { apply Forall_app. split; auto. }
    destruct (code c =? 44).
    { apply (IH d r2 v r) in H; [|lia|exact Hf]. split; [tauto|lia]. }
    destruct (code c =? 93); [|discriminate]. injection H as <- <-. split; [|lia]. now apply okl_arr.
Qed.

Lemma decode_good_node j n : Decode j = Good (Some n) -> good_node n /\ (N.of_nat (ndepth n) <= 10000)%N.
Proof.
  unfold Decode. destruct j as [|c j]; [discriminate|]. destruct (pvalue _ 0 (c :: j)) as [[v r]|] eqn:E; [|discriminate].
  intros H. injection H as <-. destruct (parse_spec (2 * length (c :: j) + 2)%nat 0%nat (c :: j) v r) as [Hp _].
  destruct Hp as [[H1 H2] _]; auto; [lia|]. split; auto. now apply maxdepth_le.
Qed.

Lemma pvalue_len f d s v r : (maxdepth < d)%nat -> pvalue f d s = Some (v, r) -> (length r < length s)%nat.
Proof.
  intros Hd H. destruct f as [|f]; [discriminate|]. cbn [pvalue] in H. pose proof (ws_length s) as Hw.
  destruct (ws s) as [|c t] eqn:Ews; [discriminate|]. cbn [length] in Hw.
  destruct (Nat.leb_spec maxdepth d) as [Hm|Hm]; [|lia].
  destruct (code c =? 123); [discriminate|]. destruct (code c =? 91); [discriminate|].
  destruct (code c =? 34).
  { destruct (pstring t) as [[x r1]|] eqn:E; [|discriminate]. injection H as <- <-. apply pstring_spec in E as [E1 E2]. lia. }
  destruct (code c =? 116).
  { destruct (strip (B "rue") t) as [r1|] eqn:E; [|discriminate]. injection H as <- <-. apply strip_length in E. lia. }
  destruct (code c =? 102).
  { destruct (strip (B "alse") t) as [r1|] eqn:E; [|discriminate]. injection H as <- <-. apply strip_length in E. lia. }
  destruct (code c =? 110).
  { destruct (strip (B "ull") t) as [r1|] eqn:E; [|discriminate]. injection H as <- <-. apply strip_length in E. lia. }
  destruct (pnum (c :: t)) as [[x r1]|] eqn:E; [|discriminate]. injection H as <- <-. apply pnum_spec in E as [E1 E2].
  assert (Hx : (1 <= length x)%nat). { destruct (number_head x E2) as (? & ? & -> & _). cbn. lia. }
  apply (f_equal (@length _)) in E1. rewrite app_length in E1. cbn [length] in E1. unfold bytes in *; lia.
Qed.

(* ---- more fuel changes nothing ---- *)
Lemma parse_fuel f : forall g d s,
  ((2 * length s + 2 <= f)%nat -> (2 * length s + 2 <= g)%nat -> pvalue f d s = pvalue g d s) /\
  (forall acc, (2 * length s + 1 <= f)%nat -> (2 * length s + 1 <= g)%nat -> pmembers f d acc s = pmembers g d acc s) /\
  (forall acc, (2 * length s + 3 <= f)%nat -> (2 * length s + 3 <= g)%nat -> pelems f d acc s = pelems g d acc s).
Proof.
  induction f as [|f IH]; intros g d s; (split; [|split]); try lia.
  - intros Hf Hg. destruct g as [|g]; [lia|]. cbn [pvalue]. pose proof (ws_length s) as Hw. destruct (ws s) as [|c t]; auto. cbn [length] in Hw.
    destruct (code c =? 123).
    { destruct (maxdepth <=? d)%nat; auto. destruct (eat 125 (ws t)); auto. apply IH; lia. }
    destruct (code c =? 91).
    { destruct (maxdepth <=? d)%nat; auto. destruct (eat 93 (ws t)); auto. apply IH; lia. }
    reflexivity.
  - intros acc Hf Hg. destruct g as [|g]; [lia|]. cbn [pmembers]. pose proof (ws_length s) as Hw.
    destruct (eat 34 (ws s)) as [t|] eqn:E1; auto. apply eat_length in E1.
    destruct (pstring t) as [[k r0]|] eqn:E2; auto. apply pstring_spec in E2 as [_ E2].
    pose proof (ws_length r0). destruct (eat 58 (ws r0)) as [r1|] eqn:E3; auto. apply eat_length in E3.
    rewrite (proj1 (IH g d r1)) by (unfold bytes in *; lia). destruct (pvalue g d r1) as [[x r2]|] eqn:E4; auto.
    assert (Hl : (length r2 < length r1)%nat).
    { destruct (le_lt_dec d maxdepth) as [Hd|Hd]; [now apply (parse_spec g d r1 x r2) in E4|].
      now apply (pvalue_len g d r1 x r2). }
    pose proof (ws_length r2). destruct (ws r2) as [|c r3] eqn:E5; auto. cbn [length] in *.
    destruct (code c =? 44); auto. apply IH; lia.
  - intros acc Hf Hg. destruct g as [|g]; [lia|]. cbn [pelems].
    rewrite (proj1 (IH g d s)) by (unfold bytes in *; lia). destruct (pvalue g d s) as [[x r2]|] eqn:E4; auto.
    assert (Hl : (length r2 < length s)%nat).
    { destruct (le_lt_dec d maxdepth) as [Hd|Hd]; [now apply (parse_spec g d s x r2) in E4|].
      now apply (pvalue_len g d s x r2). }
    pose proof (ws_length r2). destruct (ws r2) as [|c r3] eqn:E5; auto. cbn [length] in *.
    destruct (code c =? 44); auto. apply IH; lia.
Qed.

(* ---- what is read can be written and read again ---- *)
Lemma forall2_reorder_list l m : Forall2 reorder l m -> reorder (NList l) (NList m). Proof. apply ro_list. Qed.

Section JvalInd.
  Variable P : jval -> Prop.
  Hypothesis H1 : P JNull.
  Hypothesis H2 : forall b, P (JBool b).
  Hypothesis H3 : forall s, P (JNum s).
  Hypothesis H4 : forall s, P (JStr s).
  Hypothesis H5 : forall l, Forall P l -> P (JArr l).
  Hypothesis H6 : forall l, Forall (fun e => P (snd e)) l -> P (JObj l).
  Fixpoint jval_ind2 (v : jval) : P v :=
    match v with
    | JNull => H1
    | JBool b => H2 b
    | JNum s => H3 s
    | JStr s => H4 s
    | JArr l => H5 l ((fix go l := match l return Forall P l with
                                  | [] => Forall_nil _
                                  | x :: t => Forall_cons x (jval_ind2 x) (go t)
                                  end) l)
    | JObj l => H6 l ((fix go l := match l return Forall (fun e => P (snd e)) l with
                                  | [] => Forall_nil _
                                  | x :: t => Forall_cons x (jval_ind2 (snd x)) (go t)
                                  end) l)
    end.
End JvalInd.

Lemma reads_same v : forall m, reads_as (fromNative v) m -> reorder (fromNative v) m.
Proof.
  induction v as [| | | |l Hl|l Hl] using jval_ind2; intros m Hm; cbn [fromNative] in *.
  - inversion Hm; constructor.
  - inversion Hm; constructor.
  - inversion Hm; constructor.
  - inversion Hm; constructor.
  - inversion Hm as [| | | | | | | |? l' Hf| |]; subst. constructor. clear Hm.
    revert l' Hf. induction Hl as [|x l Hx Hl IH]; intros l' Hf; cbn [map] in Hf; inversion Hf; subst; constructor; auto.
  - inversion Hm as [| | | | | | | | |? p l' Hp Hf|]; subst. apply (ro_map _ p l' Hp). clear Hm.
    assert (Hall : Forall (fun e : bytes * node => forall m, reads_as (snd e) m -> reorder (snd e) m) p).
    { rewrite <- Hp. clear -Hl. induction Hl; cbn [map]; constructor; auto. }
    clear -Hall Hf. induction Hf as [|a b p l' [H1 H2] Hf IH]; constructor; inversion Hall; subst; auto.
Qed.

Lemma good_distinct n : good_node n -> distinct_keys n.
Proof.
  induction n as [| | | | | | | |l Hl|l Hl|l Hl] using node_ind2; cbn; auto.
  - induction Hl as [|x l Hx Hl IH]; cbn; auto. intros [H1 H2]. auto.
  - intros [Hn Hg]. split; auto. clear Hn. induction Hl as [|x l Hx Hl IH]; cbn in *; auto. destruct Hg as (H1 & H2 & H3). auto.
  - induction Hl as [|x l Hx Hl IH]; cbn in *; auto. intros (H1 & H2 & H3). auto.
Qed.

Lemma decode_stable short ind j n : Decode j = Good (Some n) ->
  exists j' m, Encode short ind n = Ok j' /\ Decode j' = Good (Some m) /\ reorder n m /\ Encode short ind m = Ok j'.
Proof.
  intros H. destruct (decode_good_node _ _ H) as [Hg Hd].
  destruct (encode_decode short ind n Hg Hd) as (j' & m & He & Hm & Hr). exists j', m.
  assert (Hro : reorder n m).
  { unfold Decode in H. destruct j as [|c j]; [discriminate|]. destruct (pvalue _ 0 (c :: j)) as [[v r]|]; [|discriminate].
    injection H as <-. now apply reads_same. }
  repeat split; auto. rewrite <- He. symmetry. apply encode_reorder; auto. now apply good_distinct.
Qed.

(* ---- what follows the document is ignored ---- *)
Lemma decode_trailing short ind n rest : good_node n -> (N.of_nat (ndepth n) <= 10000)%N ->
  match rest with [] => True | c :: _ => is_digit c = false /\ ~ In (code c) [46; 69; 101] end ->
  exists j m, Encode short ind n = Ok j /\ Decode (j ++ rest) = Good (Some m) /\ reads_as n m.
Proof.
  intros Hg Hd Hr. exists (jenc short ind 0 n). unfold Encode. rewrite good_encodable by auto.
  destruct (roundtrip short ind n 0%nat 0%nat (2 * length (jenc short ind 0 n ++ rest) + 2)%nat rest) as (v & Hv & Hra); auto.
  { rewrite Nat.add_0_r. now apply maxdepth_le. }
  { pose proof (fz_length short ind n 0 Hg). rewrite app_length. lia. }
  { destruct rest as [|c t]; cbn in *; auto. destruct Hr as [H1 H2]. repeat split; auto; intros H; apply H2; auto. }
  exists (fromNative v). repeat split; auto.
  unfold Decode. rewrite Hv. destruct (jenc_head short ind 0 n Hg) as (c & t & -> & _). reflexivity.
Qed.

(* ---- durations ---- *)
Lemma dur_json fracval short d : float_exact fracval -> int64 d -> dur_unmarshal fracval (dur_marshal short d) = Some d.
Proof.
  intros Hf Hd. unfold dur_unmarshal, dur_marshal, unmarshal_string.
  pose proof (pvalue_str short (2 * length (jstr short (dur_text d)) + 1) 0 (dur_text d) [] (dur_text_valid d)) as Hp.
  rewrite app_nil_r in Hp. replace (S (2 * length (jstr short (dur_text d)) + 1))%nat with (2 * length (jstr short (dur_text d)) + 2)%nat in Hp by lia.
  rewrite Hp. cbn [ws]. now apply dur_text_round.
Qed.

Lemma dur_null fracval a b : Forall (fun c => is_space c = true) a -> Forall (fun c => is_space c = true) b ->
  dur_unmarshal fracval (a ++ B "null" ++ b) = Some 0%Z.
Proof.
  intros Ha Hb. unfold dur_unmarshal, unmarshal_string.
  assert (Hw : forall t, ws (a ++ t) = ws t). { intros t. induction Ha as [|c a Hc Ha IH]; cbn [app ws]; auto. now rewrite Hc. }
  assert (Hw2 : ws b = []). { clear -Hb. induction Hb as [|c b Hc Hb IH]; cbn [ws]; auto. now rewrite Hc. }
  assert (Hn : ws (a ++ B "null" ++ b) = chr 110 :: B "ull" ++ b) by (rewrite Hw; reflexivity).
  rewrite Nat.add_comm. cbn [Nat.add pvalue]. rewrite Hn.
  change (code (chr 110) =? 123) with false. change (code (chr 110) =? 91) with false. change (code (chr 110) =? 34) with false.
  change (code (chr 110) =? 116) with false. change (code (chr 110) =? 102) with false. change (code (chr 110) =? 110) with true.
  cbv iota. change (strip (B "ull") (B "ull" ++ b)) with (Some b). cbv iota beta. now rewrite Hw2.
Qed.

(* ---- Encode panics exactly on a number that is none ---- *)
Lemma encodable_bad n : encodable n = false <-> holds_bad_number n.
Proof.
  assert (Hn : forall s, is_number s = false <-> ~ json_number s).
  { intros s. rewrite <- is_number_spec. destruct (is_number s); split; congruence. }
  assert (Hl : forall (A : Type) (f : A -> node) (l : list A), Forall (fun x => encodable (f x) = false <-> holds_bad_number (f x)) l ->
     (forallb (fun x => encodable (f x)) l = false <-> exists x, In x l /\ holds_bad_number (f x))).
  { intros A f l H. induction H as [|x l Hx H IH]; cbn [forallb In]; [split; [discriminate|intros (x & [] & _)]|].
    rewrite andb_false_iff, IH, Hx. split.
    - intros [H1|(y & H1 & H2)]; eauto.
    - intros (y & [->|H1] & H2); eauto. }
  induction n as [| | | | | | | |l H|l H|l H] using node_ind2; cbn [encodable]; try (split; [discriminate|now inversion 1]).
  - rewrite Hn. split; [now constructor|now inversion 1].
  - rewrite Hn. split; [now constructor|now inversion 1].
  - rewrite (Hl _ (fun x => x)) by exact H. split; [intros (x & H1 & H2); econstructor; eauto|inversion 1; subst; eauto].
  - rewrite (Hl _ snd) by exact H. split; [intros ([k x] & H1 & H2); econstructor; eauto|inversion 1; subst; eauto].
  - rewrite (Hl _ snd) by exact H. split; [intros ([k x] & H1 & H2); econstructor; eauto|inversion 1; subst; eauto].
Qed.
Lemma encode_panics short ind n : Encode short ind n = Panic <-> holds_bad_number n.
Proof. rewrite <- encodable_bad. unfold Encode. destruct (encodable n); split; congruence. Qed.
