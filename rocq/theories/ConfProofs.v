(* Proofs about config.From. *)
From Coq Require Import Bool Ascii String Arith NArith ZArith Lia List.
From Verif Require Import Prelude PreludeFacts Utf8Model Utf8Facts DecModel DecFacts DurModel DurProofs EncModel JsonModel JsonSpec KvProofs MarModel MarSpec MarFacts MarProofs MarNum ConfModel ConfSpec.
Import ListNotations.

(* ---- splitting ---- *)
Lemma split_ne sep s : split_at sep s <> [].
Proof. induction s as [|c s IH]; cbn [split_at]; [discriminate|]. destruct (N.eqb (code c) sep); [discriminate|]. destruct (split_at sep s); discriminate. Qed.
Lemma joined_cons a l : l <> [] -> joined (a :: l) = a ++ B "," ++ joined l.
Proof. destruct l; [congruence|reflexivity]. Qed.
Lemma split_list s : comma_list s (split_at 44 s).
Proof.
  induction s as [|c s IH]; cbn [split_at].
  - split; [reflexivity|]. split; [discriminate|]. repeat constructor.
  - destruct IH as (H1 & H2 & H3). destruct (N.eqb (code c) 44) eqn:E.
    + apply N.eqb_eq in E. split; [|split; [discriminate|constructor; [constructor|exact H3]]]. rewrite joined_cons by exact H2. rewrite <- H1.
      cbn. f_equal. apply code_inj. rewrite E. reflexivity.
    + apply N.eqb_neq in E. destruct (split_at 44 s) as [|w l]; [congruence|]. inversion H3 as [|? ? Hw Hl]; subst. split; [|split; [discriminate|]].
      * destruct l; reflexivity.
      * constructor; [constructor; assumption|assumption].
Qed.
Lemma app_sep (sep : ascii) (a b x y : bytes) : without (code sep) a -> without (code sep) b -> a ++ sep :: x = b ++ sep :: y -> a = b /\ x = y.
Proof.
  revert b. induction a as [|c a IH]; intros [|d b] Ha Hb H; cbn in H.
  - now injection H.
  - injection H as <- _. inversion Hb; congruence.
  - injection H as -> _. inversion Ha; congruence.
  - injection H as <- H. inversion Ha; inversion Hb; subst. destruct (IH b) as [-> ->]; auto.
Qed.
Lemma app_sep_not (sep : ascii) (a b x : bytes) : without (code sep) b -> a ++ sep :: x <> b.
Proof. intros Hb <-. apply Forall_app in Hb as [_ Hb]. inversion Hb; congruence. Qed.
Lemma comma_unique s l l' : comma_list s l -> comma_list s l' -> l = l'.
Proof.
  revert s l'. induction l as [|a l IH]; intros s l' (H1 & H2 & H3) (H4 & H5 & H6); [congruence|]. destruct l' as [|b l']; [congruence|].
  inversion H3 as [|? ? Ha Hl]; subst. inversion H6 as [|? ? Hb Hl']; subst. destruct l as [|a' l], l' as [|b' l'].
  - cbn in H4. congruence.
  - rewrite (joined_cons b) in H4 by discriminate. cbn [joined] in H4. symmetry in H4. now apply (app_sep_not (chr 44)) in H4.
  - rewrite (joined_cons a) in H4 by discriminate. cbn [joined] in H4. now apply (app_sep_not (chr 44)) in H4.
  - rewrite !joined_cons in H4 by discriminate. apply (app_sep (chr 44)) in H4 as [-> H4]; auto. f_equal.
    apply (IH (joined (a' :: l))); repeat split; auto; discriminate.
Qed.
Lemma split_iff s l : comma_list s l <-> l = split_at 44 s.
Proof. split; [intros H; eapply comma_unique; eauto using split_list|intros ->; apply split_list]. Qed.
Lemma cut_pair s : pair_text s (fst (cut_eq s)) (snd (cut_eq s)).
Proof.
  induction s as [|c s IH]; cbn [cut_eq].
  - split; [constructor|]. now right.
  - destruct (N.eqb (code c) 61) eqn:E.
    + apply N.eqb_eq in E. split; [constructor|]. left. cbn. f_equal. apply code_inj. now rewrite E.
    + apply N.eqb_neq in E. destruct (cut_eq s) as [a b]. cbn [fst snd] in *. destruct IH as (H1 & H2). split; [now constructor|].
      destruct H2 as [H2|[H2 H3]]; [left|right]; subst; auto.
Qed.
Lemma pair_unique s k x k' x' : pair_text s k x -> pair_text s k' x' -> k = k' /\ x = x'.
Proof.
  intros (H1 & H2) (H3 & H4). destruct H2 as [H2|[H2 ->]], H4 as [H4|[H4 ->]]; subst.
  - now apply (app_sep (chr 61)) in H4.
  - exfalso. exact (app_sep_not (chr 61) k _ x H3 eq_refl).
  - exfalso. exact (app_sep_not (chr 61) k' _ x' H1 eq_refl).
  - auto.
Qed.
Lemma pair_iff s k x : pair_text s k x <-> cut_eq s = (k, x).
Proof.
  split.
  - intros H. pose proof (cut_pair s) as H'. destruct (cut_eq s) as [a b]. cbn in H'. destruct (pair_unique _ _ _ _ _ H H') as [-> ->]. reflexivity.
  - intros H. pose proof (cut_pair s) as H'. now rewrite H in H'.
Qed.

(* ---- words ---- *)
Lemma lower_letter a b : (code b < 65)%N \/ (90 < code b)%N -> (lower a = b <-> same_letter a b).
Proof.
  intros Hb. unfold lower, same_letter. destruct ((65 <=? code a)%N && (code a <=? 90)%N) eqn:E.
  - apply andb_true_iff in E as [E1 E2]. apply N.leb_le in E1, E2. assert (Hc : code (chr (code a + 32)) = (code a + 32)%N) by (apply code_chr; lia). split.
    + intros <-. right. rewrite Hc. lia.
    + intros [->|[H1 H2]]; [lia|]. apply code_inj. rewrite Hc. lia.
  - assert (Hn : ~ (65 <= code a <= 90)%N). { intros [H1 H2]. apply N.leb_le in H1, H2. rewrite H1, H2 in E. discriminate. } split; [auto|].
    intros [H|[H1 H2]]; [exact H|]. exfalso. apply Hn. lia.
Qed.
Lemma lower_word s w : Forall (fun c => (code c < 65)%N \/ (90 < code c)%N) w -> (map lower s = w <-> is_word s w).
Proof.
  revert w. induction s as [|a s IH]; intros w Hw; cbn [map].
  - split; [intros <-; constructor|]. intros H. now inversion H.
  - split.
    + intros <-. inversion Hw; subst. constructor; [now apply lower_letter|]. now apply IH.
    + intros H. inversion H; subst. inversion Hw; subst. f_equal; [now apply lower_letter|now apply IH].
Qed.
Lemma words_iff s l : Forall (Forall (fun c => (code c < 65)%N \/ (90 < code c)%N)) l -> (existsb (beqb (map lower s)) l = true <-> exists w, In w l /\ is_word s w).
Proof.
  intros Hl. rewrite existsb_exists. rewrite Forall_forall in Hl. split; intros (w & Hi & H); exists w; (split; [exact Hi|]).
  - apply beqb_eq in H. now apply lower_word; auto.
  - apply beqb_eq. apply lower_word; auto.
Qed.
Lemma lower_check l : forallb (forallb (fun c => (code c <? 65)%N || (90 <? code c)%N)) l = true -> Forall (Forall (fun c => (code c < 65)%N \/ (90 < code c)%N)) l.
Proof.
  intros H. apply Forall_forall. intros w Hw. rewrite forallb_forall in H. apply H in Hw. apply Forall_forall. intros c Hc. rewrite forallb_forall in Hw. apply Hw in Hc.
  apply orb_true_iff in Hc as [Hc|Hc]; apply N.ltb_lt in Hc; auto.
Qed.
Lemma lower_true : Forall (Forall (fun c => (code c < 65)%N \/ (90 < code c)%N)) true_words.
Proof. apply lower_check. vm_compute. reflexivity. Qed.
Lemma lower_false : Forall (Forall (fun c => (code c < 65)%N \/ (90 < code c)%N)) false_words.
Proof. apply lower_check. vm_compute. reflexivity. Qed.

(* ---- integers ---- *)
Lemma digits_val_all d n : digits_val d = Some n -> all_digits d.
Proof.
  unfold digits_val. destruct d as [|c d]; [discriminate|]. destruct (forallb is_digit (c :: d)) eqn:E; [|discriminate]. intros _.
  split; [discriminate|]. apply Forall_forall. now apply forallb_forall.
Qed.
Lemma digit_sign c : is_digit c = true -> N.eqb (code c) 45 = false /\ N.eqb (code c) 43 = false.
Proof. unfold is_digit. intros H. apply andb_true_iff in H as [H1 H2]. apply N.leb_le in H1, H2. split; apply N.eqb_neq; lia. Qed.
Lemma atoi_iff s z : parse_int s = Some z <-> atoi s z.
Proof.
  assert (Hd : forall d (neg : bool), all_digits d -> match digits_val d with
    | Some n => (if neg then if (Z.of_N n <=? 2 ^ 63)%Z then Some (- Z.of_N n)%Z else None else if (Z.of_N n <? 2 ^ 63)%Z then Some (Z.of_N n) else None) = Some z
    | None => False end <-> int_range W64 z /\ z = if neg then (- value10 d)%Z else value10 d).
  { intros d neg H. destruct (digits_value d H) as [-> H0]. rewrite Z2N.id by exact H0. unfold int_range. cbn [bits]. change (2 ^ (64 - 1))%Z with (2 ^ 63)%Z. destruct neg.
    - destruct (value10 d <=? 2 ^ 63)%Z eqn:E; split; intros G.
      + apply Z.leb_le in E. injection G as <-. split; [|reflexivity]. split; lia.
      + f_equal. now symmetry.
      + discriminate.
      + apply Z.leb_gt in E. lia.
    - destruct (value10 d <? 2 ^ 63)%Z eqn:E; split; intros G.
      + apply Z.ltb_lt in E. injection G as <-. split; [|reflexivity]. split; lia.
      + f_equal. now symmetry.
      + discriminate.
      + apply Z.ltb_ge in E. lia. }
  assert (Hp : forall d (neg : bool), (match digits_val d with
    | Some n => (if neg then if (Z.of_N n <=? 2 ^ 63)%Z then Some (- Z.of_N n)%Z else None else if (Z.of_N n <? 2 ^ 63)%Z then Some (Z.of_N n) else None)
    | None => None end = Some z) <-> all_digits d /\ int_range W64 z /\ z = if neg then (- value10 d)%Z else value10 d).
  { intros d neg. split.
    - intros H. destruct (digits_val d) as [n|] eqn:E; [|discriminate]. pose proof (digits_val_all d n E) as Ha. split; [exact Ha|]. apply (Hd d neg Ha). rewrite E. exact H.
    - intros [Ha H]. apply (Hd d neg Ha) in H. destruct (digits_val d); [exact H|contradiction]. }
  unfold parse_int, atoi. destruct s as [|c t].
  - split; [discriminate|]. intros (_ & d & [Hne _] & [[H _]|[[H _]|[H _]]]); [congruence|discriminate|discriminate].
  - destruct (N.eqb (code c) 45) eqn:E1; [|destruct (N.eqb (code c) 43) eqn:E2]; cbn [orb].
    + apply N.eqb_eq in E1. assert (c = chr 45) by (apply code_inj; rewrite E1; reflexivity). subst c. rewrite (Hp t true). split.
      * intros (H1 & H2 & H3). split; [exact H2|]. exists t. split; [exact H1|]. right; right. auto.
      * intros (H2 & d & Ha & [[H _]|[[H _]|[H H3]]]).
        -- subst d. destruct Ha as [_ Ha]. inversion Ha; discriminate.
        -- discriminate.
        -- cbn in H. injection H as ->. auto.
    + apply N.eqb_eq in E2. assert (c = chr 43) by (apply code_inj; rewrite E2; reflexivity). subst c. rewrite (Hp t false). split.
      * intros (H1 & H2 & H3). split; [exact H2|]. exists t. split; [exact H1|]. right; left. auto.
      * intros (H2 & d & Ha & [[H _]|[[H H3]|[H _]]]).
        -- subst d. destruct Ha as [_ Ha]. inversion Ha; discriminate.
        -- cbn in H. injection H as ->. auto.
        -- discriminate.
    + rewrite (Hp (c :: t) false). split.
      * intros (H1 & H2 & H3). split; [exact H2|]. exists (c :: t). split; [exact H1|]. left. auto.
      * intros (H2 & d & Ha & [[H H3]|[[H _]|[H _]]]).
        -- subst d. auto.
        -- cbn in H. injection H as -> _. discriminate.
        -- cbn in H. injection H as -> _. discriminate.
Qed.

(* ---- unmarshalText ---- *)
Lemma items_ok f (P : bytes -> cval -> Prop) (Hf : forall s v, f s = COk v <-> P s v) l : forall vs, conf_items f l = Ok (inl vs) <-> Forall2 P l vs.
Proof.
  induction l as [|s l IH]; intros vs; cbn [conf_items].
  - split; [intros H; injection H as <-; constructor|]. intros H. now inversion H.
  - destruct (f s) as [v|v e|] eqn:E.
    + destruct (conf_items f l) as [[vs'|e]|] eqn:El; cbn [rbind].
      * split.
        -- intros H. injection H as <-. constructor; [now apply Hf|]. now apply IH.
        -- intros H. inversion H as [|? v0 ? vs0 H1 H2]; subst. apply Hf in H1. apply IH in H2. congruence.
      * split; [discriminate|]. intros H. inversion H as [|? v0 ? vs0 H1 H2]; subst. apply IH in H2. congruence.
      * split; [discriminate|]. intros H. inversion H as [|? v0 ? vs0 H1 H2]; subst. apply IH in H2. congruence.
    + split; [discriminate|]. intros H. inversion H as [|? v0 ? vs0 H1 H2]; subst. apply Hf in H1. congruence.
    + split; [discriminate|]. intros H. inversion H as [|? v0 ? vs0 H1 H2]; subst. apply Hf in H1. congruence.
Qed.
Lemma pairs_ok f (P : bytes -> cval -> Prop) (Hf : forall s v, f s = COk v <-> P s v) l : forall acc m, conf_pairs true f acc l = Ok (inl m) <->
  exists kvs, Forall2 (fun i e => exists x, pair_text i (fst e) x /\ P x (snd e)) l kvs /\ m = fold_left (fun m e => mset beqb m (fst e) (snd e)) kvs acc.
Proof.
  induction l as [|s l IH]; intros acc m; cbn [conf_pairs].
  - split; [intros H; injection H as <-; exists []; split; [constructor|reflexivity]|]. intros (kvs & H & ->). now inversion H.
  - destruct (cut_eq s) as [k x] eqn:Ec. destruct (f x) as [v|v e|] eqn:E.
    + rewrite IH. split.
      * intros (kvs & H1 & ->). exists ((k, v) :: kvs). split; [|reflexivity]. constructor; [|exact H1]. exists x. cbn [fst snd]. split; [now apply pair_iff|now apply Hf].
      * intros (kvs & H1 & ->). inversion H1 as [|? [k' v'] ? kvs0 (x' & H2 & H3) H4]; subst. cbn [fst snd] in *. apply pair_iff in H2. apply Hf in H3. exists kvs0. split; [exact H4|].
        cbn [fold_left fst snd]. congruence.
    + split; [discriminate|]. intros (kvs & H1 & _). inversion H1 as [|? [k' v'] ? kvs0 (x' & H2 & H3) H4]; subst. cbn [fst snd] in *. apply pair_iff in H2. apply Hf in H3. congruence.
    + split; [discriminate|]. intros (kvs & H1 & _). inversion H1 as [|? [k' v'] ? kvs0 (x' & H2 & H3) H4]; subst. cbn [fst snd] in *. apply pair_iff in H2. apply Hf in H3. congruence.
Qed.
Lemma typed_zero t : typed t (czero t).
Proof. destruct t; cbn; eauto. Qed.
Lemma classic_slice t : (exists t', t = CSlice t') \/ forall old, typed t old.
Proof. destruct t; cbn; eauto; right; intros; exact I. Qed.
Lemma text_ok t : supported t -> forall name s old v, typed t old -> (unmarshalText t name s old = COk v <-> parses t old s v).
Proof.
  induction t as [nm|nm| |t IH|pl t IH|al h t IH|z]; cbn [supported]; intros Hs name s old v Ht.
  - subst nm. cbn [unmarshalText]. pose proof (words_iff s true_words lower_true) as H1. pose proof (words_iff s false_words lower_false) as H2. unfold true_words, false_words in *.
    destruct (existsb (beqb (map lower s)) [B "true"; B "1"; B "yes"; B "y"]) eqn:E1; [|destruct (existsb _ [B ""; B "false"; B "0"; B "no"; B "n"]) eqn:E2].
    + split.
      * intros H. injection H as <-. destruct (proj1 H1 eq_refl) as (w & Hw & Hi). now apply (p_true _ _ _ w).
      * intros H. inversion H as [? ? ? w Hw Hi|? ? ? w Hw Hi| | | | | | | |]; subst; [reflexivity|]. exfalso.
        apply existsb_exists in E1 as (w1 & Hw1 & E1). apply beqb_eq in E1. assert (Hl : map lower s = w). { apply lower_word; [|exact Hi]. pose proof lower_false as L. rewrite Forall_forall in L. now apply L. }
        rewrite E1 in Hl. subst w. clear -Hw Hw1. cbn in Hw, Hw1. repeat (destruct Hw1 as [Hw1|Hw1]; [subst; repeat (destruct Hw as [Hw|Hw]; [discriminate|]); exact Hw|]). exact Hw1.
    + split.
      * intros H. injection H as <-. destruct (proj1 H2 eq_refl) as (w & Hw & Hi). now apply (p_false _ _ _ w).
      * intros H. inversion H as [? ? ? w Hw Hi|? ? ? w Hw Hi| | | | | | | |]; subst; [|reflexivity]. exfalso. assert (false = true) by (apply H1; eauto). discriminate.
    + split; [discriminate|]. intros H. inversion H as [? ? ? w Hw Hi|? ? ? w Hw Hi| | | | | | | |]; subst; exfalso.
      * assert (false = true) by (apply H1; eauto). discriminate.
      * assert (false = true) by (apply H2; eauto). discriminate.
  - subst nm. cbn [unmarshalText]. destruct (parse_int s) as [z|] eqn:E.
    + split; [intros H; injection H as <-; constructor; now apply atoi_iff|]. intros H. inversion H as [| |? ? ? ? Ha| | | | | | |]; subst. apply (proj2 (atoi_iff _ _)) in Ha. congruence.
    + split; [discriminate|]. intros H. inversion H as [| |? ? ? ? Ha| | | | | | |]; subst. apply (proj2 (atoi_iff _ _)) in Ha. congruence.
  - cbn [unmarshalText]. split; [intros H; injection H as <-; constructor|]. intros H. now inversion H.
  - destruct Ht as [l ->]. cbn [unmarshalText]. destruct s as [|c s].
    + split; [intros H; injection H as <-; constructor|]. intros H. inversion H; subst; [reflexivity|congruence].
    + pose proof (items_ok (fun x => unmarshalText t (name ++ B "[]") x (czero t)) (parses t (czero t)) (fun x v0 => IH Hs _ x (czero t) v0 (typed_zero t)) (split_at 44 (c :: s))) as Hi.
      destruct (conf_items _ _) as [[vs|e]|].
      * split; [intros H; injection H as <-; apply (p_list _ _ _ (split_at 44 (c :: s))); [discriminate|apply split_list|now apply Hi]|].
        intros H. inversion H as [| | | | |? ? ? items vs' Hne Hc Hf| | | |]; subst. apply split_iff in Hc. subst items. apply Hi in Hf. injection Hf as <-. reflexivity.
      * split; [discriminate|]. intros H. inversion H as [| | | | |? ? ? items vs' Hne Hc Hf| | | |]; subst. apply split_iff in Hc. subst items. apply Hi in Hf. discriminate.
      * split; [discriminate|]. intros H. inversion H as [| | | | |? ? ? items vs' Hne Hc Hf| | | |]; subst. apply split_iff in Hc. subst items. apply Hi in Hf. discriminate.
  - destruct Hs as [-> Hs]. cbn [unmarshalText]. destruct s as [|c s].
    + split; [intros H; injection H as <-; constructor|]. intros H. inversion H; subst; [reflexivity|congruence].
    + pose proof (pairs_ok (fun x => unmarshalText t (name ++ B "[]") x (czero t)) (parses t (czero t)) (fun x v0 => IH Hs _ x (czero t) v0 (typed_zero t)) (split_at 44 (c :: s)) []) as Hi.
      destruct (conf_pairs _ _ _ _) as [[m|e]|].
      * split.
        -- intros H. injection H as <-. destruct (proj1 (Hi m) eq_refl) as (kvs & H1 & ->). apply (p_map _ _ _ _ (split_at 44 (c :: s))); [discriminate|apply split_list|exact H1].
        -- intros H. inversion H as [| | | | | | |? ? ? ? items kvs Hne Hc Hf| |]; subst. apply split_iff in Hc. subst items. assert (Hx := proj2 (Hi _) (ex_intro _ kvs (conj Hf eq_refl))). injection Hx as <-. reflexivity.
      * split; [discriminate|]. intros H. inversion H as [| | | | | | |? ? ? ? items kvs Hne Hc Hf| |]; subst. apply split_iff in Hc. subst items. assert (Hx := proj2 (Hi _) (ex_intro _ kvs (conj Hf eq_refl))). discriminate.
      * split; [discriminate|]. intros H. inversion H as [| | | | | | |? ? ? ? items kvs Hne Hc Hf| |]; subst. apply split_iff in Hc. subst items. assert (Hx := proj2 (Hi _) (ex_intro _ kvs (conj Hf eq_refl))). discriminate.
  - cbn [unmarshalText]. assert (Hh : forall (Q : al = true \/ s <> []), (let (v0, ok) := h old s in if ok then COk v0 else CErr v0 EHook) = COk v <-> parses (CHook al h t) old s v).
    { intros Q. destruct (h old s) as [v0 [|]] eqn:E.
      - split; [intros H; injection H as <-; now constructor|]. intros H. inversion H; subst; [destruct Q; congruence|congruence].
      - split; [discriminate|]. intros H. inversion H; subst; [destruct Q; congruence|congruence]. }
    destruct al; [apply Hh; auto|]. destruct s as [|c s]; [|apply Hh; right; discriminate].
    destruct (classic_slice t) as [(t' & ->)|Hn].
    + cbn [unmarshalText]. split; [intros H; injection H as <-; constructor; constructor|]. intros H. inversion H as [| | | | | | | |? ? ? ? H1|? ? ? ? ? ? Q]; subst; [|destruct Q; congruence]. inversion H1; subst; [reflexivity|congruence].
    + rewrite (IH Hs name [] old v (Hn old)). split; [now constructor|]. intros H. inversion H as [| | | | | | | |? ? ? ? H1|? ? ? ? ? ? Q]; subst; [exact H1|destruct Q; congruence].
  - cbn [unmarshalText]. split; [discriminate|]. intros H. inversion H.
Qed.
Lemma text_no_panic t : supported t -> forall name s old, unmarshalText t name s old <> CPanic.
Proof.
  induction t as [nm|nm| |t IH|pl t IH|al h t IH|z]; cbn [supported unmarshalText]; intros Hs name s old.
  - subst nm. destruct (existsb _ _); [discriminate|]. destruct (existsb _ _); discriminate.
  - subst nm. destruct (parse_int s); discriminate.
  - discriminate.
  - destruct s as [|c s]; [discriminate|]. assert (H : conf_items (fun x => unmarshalText t (name ++ B "[]") x (czero t)) (split_at 44 (c :: s)) <> Panic).
    { generalize (split_at 44 (c :: s)). induction l as [|x l IHl]; cbn [conf_items]; [discriminate|]. destruct (unmarshalText t _ x _) eqn:E; [|discriminate|now apply IH in E].
      destruct (conf_items _ l); [discriminate|congruence]. }
    destruct (conf_items _ _) as [[vs|e]|]; [discriminate|discriminate|congruence].
  - destruct Hs as [-> Hs]. destruct s as [|c s]; [discriminate|]. assert (H : forall acc, conf_pairs true (fun x => unmarshalText t (name ++ B "[]") x (czero t)) acc (split_at 44 (c :: s)) <> Panic).
    { generalize (split_at 44 (c :: s)). induction l as [|x l IHl]; intros acc; cbn [conf_pairs]; [discriminate|]. destruct (cut_eq x) as [k y]. destruct (unmarshalText t _ y _) eqn:E; [|discriminate|now apply IH in E].
      apply IHl. }
    specialize (H []). destruct (conf_pairs _ _ _ _) as [[vs|e]|]; [discriminate|discriminate|congruence].
  - destruct al; [|destruct s; [now apply IH|]]; destruct (h old _) as [v [|]]; discriminate.
  - discriminate.
Qed.
Lemma text_err t : forall name s old v e, unmarshalText t name s old = CErr v e -> v = old \/ (hooked t /\ e = EHook).
Proof.
  induction t as [nm|nm| |t IH|pl t IH|al h t IH|z]; cbn [unmarshalText]; intros name s old v e H.
  - destruct (existsb _ _); [destruct nm; discriminate|]. destruct (existsb _ _); [destruct nm; discriminate|]. injection H as <- <-. auto.
  - destruct (parse_int s); [destruct nm; discriminate|]. injection H as <- <-. auto.
  - discriminate.
  - destruct s; [discriminate|]. destruct (conf_items _ _) as [[vs|e']|]; [discriminate| |discriminate]. injection H as <- <-. auto.
  - destruct s; [discriminate|]. destruct (conf_pairs _ _ _ _) as [[vs|e']|]; [discriminate| |discriminate]. injection H as <- <-. auto.
  - assert (Hk : hooked (CHook al h t)) by (unfold hooked; eauto). destruct al; [|destruct s; [destruct (IH _ _ _ _ _ H) as [?|[_ ?]]; auto|]]; destruct (h old _) as [v' [|]]; try discriminate; injection H as <- <-; auto.
  - injection H as <- <-. auto.
Qed.

Lemma items_err f l e : conf_items f l = Ok (inr e) -> exists x v, In x l /\ f x = CErr v e.
Proof.
  induction l as [|x l IH]; cbn [conf_items]; [discriminate|]. destruct (f x) as [v|v e'|] eqn:E; [| |discriminate].
  - destruct (conf_items f l) as [[vs|e']|]; cbn [rbind]; intros H; try discriminate. injection H as ->. destruct (IH eq_refl) as (y & w & H1 & H2). exists y, w. split; [now right|auto].
  - intros H. injection H as ->. exists x, v. split; [now left|auto].
Qed.
Lemma pairs_err pl f l e : forall acc, conf_pairs pl f acc l = Ok (inr e) -> exists y x v, In y l /\ x = snd (cut_eq y) /\ f x = CErr v e.
Proof.
  induction l as [|y l IH]; intros acc; cbn [conf_pairs]; [discriminate|]. destruct (cut_eq y) as [k x] eqn:Ec. destruct (f x) as [v|v e'|] eqn:E; [| |discriminate].
  - destruct pl; [|discriminate]. intros H. destruct (IH _ H) as (y' & x' & w & H1 & H2). exists y', x', w. split; [now right|auto].
  - intros H. injection H as ->. exists y, x, v. split; [now left|]. rewrite Ec. auto.
Qed.
Lemma cut_part y : exists a, y = a ++ snd (cut_eq y).
Proof.
  induction y as [|c y (a & IH)]; cbn [cut_eq]; [exists []; reflexivity|]. destruct (_ =? _)%N; [exists [c]; reflexivity|]. destruct (cut_eq y) as [k x]. cbn [snd] in *. exists (c :: a). cbn. congruence.
Qed.
Lemma split_part k s x : In x (split_at k s) -> exists a b, s = a ++ x ++ b.
Proof.
  revert x. induction s as [|c s IH]; intros x; cbn [split_at].
  - intros [<-|[]]. exists [], []. reflexivity.
  - destruct (_ =? _)%N.
    + intros [<-|H]; [exists [], (c :: s); reflexivity|]. destruct (IH _ H) as (a & b & ->). exists (c :: a), b. reflexivity.
    + destruct (split_at k s) as [|w l] eqn:E; [intros [<-|[]]|intros [<-|H]].
      * exists [], s. reflexivity.
      * assert (Hw : exists b, s = w ++ b). { clear -E. revert w l E. induction s as [|d s IH]; intros w l; cbn [split_at]; [intros H; injection H as <- <-; exists []; reflexivity|].
          destruct (_ =? _)%N; [intros H; injection H as <- <-; eexists; reflexivity|]. destruct (split_at k s) as [|w' l'] eqn:E; intros H; injection H as <- <-; [exists s; reflexivity|]. destruct (IH _ _ eq_refl) as (b & ->). exists b. reflexivity. }
        destruct Hw as (b & ->). exists [], b. reflexivity.
      * destruct (IH x (or_intror H)) as (a & b & ->). exists (c :: a), b. reflexivity.
Qed.
Lemma names_item name s x e : names (name ++ B "[]") x e -> (exists a b, s = a ++ x ++ b) -> names name s e.
Proof.
  intros H (a & b & ->). destruct e; cbn [names] in *; auto; destruct H as (r & a' & b' & -> & ->); exists (B "[]" ++ r), (a ++ a'), (b' ++ b); rewrite <- !app_assoc; auto.
Qed.
Lemma text_names t : forall name s old v e, unmarshalText t name s old = CErr v e -> names name s e.
Proof.
  induction t as [nm|nm| |t IH|pl t IH|al h t IH|z]; cbn [unmarshalText]; intros name s old v e H.
  - destruct (existsb _ _); [destruct nm; discriminate|]. destruct (existsb _ _); [destruct nm; discriminate|]. injection H as <- <-. exists [], [], []. now rewrite !app_nil_r.
  - destruct (parse_int s); [destruct nm; discriminate|]. injection H as <- <-. exists [], [], []. now rewrite !app_nil_r.
  - discriminate.
  - destruct s as [|c s]; [discriminate|]. destruct (conf_items _ _) as [[vs|e']|] eqn:E; [discriminate| |discriminate]. injection H as <- <-.
    apply items_err in E as (x & w & Hi & Hx). apply IH in Hx. eapply names_item; eauto. eapply split_part; eauto.
  - destruct s as [|c s]; [discriminate|]. destruct (conf_pairs _ _ _ _) as [[vs|e']|] eqn:E; [discriminate| |discriminate]. injection H as <- <-.
    apply pairs_err in E as (y & x & w & Hi & Hy & Hx). apply IH in Hx. eapply names_item; eauto. destruct (split_part _ _ _ Hi) as (a & b & ->). destruct (cut_part y) as (a' & Ha).
    exists (a ++ a'), b. rewrite Ha at 1. rewrite Hy, <- !app_assoc. reflexivity.
  - destruct al; [|destruct s; [now apply IH in H|]]; destruct (h old _) as [v' [|]]; try discriminate; injection H as <- <-; exact I.
  - injection H as <- <-. exact I.
Qed.

(* ---- From ---- *)
Lemma last_cons {A} (x : A) l : last_one (x :: l) = match last_one l with Some y => Some y | None => Some x end.
Proof. revert x. induction l as [|y l IH]; intros x; [reflexivity|]. change (last_one (x :: y :: l)) with (last_one (y :: l)). rewrite IH. destruct (last_one l); reflexivity. Qed.
Lemma options_ok key l : forall def d, options key def l = inl d <->
  exists defs, Forall2 (fun o x => pair_text o (B "default") x) l defs /\ d = match last_one defs with Some x => Some x | None => def end.
Proof.
  induction l as [|o l IH]; intros def d; cbn [options].
  - split; [intros H; injection H as <-; exists []; split; [constructor|reflexivity]|]. intros (defs & H & ->). now inversion H.
  - destruct (cut_eq o) as [n x] eqn:Ec. destruct (beqb n (B "default")) eqn:E.
    + apply beqb_eq in E. subst n. rewrite IH. split.
      * intros (defs & H & ->). exists (x :: defs). split; [constructor; [now apply pair_iff|exact H]|]. rewrite last_cons. destruct (last_one defs); reflexivity.
      * intros (defs & H & ->). inversion H as [|? x' ? defs' H1 H2]; subst. exists defs'. split; [exact H2|]. apply pair_iff in H1. rewrite last_cons. destruct (last_one defs'); [reflexivity|]. congruence.
    + split; [discriminate|]. intros (defs & H & ->). inversion H as [|? x' ? defs' H1 H2]; subst. apply pair_iff in H1. rewrite Ec in H1. injection H1 as -> ->. rewrite beqb_refl in E. discriminate.
Qed.
Lemma options_err key l : forall def e, options key def l = inr e -> exists o1 opt o2, l = o1 ++ opt :: o2 /\
  Forall (fun o => exists d, pair_text o (B "default") d) o1 /\ (~ exists d, pair_text opt (B "default") d) /\ e = EOption key opt.
Proof.
  induction l as [|o l IH]; intros def e; cbn [options]; [discriminate|]. destruct (cut_eq o) as [n x] eqn:Ec. destruct (beqb n (B "default")) eqn:E.
  - intros H. apply beqb_eq in E. subst n. destruct (IH _ _ H) as (o1 & opt & o2 & -> & H1 & H2 & ->). exists (o :: o1), opt, o2. split; [reflexivity|]. split; [|auto]. constructor; [|exact H1]. exists x. now apply pair_iff.
  - intros H. injection H as <-. exists [], o, l. split; [reflexivity|]. split; [constructor|]. split; [|reflexivity]. intros (d & Hd). apply pair_iff in Hd. rewrite Ec in Hd. injection Hd as -> ->. rewrite beqb_refl in E. discriminate.
Qed.
Lemma tag_unique tag key def key' def' : tag_reads tag key def -> tag_reads tag key' def' -> key = key' /\ def = def'.
Proof.
  intros (o & ds & H1 & H2 & ->) (o' & ds' & H3 & H4 & ->). pose proof (comma_unique _ _ _ H1 H3) as H. injection H as <- <-. split; [reflexivity|]. f_equal.
  clear -H2 H4. revert ds' H4. induction H2 as [|a x l ds H H2 IH]; intros ds' H4; inversion H4 as [|? ? ? ? G1 G2]; subst; [reflexivity|]. f_equal; [|auto]. now destruct (pair_unique _ _ _ _ _ H G1).
Qed.
Lemma chosen_unique env key def s s' : chosen env key def s -> chosen env key def s' -> s = s'.
Proof. intros [[H1 H2]|[H1 H2]] [[H3 H4]|[H3 H4]]; congruence. Qed.
Lemma field_cases env f old : c_tag f <> [] -> exists key,
  (exists opt, tag_bad (c_tag f) key opt /\ conf_field env f old = (CErr old (EOption key opt), [])) \/
  (tag_reads (c_tag f) key None /\ env key = [] /\ conf_field env f old = (CErr old (EMissing key), [key])) \/
  (exists def s, tag_reads (c_tag f) key def /\ chosen env key def s /\
     conf_field env f old = (if c_exported f then unmarshalText (c_type f) key s old else CPanic, [key])).
Proof.
  intros Ht. unfold conf_field. destruct (c_tag f) as [|c t]; [congruence|]. clear Ht. set (tag := c :: t). pose proof (split_list tag) as Hs. destruct (split_at 44 tag) as [|key opts]; [destruct Hs as (_ & ? & _); congruence|].
  exists key. destruct (options key None opts) as [def|e] eqn:Eo.
  - right. apply options_ok in Eo as (defs & H1 & H2).
    assert (Hr : tag_reads tag key def). { exists opts, defs. split; [exact Hs|]. split; [exact H1|]. rewrite H2. destruct (last_one defs); reflexivity. }
    destruct (env key) as [|a b] eqn:Ee; [destruct def as [d|]|].
    + right. exists (Some d), d. split; [exact Hr|]. split; [right; auto|reflexivity].
    + left. auto.
    + right. exists def, (a :: b). split; [exact Hr|]. split; [left; split; [rewrite Ee; discriminate|congruence]|]. destruct def; reflexivity.
  - left. apply options_err in Eo as (o1 & opt & o2 & -> & H1 & H2 & ->). exists opt. split; [|reflexivity]. exists o1, o2. auto.
Qed.
Lemma bad_not_reads tag key opt key' def : tag_bad tag key opt -> ~ tag_reads tag key' def.
Proof.
  intros (o1 & o2 & H1 & H2 & H3) (o & ds & H4 & H5 & _). pose proof (comma_unique _ _ _ H1 H4) as H. injection H as <- <-.
  apply Forall2_app_inv_l in H5 as (d1 & d2 & _ & H5 & _). inversion H5; subst. eauto.
Qed.
Lemma field_ok env f old : good_field f old -> forall new asked, conf_field env f old = (COk new, asked) <-> filled env f old new asked.
Proof.
  intros Hg new asked. destruct (list_eq_dec Ascii.ascii_dec (c_tag f) []) as [E|Ht].
  - unfold filled, conf_field. rewrite E. split.
    + intros H. injection H as <- <-. split; [auto|congruence].
    + intros [H _]. destruct (H eq_refl) as [-> ->]. reflexivity.
  - destruct (Hg Ht) as (Hx & Hs & Hty). unfold filled. destruct (field_cases env f old Ht) as (key & [(opt & H1 & ->)|[(H1 & H2 & ->)|(def & s & H1 & H2 & ->)]]).
    + split; [discriminate|]. intros [_ H]. destruct (H Ht) as (k & d & x & Hr & _). now apply (bad_not_reads _ _ _ _ _ H1) in Hr.
    + split; [discriminate|]. intros [_ H]. destruct (H Ht) as (k & d & x & Hr & Hc & _). destruct (tag_unique _ _ _ _ _ H1 Hr) as [<- <-]. destruct Hc as [[Hc _]|[_ Hc]]; [congruence|discriminate].
    + rewrite Hx. split.
      * intros H. injection H as H <-. split; [congruence|]. intros _. exists key, def, s. split; [exact H1|]. split; [exact H2|]. split; [|reflexivity]. now apply (text_ok _ Hs key).
      * intros [_ H]. destruct (H Ht) as (k & d & x & Hr & Hc & Hp & ->). destruct (tag_unique _ _ _ _ _ H1 Hr) as [<- <-]. rewrite (chosen_unique _ _ _ _ _ Hc H2) in Hp. f_equal. now apply text_ok.
Qed.
Lemma field_no_panic env f old : good_field f old -> fst (conf_field env f old) <> CPanic.
Proof.
  intros Hg. destruct (list_eq_dec Ascii.ascii_dec (c_tag f) []) as [E|Ht]; [unfold conf_field; rewrite E; discriminate|]. destruct (Hg Ht) as (Hx & Hs & Hty).
  destruct (field_cases env f old Ht) as (key & [(opt & H1 & ->)|[(H1 & H2 & ->)|(def & s & H1 & H2 & ->)]]); try discriminate. rewrite Hx. now apply text_no_panic.
Qed.
Lemma field_err env f old : good_field f old -> forall new e asked, conf_field env f old = (CErr new e, asked) -> failed env f old new e asked.
Proof.
  intros Hg new e asked. destruct (list_eq_dec Ascii.ascii_dec (c_tag f) []) as [E|Ht]; [unfold conf_field; rewrite E; discriminate|]. destruct (Hg Ht) as (Hx & Hs & Hty). intros H. split; [exact Ht|].
  destruct (field_cases env f old Ht) as (key & [(opt & H1 & E)|[(H1 & H2 & E)|(def & s & H1 & H2 & E)]]); rewrite E in H.
  - injection H as <- <- <-. split; [auto|]. exists key. left. eauto.
  - injection H as <- <- <-. split; [auto|]. exists key. right; left. auto.
  - rewrite Hx in H. injection H as H <-. split; [eapply text_err; eauto|]. exists key. right; right. exists def, s. repeat (split; [assumption|]). split; [|split; [eapply text_names; eauto|reflexivity]].
    intros v Hv. apply (text_ok _ Hs key) in Hv; [|exact Hty]. congruence.
Qed.
Lemma From_ok env fs : forall vs, Forall2 good_field fs vs -> forall ws asked, From env (Some fs) vs = (FOk ws, asked) <-> fill_all env fs vs ws asked.
Proof.
  cbn [From]. induction fs as [|f fs IH]; intros vs Hg ws asked; inversion Hg as [|? v ? vs' Hf Hfs]; subst; cbn [conf_fields].
  - split; [intros H; injection H as <- <-; constructor|]. intros H. now inversion H.
  - pose proof (field_ok env f v Hf) as Hk. destruct (conf_field env f v) as [[w|w e|] c].
    + specialize (IH vs' Hfs). destruct (conf_fields env fs vs') as [[ws'|ws' e|] c'].
      * split.
        -- intros H. injection H as <- <-. constructor; [now apply Hk|now apply IH].
        -- intros H. inversion H as [|? ? ? ? ? ? ? ? H1 H2]; subst. apply Hk in H1. injection H1 as <- <-. apply IH in H2. injection H2 as <- <-. reflexivity.
      * split; [discriminate|]. intros H. inversion H as [|? ? ? ? ? ? ? ? H1 H2]; subst. apply IH in H2. discriminate.
      * split; [discriminate|]. intros H. inversion H as [|? ? ? ? ? ? ? ? H1 H2]; subst. apply IH in H2. discriminate.
    + split; [discriminate|]. intros H. inversion H as [|? ? ? ? ? ? ? ? H1 H2]; subst. apply Hk in H1. discriminate.
    + split; [discriminate|]. intros H. inversion H as [|? ? ? ? ? ? ? ? H1 H2]; subst. apply Hk in H1. discriminate.
Qed.
Lemma From_no_panic env fs : forall vs, Forall2 good_field fs vs -> fst (From env (Some fs) vs) <> FPanic.
Proof.
  cbn [From]. induction fs as [|f fs IH]; intros vs Hg; inversion Hg as [|? v ? vs' Hf Hfs]; subst; cbn [conf_fields]; [discriminate|].
  pose proof (field_no_panic env f v Hf) as Hk. specialize (IH vs' Hfs). destruct (conf_field env f v) as [[w|w e|] c]; [|discriminate|cbn in Hk; congruence].
  destruct (conf_fields env fs vs') as [[ws'|ws' e|] c']; cbn in *; congruence.
Qed.
Lemma From_err env fs : forall vs, Forall2 good_field fs vs -> forall ws e asked, From env (Some fs) vs = (FErr ws e, asked) ->
  exists fs1 f fs2 vs1 v vs2 ws1 w a1 a2, fs = fs1 ++ f :: fs2 /\ vs = vs1 ++ v :: vs2 /\ ws = ws1 ++ w :: vs2 /\ asked = a1 ++ a2 /\
    fill_all env fs1 vs1 ws1 a1 /\ failed env f v w e a2.
Proof.
  cbn [From]. induction fs as [|f fs IH]; intros vs Hg ws e asked; inversion Hg as [|? v ? vs' Hf Hfs]; subst; cbn [conf_fields]; [discriminate|].
  destruct (conf_field env f v) as [[w|w e'|] c] eqn:Ef; [| |discriminate].
  - specialize (IH vs' Hfs). destruct (conf_fields env fs vs') as [[ws'|ws' e'|] c']; [discriminate| |discriminate]. intros H. injection H as <- <- <-.
    destruct (IH _ _ _ eq_refl) as (fs1 & f1 & fs2 & vs1 & v1 & vs2 & ws1 & w1 & a1 & a2 & -> & -> & -> & -> & H1 & H2).
    exists (f :: fs1), f1, fs2, (v :: vs1), v1, vs2, (w :: ws1), w1, (c ++ a1), a2. repeat (split; [first [reflexivity|apply app_assoc]|]). split; [|exact H2]. constructor; [|exact H1]. now apply field_ok.
  - intros H. injection H as <- <- <-. exists [], f, fs, [], v, vs', [], w, [], c. repeat (split; [first [reflexivity|constructor]|]). eapply field_err; eauto.
Qed.

Lemma last_of_fold {V} (kvs : list (bytes * V)) : forall acc k, mget beqb (fold_left (fun m e => mset beqb m (fst e) (snd e)) kvs acc) k = match last_of kvs k with Some v => Some v | None => mget beqb acc k end.
Proof.
  induction kvs as [|[k0 v] kvs IH]; intros acc k; cbn [fold_left last_of fst snd]; [reflexivity|]. rewrite IH. destruct (last_of kvs k); [reflexivity|].
  destruct (beqb k k0) eqn:E.
  - apply beqb_eq in E. subst. now apply (mget_mset_eq beqb beqb_ok).
  - apply (mget_mset_ne beqb beqb_ok). intros ->. rewrite beqb_refl in E. discriminate.
Qed.

(* ---- slices in memory ---- *)
Lemma upd_length {A} (l : list A) : forall i x, length (upd l i x) = length l.
Proof. induction l as [|a l IH]; intros [|i] x; cbn; auto. Qed.
Lemma nth_upd_eq {A} (l : list A) d : forall i x, i < length l -> nth i (upd l i x) d = x.
Proof. induction l as [|a l IH]; intros [|i] x H; cbn in *; try lia; auto. apply IH. lia. Qed.
Lemma nth_upd_ne {A} (l : list A) d : forall i j x, i <> j -> nth j (upd l i x) d = nth j l d.
Proof. induction l as [|a l IH]; intros [|i] [|j] x H; cbn in *; auto; try lia. Qed.
Lemma firstn_upd {A} (l : list A) : forall i n x, n <= i -> firstn n (upd l i x) = firstn n l.
Proof. induction l as [|a l IH]; intros [|i] [|n] x H; cbn in *; auto; try lia. f_equal. apply IH. lia. Qed.
Lemma firstn_upd_S {A} (l : list A) : forall i x, i < length l -> firstn (S i) (upd l i x) = firstn i l ++ [x].
Proof. induction l as [|a l IH]; intros [|i] x H; cbn in *; try lia; auto. f_equal. rewrite <- IH by lia. reflexivity. Qed.
Section Mem.
  Context {V : Type}.
  Implicit Types (h : heap V) (s : slc).
  Lemma append_spec extra x h s v : valid h s -> let (h', s') := append extra x h s v in
    valid h' s' /\ read h' s' = read h s ++ [v] /\ s_len s' = S (s_len s) /\ length h <= length h' /\
    forall s0, valid h s0 -> (s_array s0 <> s_array s' \/ s_len s0 <= s_len s) -> valid h' s0 /\ read h' s0 = read h s0 /\ (s_array s0 <> s_array s' \/ s_len s0 <= s_len s').
  Proof.
    intros [H1 H2]. unfold append. destruct (s_len s <? length (nth (s_array s) h [])) eqn:E.
    - apply Nat.ltb_lt in E. unfold valid, read. cbn [s_array s_len]. rewrite nth_upd_eq by exact H1. rewrite !upd_length.
      split; [split; [exact H1|lia]|]. split; [now apply firstn_upd_S|]. split; [reflexivity|]. split; [lia|]. intros s0 [V1 V2] Hd. rewrite ?upd_length.
      destruct (Nat.eq_dec (s_array s) (s_array s0)) as [Ea|Ea].
      + rewrite <- Ea in *. destruct Hd as [Hd|Hd]; [congruence|]. rewrite nth_upd_eq by exact H1. rewrite ?upd_length. split; [auto|]. split; [now apply firstn_upd|]. right. lia.
      + rewrite nth_upd_ne by exact Ea. split; [auto|]. split; [reflexivity|]. left. congruence.
    - apply Nat.ltb_ge in E. unfold valid, read. cbn [s_array s_len]. rewrite app_length. cbn [length]. rewrite app_nth2, Nat.sub_diag by lia. cbn [nth].
      assert (Hl : length (firstn (s_len s) (nth (s_array s) h [])) = s_len s) by (rewrite firstn_length; lia). split; [split; [lia|rewrite app_length, Hl; cbn; lia]|].
      split. { rewrite firstn_app, Hl. rewrite (firstn_all2 (n := S (s_len s)) (firstn (s_len s) (nth (s_array s) h []))) by lia. replace (S (s_len s) - s_len s) with 1 by lia. reflexivity. }
      split; [reflexivity|]. split; [lia|]. intros s0 [V1 V2] _. rewrite app_nth1 by exact V1. split; [split; [lia|exact V2]|]. split; [reflexivity|]. left. lia.
  Qed.
  Lemma append_array extra x h s v : valid h s -> let (h', s') := append extra x h s v in s_array s' = s_array s \/ s_array s' = length h.
  Proof. intros _. unfold append. destruct (_ <? _); cbn; auto. Qed.
  Lemma append_all_spec grow x vs : forall h s, valid h s -> let (h', s') := append_all grow x h s vs in
    valid h' s' /\ read h' s' = read h s ++ vs /\
    forall s0, valid h s0 -> (s_array s0 <> s_array s \/ s_len s0 <= s_len s) -> valid h' s0 /\ read h' s0 = read h s0.
  Proof.
    induction vs as [|v vs IH]; intros h s Hv; cbn [append_all].
    - rewrite app_nil_r. auto.
    - pose proof (append_spec (grow (s_len s)) x h s v Hv) as Ha. pose proof (append_array (grow (s_len s)) x h s v Hv) as Hr.
      destruct (append (grow (s_len s)) x h s v) as [h1 s1]. destruct Ha as (A1 & A2 & A3 & A4 & A5). specialize (IH h1 s1 A1).
      destruct (append_all grow x h1 s1 vs) as [h2 s2]. destruct IH as (B1 & B2 & B3). split; [exact B1|]. split; [rewrite B2, A2, <- app_assoc; reflexivity|].
      intros s0 V0 Hd. assert (Hd' : s_array s0 <> s_array s1 \/ s_len s0 <= s_len s). { destruct Hr as [Hr|Hr]; rewrite Hr; [exact Hd|]. left. destruct V0. lia. }
      destruct (A5 s0 V0 Hd') as (C1 & C2 & C3). destruct (B3 s0 C1 C3) as [D1 D2]. split; [exact D1|congruence].
  Qed.
  (* without spare room everything else is safe *)
  Lemma append_all_full grow x vs h s : valid h s -> s_len s = length (nth (s_array s) h []) -> let (h', s') := append_all grow x h s vs in
    forall s0, valid h s0 -> read h' s0 = read h s0.
  Proof.
    intros Hv Hf. pose proof (append_all_spec grow x vs h s Hv) as H. destruct (append_all grow x h s vs) as [h' s']. destruct H as (_ & _ & H). intros s0 V0. apply H; [exact V0|].
    destruct (Nat.eq_dec (s_array s0) (s_array s)) as [E|E]; [|auto]. right. destruct V0 as [_ V0]. rewrite E in V0. lia.
  Qed.
End Mem.
Lemma list_appends name old s : ~ In (chr 44) s -> s <> [] -> unmarshalText (CSlice CStr) name s (CVList old) = COk (CVList (old ++ [CVStr s])).
Proof.
  intros Hi Hs. apply text_ok; [exact I|exists old; reflexivity|]. apply (p_list CStr old s [s]); [exact Hs| |repeat constructor].
  split; [reflexivity|]. split; [discriminate|]. constructor; [|constructor]. apply Forall_forall. intros c Hc E. apply Hi. replace (chr 44) with c; [exact Hc|]. apply code_inj. rewrite E. reflexivity.
Qed.
