(* Proofs about the lines of the default logger. *)
From Coq Require Import Bool Ascii String Arith NArith ZArith Lia List Permutation.
From Verif Require Import Prelude PreludeFacts Utf8Model Utf8Facts QuoteModel DecModel DecFacts DurModel DurProofs KvProofs
  EncModel JsonModel JsonSpec JsonFacts JsonProofs JsonParse RfcSpec RfcString RfcProofs RfcProps CtxModel CtxSpec CtxProofs ErrModel LogModel LgModel LgSpec.
Import ListNotations.
Local Open Scope N_scope.

(* ---- strings ---- *)
Lemma hexs_hex4 n : n < 0x10000 -> hex4 (hexs 4 n) n.
Proof.
  intros H. pose proof (get4_hexs n [] H) as E. apply get4_hex4 in E as (h & Eh & Hh). rewrite !app_nil_r in Eh. now subst h.
Qed.
Lemma sesc_jstring i q v : (match i with IRune r => valid_rune r = true | IBad _ => True end) -> jstring q v ->
  jstring (sesc_item i ++ q) (match i with IRune r => encode_rune r | IBad _ => encode_rune 0xFFFD end ++ v).
Proof.
  intros Hi Hq. destruct i as [r|b]; cbn [sesc_item].
  2:{ rewrite <- app_assoc. apply js_hex; [apply hexs_hex4; lia|lia|exact Hq]. }
  unfold sesc_rune.
  assert (Esc : forall e n, In (e, n) [(B "\""", 34); (B "\\", 92); (B "\/", 47); (B "\b", 8); (B "\f", 12); (B "\n", 10); (B "\r", 13); (B "\t", 9)] ->
     n < 128 -> jstring (e ++ q) (encode_rune n ++ v)).
  { intros e n Hin Hn. rewrite encode_ascii by exact Hn. apply js_esc with (n := n); assumption. }
  destruct (N.eqb_spec r 34) as [->|H34]; [apply (Esc (B "\""")); [cbn; auto|lia]|].
  destruct (N.eqb_spec r 92) as [->|H92]; [apply (Esc (B "\\")); [cbn; auto|lia]|]. cbn [orb].
  destruct (N.eqb_spec r 10) as [->|H10]; [apply Esc; [cbn; auto 10|lia]|].
  destruct (N.eqb_spec r 13) as [->|H13]; [apply Esc; [cbn; auto 10|lia]|].
  destruct (N.eqb_spec r 9) as [->|H9]; [apply Esc; [cbn; auto 10|lia]|].
  destruct ((r <? 32) || (r =? 0x2028) || (r =? 0x2029)) eqn:E.
  - assert (Hr : r < 0x10000 /\ ~ (0xD800 <= r < 0xE000)).
    { apply orb_true_iff in E as [E|E]; [apply orb_true_iff in E as [E|E]|]; [apply N.ltb_lt in E|apply N.eqb_eq in E|apply N.eqb_eq in E]; lia. }
    rewrite <- app_assoc. apply js_hex; [apply hexs_hex4; lia|lia|exact Hq].
  - apply orb_false_iff in E as [E _]. apply orb_false_iff in E as [E _]. apply N.ltb_ge in E. apply js_rune; auto.
Qed.
Lemma sesc_all l : Forall (fun i => match i with IRune r => valid_rune r = true | IBad _ => True end) l ->
  jstring (concat (map sesc_item l)) (concat (map (fun i => match i with IRune r => encode_rune r | IBad _ => encode_rune 0xFFFD end) l)).
Proof. induction 1 as [|i l Hi Hl IH]; cbn [map concat]; [constructor|]. apply sesc_jstring; auto. Qed.
Lemma sstr_inner s : exists q, sstr s = B """" ++ q ++ B """" /\ jstring q (cleaned s).
Proof. exists (concat (map sesc_item (runes s))). split; [reflexivity|]. apply sesc_all, runes_valid. Qed.
Lemma sstr_text s : jtext (sstr s) (TStr (cleaned s)).
Proof. destruct (sstr_inner s) as (q & -> & H). now constructor. Qed.

(* ---- no control characters ---- *)
Lemma hexdigit_line c n : hexdigit c n -> 32 <= code c.
Proof.
  unfold hexdigit. cbn [combine list_ascii_of_string]. intros H. repeat (destruct H as [H|H]; [injection H as <- _; vm_compute; discriminate|]). destruct H.
Qed.
Lemma hex4_line h n : hex4 h n -> one_line h.
Proof. intros (a & b & c & d & w & x & y & z & -> & Ha & Hb & Hc & Hd & _). repeat constructor; eapply hexdigit_line; eauto. Qed.
Lemma encode_line r : 32 <= r -> one_line (encode_rune r).
Proof.
  intros H. destruct (N.lt_ge_cases r 128) as [H1|H1].
  - rewrite encode_ascii by exact H1. constructor; [|constructor]. rewrite code_chr by lia. exact H.
  - eapply Forall_impl; [|apply encode_high; exact H1]. cbn. intros. lia.
Qed.
Lemma one_app a b : one_line a -> one_line b -> one_line (a ++ b).
Proof. intros. apply Forall_app. auto. Qed.
Lemma lit_line s : Forall (fun c => (32 <=? code c) = true) s -> one_line s.
Proof. apply Forall_impl. intros c H. now apply N.leb_le. Qed.
Ltac lit := apply lit_line; repeat constructor.
Lemma jstring_line q v : jstring q v -> one_line q.
Proof.
  induction 1 as [|r s v Hv Hr H34 H92 H IH|c s v Hc Hb H IH|c n s v Hc H IH|h n s v Hh Hn H IH|h n k m s v Hh Hn Hk Hm H IH|h n s v Hh Hn Hb H IH].
  - constructor.
  - apply one_app; auto using encode_line.
  - constructor; [lia|exact IH].
  - apply one_app; [|exact IH]. repeat (destruct Hc as [Hc|Hc]; [injection Hc as <- _; lit|]). destruct Hc.
  - apply one_app; [lit|]. apply one_app; eauto using hex4_line.
  - apply one_app; [lit|]. apply one_app; [eauto using hex4_line|]. apply one_app; [lit|]. apply one_app; eauto using hex4_line.
  - apply one_app; [lit|]. apply one_app; eauto using hex4_line.
Qed.
Lemma digit_line c : is_digit c = true -> 32 <= code c.
Proof. unfold is_digit. intros H. apply andb_true_iff in H as [H _]. apply N.leb_le in H. lia. Qed.

(* ---- compacting ---- *)
Definition bare (s : bytes) : Prop := Forall (fun c => 32 < code c /\ code c <> 34) s.
Lemma space_code c : is_space c = true -> code c <= 32.
Proof. intros H. apply space_blank in H. cbn in H. lia. Qed.
Lemma bare_compact s r : bare s -> compact false (s ++ r) = s ++ compact false r.
Proof.
  induction 1 as [|c s (H1 & H2) _ IH]; cbn [app compact]; [reflexivity|].
  replace (is_space c) with false by (symmetry; destruct (is_space c) eqn:E; [apply space_code in E; lia|reflexivity]).
  apply N.eqb_neq in H2. rewrite H2. now rewrite IH.
Qed.
Lemma blanks_compact a r : blanks a -> compact false (a ++ r) = compact false r.
Proof. induction 1 as [|c a H _ IH]; cbn [app compact]; [reflexivity|]. apply space_blank in H. now rewrite H. Qed.
Lemma quoted_compact s r : Forall (fun c => code c <> 34 /\ code c <> 92) s -> compact true (s ++ r) = s ++ compact true r.
Proof.
  induction 1 as [|c s (H1 & H2) _ IH]; cbn [app compact]; [reflexivity|]. apply N.eqb_neq in H1, H2. rewrite H1, H2. cbn [negb]. now rewrite IH.
Qed.
Lemma hexdigit_plain c n : hexdigit c n -> code c <> 34 /\ code c <> 92.
Proof.
  unfold hexdigit. cbn [combine list_ascii_of_string]. intros H. repeat (destruct H as [H|H]; [injection H as <- _; split; vm_compute; discriminate|]). destruct H.
Qed.
Lemma hex4_plain2 h n : hex4 h n -> Forall (fun c => code c <> 34 /\ code c <> 92) h.
Proof. intros (a & b & c & d & w & x & y & z & -> & Ha & Hb & Hc & Hd & _). repeat constructor; try (eapply hexdigit_plain; eauto). Qed.
Lemma esc_u r : compact true (B "\u" ++ r) = B "\u" ++ compact true r.
Proof. reflexivity. Qed.
Lemma jstring_compact q v : jstring q v -> forall r, compact true (q ++ dquote :: r) = q ++ dquote :: compact false r.
Proof.
  induction 1 as [|x s v Hv Hr H34 H92 H IH|c s v Hc Hb H IH|c n s v Hc H IH|h n s v Hh Hn H IH|h n k m s v Hh Hn Hk Hm H IH|h n s v Hh Hn Hb H IH]; intros r.
  - reflexivity.
  - rewrite <- !app_assoc. rewrite quoted_compact; [now rewrite IH|].
    destruct (N.lt_ge_cases x 128) as [H1|H1].
    + rewrite encode_ascii by exact H1. constructor; [|constructor]. rewrite code_chr by lia. auto.
    + eapply Forall_impl; [|apply encode_high; exact H1]. cbn. intros. lia.
  - change ((c :: s) ++ dquote :: r) with ([c] ++ (s ++ dquote :: r)). rewrite quoted_compact; [now rewrite IH|]. constructor; [lia|constructor].
  - rewrite <- !app_assoc. repeat (destruct Hc as [Hc|Hc]; [injection Hc as <- _; cbn; f_equal; f_equal; apply IH|]). destruct Hc.
  - rewrite <- !app_assoc, esc_u, quoted_compact by (eapply hex4_plain2; eauto). now rewrite IH.
  - rewrite <- !app_assoc, esc_u, quoted_compact by (eapply hex4_plain2; eauto). rewrite esc_u, quoted_compact by (eapply hex4_plain2; eauto). now rewrite IH.
  - rewrite <- !app_assoc, esc_u, quoted_compact by (eapply hex4_plain2; eauto). now rewrite IH.
Qed.
Lemma string_compact q v r : jstring q v -> compact false (B """" ++ q ++ B """" ++ r) = B """" ++ q ++ B """" ++ compact false r.
Proof. intros H. change (compact false (B """" ++ q ++ B """" ++ r)) with (dquote :: compact true (q ++ dquote :: r)). rewrite (jstring_compact _ _ H). reflexivity. Qed.
Lemma digits_bare d : Forall (fun c => is_digit c = true) d -> bare d.
Proof.
  apply Forall_impl. intros c H. unfold is_digit in H. apply andb_true_iff in H as [H _]. apply N.leb_le in H. lia.
Qed.
Lemma bare_app a b : bare a -> bare b -> bare (a ++ b).
Proof. intros. apply Forall_app. auto. Qed.
Lemma lit_bare s : Forall (fun c => ((32 <? code c) && negb (code c =? 34)) = true) s -> bare s.
Proof.
  apply Forall_impl. intros c H. apply andb_true_iff in H as [H1 H2]. apply N.ltb_lt in H1. apply negb_true_iff, N.eqb_neq in H2. auto.
Qed.
Ltac litb := apply lit_bare; repeat constructor.
Lemma number_bare s : json_number s -> bare s.
Proof.
  intros (sg & ip & fr & ex & -> & Hs & Hi & Hf & He). repeat apply bare_app.
  - destruct Hs as [->| ->]; litb.
  - destruct Hi as [->|((_ & Hi) & _)]; [litb|apply digits_bare, Hi].
  - destruct Hf as [->|(d & -> & _ & Hd)]; [litb|]. apply bare_app; [litb|apply digits_bare, Hd].
  - destruct He as [->|(e & g & d & -> & He & Hg & _ & Hd)]; [litb|]. repeat apply bare_app; [| |apply digits_bare, Hd].
    + destruct He as [->| ->]; litb.
    + destruct Hg as [->|[->| ->]]; litb.
Qed.
Lemma bare_line s : bare s -> one_line s.
Proof. apply Forall_impl. cbn. intros. lia. Qed.

(* a text that says x and what it is compacted to *)
Definition squeezes (x : jtree) : Prop := forall t, jtext t x -> exists t', (forall r, compact false (t ++ r) = t' ++ compact false r) /\ jtext t' x /\ one_line t'.
Lemma no_blanks : blanks []. Proof. constructor. Qed.
Lemma elems_squeeze ps : forall l, Forall squeezes l -> Forall2 elem ps l -> ps <> [] ->
  exists ps', (forall r, compact false (join (B ",") ps ++ r) = join (B ",") ps' ++ compact false r) /\ Forall2 elem ps' l /\ one_line (join (B ",") ps') /\ ps' <> [].
Proof.
  induction ps as [|p ps IH]; intros l Hl H Hne; [congruence|]. inversion H as [|? x ? l' Hp Hps]; subst. inversion Hl; subst.
  destruct Hp as (a & t & b & -> & Ha & Ht & Hb). destruct (H2 t Ht) as (t' & Et & Ht' & Lt).
  assert (Hel : elem t' x) by (exists [], t', []; rewrite app_nil_r; auto using no_blanks).
  destruct ps as [|p2 ps].
  - inversion Hps; subst. exists [t']. split; [|split; [constructor; auto|split; [exact Lt|discriminate]]].
    intros r. cbn [join]. rewrite <- !app_assoc, blanks_compact, Et, blanks_compact by assumption. reflexivity.
  - destruct (IH l' H3 Hps) as (ps' & E & F & L & N); [discriminate|]. exists (t' :: ps'). destruct ps' as [|p' ps']; [congruence|].
    split; [|split; [constructor; auto|split; [|discriminate]]].
    + intros r. rewrite !join_cons, <- !app_assoc, blanks_compact, Et, blanks_compact by assumption.
      rewrite bare_compact by litb. now rewrite E.
    + rewrite join_cons. apply one_app; [exact Lt|]. apply one_app; [lit|exact L].
Qed.
Lemma membs_squeeze ps : forall l, Forall (fun e => squeezes (snd e)) l -> Forall2 memb ps l -> ps <> [] ->
  exists ps', (forall r, compact false (join (B ",") ps ++ r) = join (B ",") ps' ++ compact false r) /\ Forall2 memb ps' l /\ one_line (join (B ",") ps') /\ ps' <> [].
Proof.
  induction ps as [|p ps IH]; intros l Hl H Hne; [congruence|]. inversion H as [|? x ? l' Hp Hps]; subst. inversion Hl; subst.
  destruct Hp as (a & k & b & c & t & d & -> & Ha & Hk & Hb & Hc & Ht & Hd). destruct (H2 t Ht) as (t' & Et & Ht' & Lt).
  set (q := B """" ++ k ++ B """" ++ B ":" ++ t').
  assert (Hel : memb q x) by (exists [], k, [], [], t', []; rewrite app_nil_r; repeat split; auto using no_blanks).
  assert (Lq : one_line q).
  { unfold q. apply one_app; [lit|]. apply one_app; [eapply jstring_line; eauto|]. apply one_app; [lit|]. apply one_app; [lit|exact Lt]. }
  assert (Eq : forall r, compact false ((a ++ B """" ++ k ++ B """" ++ b ++ B ":" ++ c ++ t ++ d) ++ r) = q ++ compact false r).
  { intros r. rewrite <- !app_assoc. rewrite blanks_compact by exact Ha. rewrite (string_compact _ _ _ Hk). rewrite blanks_compact by exact Hb.
    rewrite bare_compact by litb. rewrite blanks_compact by exact Hc. rewrite Et. rewrite blanks_compact by exact Hd. unfold q. now rewrite <- !app_assoc. }
  destruct ps as [|p2 ps].
  - inversion Hps; subst. exists [q]. split; [|split; [constructor; auto|split; [exact Lq|discriminate]]]. intros r. cbn [join]. apply Eq.
  - destruct (IH l' H3 Hps) as (ps' & E & F & L & N); [discriminate|]. exists (q :: ps'). destruct ps' as [|p' ps']; [congruence|].
    split; [|split; [constructor; auto|split; [|discriminate]]].
    + intros r. rewrite !join_cons. rewrite <- (app_assoc _ (B "," ++ _) r), Eq, <- (app_assoc (B ",") _ r), bare_compact by litb.
      rewrite E. now rewrite <- !app_assoc.
    + rewrite join_cons. apply one_app; [exact Lq|]. apply one_app; [lit|exact L].
Qed.
Lemma all_squeeze x : squeezes x.
Proof.
  induction x as [|b|s|s|l Hl|l Hl] using jtree_ind2; intros t Hj.
  - inversion Hj; subst. exists (B "null"). split; [reflexivity|]. split; [exact Hj|lit].
  - inversion Hj; subst; eexists; (split; [intros r; apply bare_compact; litb|]); (split; [exact Hj|lit]).
  - inversion Hj; subst. exists s. split; [intros r; apply bare_compact, number_bare; assumption|]. split; [exact Hj|apply bare_line, number_bare; assumption].
  - inversion Hj as [| | | |q v Hq| | | |]; subst. exists (B """" ++ q ++ B """"). split; [|split; [exact Hj|]].
    + intros r. rewrite <- !app_assoc. eapply string_compact; eauto.
    + apply one_app; [lit|]. apply one_app; [eapply jstring_line; eauto|lit].
  - inversion Hj as [| | | | |w Hw|p ps l' Hps| |]; subst.
    + exists (B "[]"). split; [|split; [apply (jt_arr0 [] no_blanks)|lit]]. intros r. rewrite <- !app_assoc.
      rewrite bare_compact by litb. rewrite blanks_compact by exact Hw. rewrite bare_compact by litb. reflexivity.
    + destruct (elems_squeeze (p :: ps) l Hl Hps) as (ps' & E & F & L & N); [discriminate|]. destruct ps' as [|p' ps']; [congruence|].
      exists (B "[" ++ join (B ",") (p' :: ps') ++ B "]"). split; [|split; [apply jt_arr; exact F|]].
      * intros r. rewrite <- !app_assoc. rewrite bare_compact by litb. rewrite E. rewrite bare_compact by litb. reflexivity.
      * apply one_app; [lit|]. apply one_app; [exact L|lit].
  - inversion Hj as [| | | | | | |w Hw|p ps l' Hps]; subst.
    + exists (B "{}"). split; [|split; [apply (jt_obj0 [] no_blanks)|lit]]. intros r. rewrite <- !app_assoc.
      rewrite bare_compact by litb. rewrite blanks_compact by exact Hw. rewrite bare_compact by litb. reflexivity.
    + destruct (membs_squeeze (p :: ps) l Hl Hps) as (ps' & E & F & L & N); [discriminate|]. destruct ps' as [|p' ps']; [congruence|].
      exists (B "{" ++ join (B ",") (p' :: ps') ++ B "}"). split; [|split; [apply jt_obj; exact F|]].
      * intros r. rewrite <- !app_assoc. rewrite bare_compact by litb. rewrite E. rewrite bare_compact by litb. reflexivity.
      * apply one_app; [lit|]. apply one_app; [exact L|lit].
Qed.
Lemma compact_text s x : json_text s x -> jtext (compact false s) x /\ one_line (compact false s).
Proof.
  intros (a & t & b & -> & Ha & Ht & Hb). destruct (all_squeeze x t Ht) as (t' & E & Ht' & Lt).
  rewrite blanks_compact, E by exact Ha. rewrite <- (app_nil_r b), blanks_compact by exact Hb. cbn [compact]. rewrite app_nil_r. auto.
Qed.
Lemma ws_nil r : ws r = [] -> blanks r.
Proof. intros H. destruct (ws_split r) as (a & E & Ha). rewrite H, app_nil_r in E. now subst. Qed.
Lemma blanks_ws r : blanks r -> ws r = [].
Proof. intros H. rewrite <- (app_nil_r r), ws_blanks by exact H. reflexivity. Qed.
Lemma jvalid_true s : jvalid s = true -> exists x, json_text s x /\ N.of_nat (tdepth x) <= 10000.
Proof.
  unfold jvalid. destruct (pvalue _ 0 s) as [[v r]|] eqn:E; [|discriminate]. destruct (ws r) eqn:W; [|discriminate]. intros _.
  destruct (parse_sound (2 * length s + 2) 0 s v r) as [Hp _]. destruct (Hp (Nat.le_0_l _) E) as (a & t & x & Hs & Ha & Ht & -> & Hd).
  exists x. split; [exists a, t, r; repeat split; auto using ws_nil|]. apply maxdepth_le. lia.
Qed.
Lemma jvalid_false s x : jvalid s = false -> json_text s x -> 10000 < N.of_nat (tdepth x).
Proof.
  unfold jvalid. intros H Hx. destruct (text_parse s x Hx) as (b & Hb & Hp). rewrite Hp in H.
  destruct (Nat.leb_spec (tdepth x) maxdepth) as [Hd|Hd]; [rewrite (blanks_ws b Hb) in H; discriminate|]. pose proof maxdepth_n. lia.
Qed.

(* ---- members ---- *)
Definition pair_ok (p : bytes) (e : bytes * jtree) : Prop := memb p e /\ one_line p.
Lemma sstr_line s : one_line (sstr s).
Proof. destruct (sstr_inner s) as (q & -> & H). apply one_app; [lit|]. apply one_app; [eapply jstring_line; eauto|lit]. Qed.
Lemma pair_intro k t x : jtext t x -> one_line t -> pair_ok (sstr k ++ B ":" ++ t) (cleaned k, x).
Proof.
  intros Ht Lt. split.
  - destruct (sstr_inner k) as (q & -> & Hq). exists [], q, [], [], t, []. cbn [fst snd]. rewrite <- !app_assoc, app_nil_r. cbn [app].
    repeat split; auto using no_blanks.
  - apply one_app; [apply sstr_line|]. apply one_app; [lit|exact Lt].
Qed.
Lemma pairs_join ps l : Forall2 pair_ok ps l -> one_line (join (B ",") ps).
Proof.
  induction 1 as [|p e ps l (_ & Hp) H IH]; [constructor|]. destruct ps as [|p2 ps]; [exact Hp|]. rewrite join_cons.
  apply one_app; [exact Hp|]. apply one_app; [lit|exact IH].
Qed.
Lemma pairs_obj ps l : Forall2 pair_ok ps l -> jtext (group false 123 125 0 ps) (TObj l) /\ one_line (group false 123 125 0 ps).
Proof.
  intros H. destruct ps as [|p ps].
  - inversion H; subst. split; [apply (jt_obj0 [] no_blanks)|lit].
  - assert (E : group false 123 125 0 (p :: ps) = B "{" ++ join (B ",") (p :: ps) ++ B "}") by reflexivity. rewrite E. split.
    + apply jt_obj. change (Forall2 memb (p :: ps) l). clear E. induction H as [|q e qs l' (Hq & _) H IH]; constructor; auto.
    + apply one_app; [lit|]. apply one_app; [eapply pairs_join; eauto|lit].
Qed.
Section Lines.
  Context (now : bytes) (err : bytes -> bytes).
  Lemma json_value j : exists x, jtext (value_text now err (SJson j)) x /\ one_line (value_text now err (SJson j)) /\ tag_shows j x.
  Proof.
    cbn [value_text]. destruct (jvalid j) eqn:E.
    - destruct (jvalid_true _ E) as (x & Hx & Hd). destruct (compact_text _ _ Hx). exists x. repeat split; auto. left. auto.
    - exists (TStr (cleaned (B "!ERROR:" ++ err j))). split; [apply sstr_text|]. split; [apply sstr_line|]. right. split.
      + intros y Hy. eapply jvalid_false; eauto.
      + exists (cleaned (err j)). reflexivity.
  Qed.
  Lemma member_plain k v : k <> B "level" -> k <> B "msg" -> member now err (k, v) = Ok (sstr k ++ B ":" ++ value_text now err v).
  Proof.
    intros H1 H2. unfold member, replace. cbn [fst snd]. destruct (beqb k (B "level")) eqn:E1; [apply beqb_eq in E1; congruence|].
    destruct (beqb k (B "msg")) eqn:E2; [apply beqb_eq in E2; congruence|]. reflexivity.
  Qed.
  Lemma members_tags (l : list (bytes * bytes)) : ~ In (B "level") (map fst l) -> ~ In (B "msg") (map fst l) ->
    exists ps tl, members now err (map (fun e => (fst e, SJson (snd e))) l) = Ok ps /\ Forall2 pair_ok ps tl /\
      Forall2 (fun e f => fst f = cleaned (fst e) /\ tag_shows (snd e) (snd f)) l tl.
  Proof.
    induction l as [|[k j] l IH]; intros H1 H2; [exists [], []; repeat split; constructor|]. cbn [map fst snd] in *.
    destruct IH as (ps & tl & E & F & G); [intros Q; apply H1; now right|intros Q; apply H2; now right|].
    destruct (json_value j) as (x & Hx & Lx & Sx).
    exists ((sstr k ++ B ":" ++ value_text now err (SJson j)) :: ps), ((cleaned k, x) :: tl). split; [|split].
    - cbn [members]. rewrite member_plain; [|intros ->; apply H1; now left|intros ->; apply H2; now left]. cbn [rbind]. rewrite E. reflexivity.
    - constructor; auto using pair_intro.
    - constructor; auto.
  Qed.
  Lemma members_level (l : list (bytes * bytes)) : In (B "level") (map fst l) -> members now err (map (fun e => (fst e, SJson (snd e))) l) = Panic.
  Proof.
    induction l as [|[k j] l IH]; intros H; [destruct H|]. cbn [map fst snd members] in *. destruct H as [->|H].
    - reflexivity.
    - rewrite IH by exact H. destruct (member _ _ _); reflexivity.
  Qed.
End Lines.

(* ---- levels ---- *)
Lemma lower_app a b : to_lower (a ++ b) = to_lower a ++ to_lower b.
Proof. apply map_app. Qed.
Lemma lower_id s : Forall (fun c => code c < 65) s -> to_lower s = s.
Proof.
  unfold to_lower. induction 1 as [|c s H _ IH]; cbn; [reflexivity|]. rewrite IH.
  replace (65 <=? code c) with false by (symmetry; apply N.leb_gt; exact H). reflexivity.
Qed.
Lemma decz_low z : Forall (fun c => code c < 65) (decz z).
Proof.
  assert (D : forall s, Forall (fun c => is_digit c = true) s -> Forall (fun c => code c < 65) s).
  { intros s. apply Forall_impl. intros c H. unfold is_digit in H. apply andb_true_iff in H as [_ H]. apply N.leb_le in H. lia. }
  unfold decz. destruct (z <? 0)%Z; [constructor; [vm_compute; reflexivity|]|]; apply D; apply dec_digits.
Qed.
Lemma level_reads l : reads_level (to_lower (level_string l)) l.
Proof.
  unfold level_string.
  assert (G : forall (n m : bytes) (b d : Z), to_lower n = m -> In (m, b) level_names ->
    reads_level (to_lower (if Z.eqb d 0 then n else n ++ (if Z.ltb 0 d then B "+" else []) ++ decz d)) (b + d)).
  { intros n m b d Hn Hin. destruct (Z.eqb_spec d 0) as [->|Hd].
    - rewrite Hn, Z.add_0_r. now constructor.
    - rewrite lower_app, Hn, lower_app, (lower_id (decz d)) by apply decz_low. destruct (Z.ltb_spec 0 d).
      + change (to_lower (B "+")) with (B "+"). now apply rl_above.
      + change (to_lower []) with (@nil ascii). apply rl_below; [assumption|lia]. }
  assert (K : forall (n m : bytes) (b d : Z), to_lower n = m -> In (m, b) level_names -> (b + d = l)%Z ->
    reads_level (to_lower (if Z.eqb d 0 then n else n ++ (if Z.ltb 0 d then B "+" else []) ++ decz d)) l) by (intros; subst l; eauto).
  destruct (Z.ltb_spec l 0); [apply (K _ (B "debug") (-4)%Z); [reflexivity|cbn; auto|lia]|].
  destruct (Z.ltb_spec l 4); [apply (K _ (B "info") 0%Z); [reflexivity|cbn; auto|lia]|].
  destruct (Z.ltb_spec l 8); [apply (K _ (B "warn") 4%Z); [reflexivity|cbn; auto|lia]|].
  apply (K _ (B "error") 8%Z); [reflexivity|cbn; auto|lia].
Qed.

(* a level has one reading: the text after the name is a number *)
Lemma reads_one t a b : reads_level t a -> reads_level t b -> a = b.
Proof.
  assert (S : forall n b, In (n, b) level_names -> Forall (fun c => 97 <= code c) n).
  { intros n x H. repeat (destruct H as [H|H]; [injection H as <- _; repeat constructor; discriminate|]). destruct H. }
  assert (U : forall (n m s u : bytes), Forall (fun c => 97 <= code c) n -> Forall (fun c => 97 <= code c) m ->
     Forall (fun c => code c < 65) s -> Forall (fun c => code c < 65) u -> n ++ s = m ++ u -> n = m /\ s = u).
  { induction n as [|c n IH]; intros [|d m] s u Hn Hm Hs Hu E; cbn in E; auto.
    - subst s. inversion Hs; inversion Hm; subst. lia.
    - subst u. inversion Hu; inversion Hn; subst. lia.
    - injection E as -> E. inversion Hn; inversion Hm; subst. destruct (IH m s u) as (-> & ->); auto. }
  assert (W : forall t a, reads_level t a -> exists n s b d, t = n ++ s /\ In (n, b) level_names /\ Forall (fun c => code c < 65) s /\ (a = b + d)%Z /\
     (s = [] /\ d = 0 \/ s = B "+" ++ decz d /\ 0 < d \/ s = decz d /\ d < 0)%Z).
  { intros x y [n z H|n z d H Hd|n z d H Hd].
    - exists n, [], z, 0%Z. rewrite app_nil_r. repeat split; auto. lia.
    - exists n, (B "+" ++ decz d), z, d. repeat split; auto. constructor; [vm_compute; reflexivity|apply decz_low].
    - exists n, (decz d), z, d. repeat split; auto. apply decz_low. }
  intros Ha Hb. destruct (W _ _ Ha) as (n & s & x & d & -> & Hn & Hs & -> & Cs). destruct (W _ _ Hb) as (m & u & y & e & E & Hm & Hu & -> & Cu).
  destruct (U n m s u) as (-> & ->); eauto.
  assert (x = y).
  { unfold level_names in Hn, Hm. cbn [In] in Hn, Hm.
    repeat (destruct Hn as [Hn|Hn]; [|]); try contradiction; injection Hn as <- <-;
      repeat (destruct Hm as [Hm|Hm]; [|]); try contradiction; injection Hm; intros; subst; try reflexivity; discriminate. }
  subst y. f_equal.
  assert (P : forall z, (z < 0)%Z -> decz z = B "-" ++ dec (Z.abs_N z)).
  { intros z Hz. unfold decz. apply Z.ltb_lt in Hz. rewrite Hz. reflexivity. }
  destruct Cs as [(-> & ->)|[(-> & Hd)|(-> & Hd)]]; destruct Cu as [(Q & ->)|[(Q & He)|(Q & He)]]; auto.
  - discriminate.
  - rewrite (P e He) in Q. discriminate.
  - discriminate.
  - apply app_inv_head in Q. now apply decz_inj in Q.
  - rewrite (P e He) in Q. discriminate.
  - rewrite (P d Hd) in Q. discriminate.
  - rewrite (P d Hd) in Q. discriminate.
  - now apply decz_inj in Q.
Qed.

Lemma reads_ascii t a : reads_level t a -> Forall (fun c => code c < 0x80) t.
Proof.
  assert (S : forall n b, In (n, b) level_names -> Forall (fun c => code c < 0x80) n).
  { intros n x H. repeat (destruct H as [H|H]; [injection H as <- _; repeat constructor|]). destruct H. }
  assert (D : forall z, Forall (fun c => code c < 0x80) (decz z)) by (intros z; eapply Forall_impl; [|apply decz_low]; cbn; intros; lia).
  intros [n b H|n b d H Hd|n b d H Hd]; eauto; apply Forall_app; split; eauto. constructor; [vm_compute; reflexivity|apply D].
Qed.

(* ---- lines ---- *)
Lemma log_line now err min lvl src msg tags : clock_text now -> (min <= lvl)%Z -> ~ In (B "level") (map fst tags) -> ~ In (B "msg") (map fst tags) ->
  exists line, log_attrs now err min lvl src msg tags = Ok (Some line) /\ line_says line now lvl msg src tags.
Proof.
  intros Hc Hl H1 H2. unfold log_attrs. replace (lvl <? min)%Z with false by (symmetry; apply Z.ltb_ge; exact Hl).
  destruct (members_tags now err tags H1 H2) as (ps & tl & E & F & G).
  assert (T : jtext (value_text now err STime) (TStr now) /\ one_line (value_text now err STime)).
  { cbn [value_text]. change (dquote :: now ++ [dquote]) with (B """" ++ now ++ B """"). split.
    - constructor. clear -Hc. induction Hc as [|c s (H1 & H2 & H3) _ IH]; [constructor|].
      assert (Ec : [c] = encode_rune (code c)) by (rewrite encode_ascii by lia; now rewrite chr_code).
      change (c :: s) with ([c] ++ s). rewrite Ec. apply js_rune; auto; [|lia]. unfold valid_rune. apply orb_true_iff. left. apply N.ltb_lt. lia.
    - apply one_app; [lit|]. apply one_app; [|lit]. eapply Forall_impl; [|exact Hc]. cbn. intros. lia. }
  pose (base := [sstr (B "time") ++ B ":" ++ value_text now err STime;
                 sstr (B "level") ++ B ":" ++ sstr (to_lower (level_string lvl)); sstr (B "message") ++ B ":" ++ sstr msg]).
  pose (srcs := match src with [] => [] | _ => [sstr (B "src") ++ B ":" ++ sstr src] end).
  pose (tgs := match ps with [] => [] | _ => [sstr (B "tags") ++ B ":" ++ group false 123 125 0 ps] end).
  assert (A : attrs_text now err (At (B "time") STime :: At (B "level") (SLevel lvl) :: At (B "msg") (SStr msg) ::
     match src with [] => [] | _ => [At (B "src") (SStr src)] end ++ [Gr (B "tags") (map (fun e => (fst e, SJson (snd e))) tags)]) = Ok (base ++ srcs ++ tgs)).
  { assert (Q : attrs_text now err [Gr (B "tags") (map (fun e => (fst e, SJson (snd e))) tags)] = Ok tgs).
    { unfold tgs. destruct tags as [|e tags]; cbn [map attrs_text]; [inversion G; subst; inversion F; reflexivity|].
      change (map (fun e => (fst e, SJson (snd e))) (e :: tags)) with ((fst e, SJson (snd e)) :: map (fun e => (fst e, SJson (snd e))) tags) in E.
      rewrite E. cbn [rbind]. inversion G; subst. inversion F; subst. reflexivity. }
    unfold srcs. destruct src as [|c src].
    - cbn [app attrs_text]. change (attrs_text now err [Gr (B "tags") (map (fun e => (fst e, SJson (snd e))) tags)]) with (attrs_text now err [Gr (B "tags") (map (fun e => (fst e, SJson (snd e))) tags)]) in Q.
      cbn [attrs_text] in Q. rewrite Q. reflexivity.
    - cbn [app attrs_text]. cbn [attrs_text] in Q. rewrite Q. reflexivity. }
  unfold handle. rewrite A. cbn [rbind]. eexists. split; [reflexivity|].
  assert (P : Forall2 pair_ok (base ++ srcs ++ tgs)
    ([(B "time", TStr now); (B "level", TStr (to_lower (level_string lvl))); (B "message", TStr (cleaned msg))] ++
     match src with [] => [] | _ => [(B "src", TStr (cleaned src))] end ++ match tl with [] => [] | _ => [(B "tags", TObj tl)] end)).
  { assert (Lv : cleaned (to_lower (level_string lvl)) = to_lower (level_string lvl)).
    { apply cleaned_valid, valid_ascii. eapply reads_ascii, level_reads. }
    apply Forall2_app; [|apply Forall2_app].
    - constructor; [apply (pair_intro (B "time")); apply T|]. constructor; [rewrite <- Lv at 2; apply (pair_intro (B "level")); auto using sstr_text, sstr_line|].
      constructor; [|constructor]. apply (pair_intro (B "message")); auto using sstr_text, sstr_line.
    - unfold srcs. destruct src; constructor; [|constructor]. apply (pair_intro (B "src")); auto using sstr_text, sstr_line.
    - unfold tgs. destruct F as [|p e ps tl Hp F]; [constructor|]. constructor; [|constructor].
      destruct (pairs_obj (p :: ps) (e :: tl)) as (O1 & O2); [constructor; auto|]. apply (pair_intro (B "tags")); auto. }
  destruct (pairs_obj _ _ P) as (O1 & O2).
  exists (group false 123 125 0 (base ++ srcs ++ tgs)), (to_lower (level_string lvl)), tl.
  split; [reflexivity|]. split; [exact O2|]. split; [apply level_reads|]. split; [|exact G].
  exists [], (group false 123 125 0 (base ++ srcs ++ tgs)), []. rewrite app_nil_r. repeat split; auto using no_blanks.
Qed.
