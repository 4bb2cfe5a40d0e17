(* Theorems about test.EqualsJSON and NotEqualsJSON: C103. *)
From Coq Require Import Bool Ascii String Arith NArith ZArith Lia List Permutation Sorted.
From Verif Require Import Prelude PreludeFacts Utf8Model Utf8Facts QuoteModel DecModel DecFacts DurModel DurProofs EncModel EncFacts KvSpec KvProofs
  JsonModel JsonSpec JsonFacts JsonProofs JsonParse RfcSpec RfcString RfcProofs RfcProps EqModel EqSpec EqFloat EqProofs.
Import ListNotations.
Local Open Scope N_scope.

(* given as a string, a []byte or a json.RawMessage *)
Definition as_text (g : given) (s : bytes) : Prop := g = GStr s \/ g = GBytes (Some s) \/ g = GRaw (Some s).
Definition opposite (v : verdict) : verdict := match v with Passes => Fails | Fails => Passes end.

Lemma verdict_text ftext message short e g a b : jsonish ftext message short e = Ok a -> jsonish ftext message short g = Ok b ->
  exists v, EqualsJSON ftext message short e g = Ok v /\ NotEqualsJSON ftext message short e g = Ok (opposite v) /\ (v = Passes <-> a = b).
Proof.
  intros Ha Hb. unfold EqualsJSON, NotEqualsJSON, equalJSON. rewrite Ha, Hb. cbn [rbind]. exists (if beqb a b then Passes else Fails).
  split; auto. split; [now destruct (beqb a b)|]. destruct (beqb a b) eqn:E.
  - apply beqb_eq in E. tauto.
  - split; [discriminate|]. intros ->. rewrite beqb_refl in E. discriminate.
Qed.

(* C103: two JSON texts are equal iff they say the same, with numbers read as float64. *)
Theorem C103_texts : forall ftext message short, prints ftext -> forall e g s t x y,
  as_text e s -> as_text g t -> json_text s x -> json_text t y -> N.of_nat (tdepth x) <= 10000 -> N.of_nat (tdepth y) <= 10000 -> in_range x -> in_range y ->
  exists v, EqualsJSON ftext message short e g = Ok v /\ NotEqualsJSON ftext message short e g = Ok (opposite v) /\ (v = Passes <-> alike same_float x y).
Proof.
  intros ftext message short HP e g s t x y He Hg Hs Ht Dx Dy Rx Ry.
  destruct (verdict_text ftext message short e g _ _ (tree_jsonish ftext message short HP e s x He Hs Dx Rx) (tree_jsonish ftext message short HP g t y Hg Ht Dy Ry))
    as (v & H1 & H2 & H3). exists v. split; auto. split; auto. rewrite H3, alike_jsame by eauto.
  destruct (tree_good s x Hs Dx) as (_ & G1 & D1). destruct (tree_good t y Ht Dy) as (_ & G2 & D2).
  apply jsame_text; auto using cj_good; pose proof (cj_depth ftext (jval_of x)); pose proof (cj_depth ftext (jval_of y)); lia.
Qed.
Print Assumptions C103_texts.

(* ---- numbers held exactly ---- *)
Lemma exact_same s t : exact s -> exact t -> (same_float s t <-> same_number s t).
Proof.
  intros (neg & P & Q & k & Hs & Hg & Hk & E) (neg' & P' & Q' & k' & Hs' & Hg' & Hk' & E').
  pose proof (says_pos _ _ _ _ Hs) as HQ. pose proof (says_pos _ _ _ _ Hs') as HQ'. pose proof (pow2_pos 1074) as Hp. split.
  - intros (f & (p & q & F1 & F2 & _) & (p' & q' & F1' & F2' & _)).
    destruct (says_unique _ _ _ _ _ _ _ Hs F1) as (-> & <- & <-). destruct (says_unique _ _ _ _ _ _ _ Hs' F1') as (-> & <- & <-).
    exists (fst f), P, Q, P', Q'. split; auto. split; auto.
    assert (k = snd f) by (eapply nearest_unique; [|exact F2]; now apply exact_nearest). assert (k' = snd f) by (eapply nearest_unique; [|exact F2']; now apply exact_nearest).
    assert (Ek : k = k') by congruence. apply N.mul_cancel_r with (p := 2 ^ 1074); [lia|].
    rewrite (N.mul_shuffle0 P), E, (N.mul_shuffle0 P'), E', Ek. apply N.mul_shuffle0.
  - intros (n & p & q & p' & q' & F1 & F1' & F).
    destruct (says_unique _ _ _ _ _ _ _ Hs F1) as (<- & <- & <-). destruct (says_unique _ _ _ _ _ _ _ Hs' F1') as (-> & <- & <-).
    exists (neg, k). assert (Hn : nearest P Q k) by now apply exact_nearest. split.
    + exists P, Q. auto.
    + exists P', Q'. split; auto. split; auto. apply (nearest_same P Q); auto.
Qed.
Lemma alike_mono (A : bytes -> Prop) (R R' : bytes -> bytes -> Prop) : (forall s t, A s -> A t -> R s t -> R' s t) -> forall x y, all_numbers A x -> all_numbers A y -> alike R x y -> alike R' x y.
Proof.
  intros HR. induction x as [|b|s|s|l Hl|l Hl] using jtree_ind2; intros y Ax Ay H; inversion H as [| |? ? Hr| |? m Hf|? m H1 H2]; subst; try constructor; auto.
  - clear H. cbn in Ax, Ay. revert Hl Ax Ay. induction Hf as [|x y l m Hxy Hf IH]; intros Hl Ax Ay; constructor; inversion Hl; subst; cbn in Ax, Ay; [apply H1; tauto|apply IH; tauto].
  - intros k x Hx. destruct (H1 k x Hx) as (y & Hy & Ha). exists y. split; auto. cbn in Ax, Ay. destruct (all_last A l k x Ax Hx) as [Hi A1]. destruct (all_last A m k y Ay Hy) as [_ A2].
    apply in_map_iff in Hi as (e & <- & Hi). rewrite Forall_forall in Hl. now apply (Hl e Hi).
Qed.

(* C103: two JSON texts whose numbers float64 holds exactly are equal iff they say the same. *)
Theorem C103_exact : forall ftext message short, prints ftext -> forall e g s t x y,
  as_text e s -> as_text g t -> json_text s x -> json_text t y -> N.of_nat (tdepth x) <= 10000 -> N.of_nat (tdepth y) <= 10000 ->
  all_numbers exact x -> all_numbers exact y ->
  exists v, EqualsJSON ftext message short e g = Ok v /\ NotEqualsJSON ftext message short e g = Ok (opposite v) /\ (v = Passes <-> alike same_number x y).
Proof.
  intros ftext message short HP e g s t x y He Hg Hs Ht Dx Dy Rx Ry.
  destruct (C103_texts ftext message short HP e g s t x y He Hg Hs Ht Dx Dy (exact_in_range x Rx) (exact_in_range y Ry)) as (v & H1 & H2 & H3).
  exists v. split; auto. split; auto. rewrite H3. split; apply (alike_mono exact); auto; intros a b Ha Hb; apply exact_same; auto.
Qed.
Print Assumptions C103_exact.

(* C103: a Go value and a JSON text are equal iff the text says the value, whatever the spelling and the order of the members. *)
Theorem C103_values : forall ftext message short, prints ftext -> forall n g s x,
  plain n -> N.of_nat (ndepth n) <= 10000 -> as_text g s -> json_text s x -> N.of_nat (tdepth x) <= 10000 -> all_numbers exact x ->
  exists v, EqualsJSON ftext message short (GValue (Good n)) g = Ok v /\ NotEqualsJSON ftext message short (GValue (Good n)) g = Ok (opposite v) /\ (v = Passes <-> agrees n x).
Proof.
  intros ftext message short HP n g s x Hn Dn Hg Hs Dx Ax.
  destruct (verdict_text ftext message short (GValue (Good n)) g _ _ (value_jsonish ftext message short n Hn)
    (tree_jsonish ftext message short HP g s x Hg Hs Dx (exact_in_range x Ax))) as (v & H1 & H2 & H3). exists v. split; auto. split; auto.
  rewrite H3, (agrees_jsame ftext message HP n x Hn Ax). destruct (tree_good s x Hs Dx) as (_ & G1 & D1).
  apply jsame_text; auto using cj_good, nj_good; pose proof (cj_depth ftext (jval_of x)); pose proof (nj_depth n); lia.
Qed.
Print Assumptions C103_values.

(* C103: "a value equals its own JSON" is false for every struct whose fields are not in the order of their names: it equals no text at all. *)
Theorem C103_struct_refuted : forall ftext message short, prints ftext -> forall l g s x,
  good_node (NPairs l) -> NoDup (json_names l) -> N.of_nat (ndepth (NPairs l)) <= 10000 -> ~ in_order (json_names l) ->
  as_text g s -> json_text s x -> N.of_nat (tdepth x) <= 10000 -> in_range x ->
  EqualsJSON ftext message short (GValue (Good (NPairs l))) g = Ok Fails.
Proof.
  intros ftext message short HP l g s x Gl Nl Dl Ho Hg Hs Dx Rx.
  assert (Hj : jsonish ftext message short (GValue (Good (NPairs l))) = Ok (jenc short false 0 (NPairs l))).
  { unfold jsonish, marshalled, Encode. now rewrite good_encodable. }
  destruct (verdict_text ftext message short _ g _ _ Hj (tree_jsonish ftext message short HP g s x Hg Hs Dx Rx)) as (v & H1 & _ & H3).
  rewrite H1. destruct v; auto. exfalso. apply Ho. destruct (tree_good s x Hs Dx) as (_ & G1 & D1).
  eapply (pairs_text short l (cj ftext (jval_of x))); auto using cj_good; [pose proof (cj_depth ftext (jval_of x)); lia|]. now apply H3.
Qed.
Print Assumptions C103_struct_refuted.

(* ---- a text of floats, for the examples ---- *)
Definition some_text (f : f64) : bytes :=
  let q := snd f / 2 ^ 1074 in
  if (snd f mod 2 ^ 1074 =? 0) && (q <=? 2 ^ 53) && negb (fst f && (q =? 0)) then decz (if fst f then - Z.of_N q else Z.of_N q)
  else decz (if fst f then - Z.of_N (snd f) - 1 else Z.of_N (snd f)) ++ B "e1".
Lemma decz_exp z : json_number (decz z ++ B "e1").
Proof.
  destruct (decz_number z) as (sg & ip & fr & ex & E & H1 & H2 & H3 & H4).
  assert (Hn : forall c, In c (decz z) -> code c <> 46 /\ code c <> 101 /\ code c <> 69).
  { intros c Hc. assert (Hd : forall n, In c (dec n) -> code c <> 46 /\ code c <> 101 /\ code c <> 69).
    { intros n Hi. pose proof (dec_digits n) as Hf. rewrite Forall_forall in Hf. apply Hf in Hi. apply EqFloat.digit_code in Hi. lia. }
    unfold decz in Hc. destruct (z <? 0)%Z; [|eauto]. destruct Hc as [<-|Hc]; [|eauto]. vm_compute. repeat split; congruence. }
  assert (F : fr = []). { destruct H3 as [->|(d & -> & _)]; auto. exfalso. destruct (Hn (chr 46)) as (K & _). { rewrite E. apply in_or_app. right. apply in_or_app. right. left. reflexivity. } now apply K. }
  assert (X : ex = []). { destruct H4 as [->|(e & g & d & -> & He & _)]; auto. exfalso.
    destruct He as [->| ->]; [destruct (Hn (chr 101)) as (_ & K & _)|destruct (Hn (chr 69)) as (_ & _ & K)];
      try (now apply K); rewrite E; apply in_or_app; right; apply in_or_app; right; apply in_or_app; right; left; reflexivity. }
  subst fr ex. exists sg, ip, [], (B "e1"). split; [rewrite E, !app_nil_r, <- app_assoc; reflexivity|]. repeat split; auto.
  right. exists (B "e"), [], (B "1"). repeat split; auto; [discriminate|]. repeat constructor.
Qed.
Lemma decz_e z w : decz z = decz w ++ B "e1" -> False.
Proof.
  intros E. assert (Hc : In (chr 101) (decz z)). { rewrite E. apply in_or_app. right. left. reflexivity. }
  assert (Hd : forall n, In (chr 101) (dec n) -> False).
  { intros n Hi. pose proof (dec_digits n) as Hf. rewrite Forall_forall in Hf. apply Hf in Hi. discriminate. }
  unfold decz in Hc. destruct (z <? 0)%Z; [|eauto]. destruct Hc as [Hc|Hc]; [discriminate|eauto].
Qed.
Lemma some_text_prints : prints some_text.
Proof.
  split; [|split].
  - intros f _. unfold some_text. cbv zeta. match goal with |- context [if ?b then _ else _] => destruct b end; [apply decz_number|apply decz_exp].
  - intros [n k] [n' k'] _ _. unfold some_text. cbn [fst snd]. cbv zeta. pose proof (pow2_pos 1074) as Hp. set (T := 2 ^ 1074) in *. clearbody T. set (M := 2 ^ 53). clearbody M.
    destruct ((k mod T =? 0) && (k / T <=? M) && negb (n && (k / T =? 0))) eqn:C; destruct ((k' mod T =? 0) && (k' / T <=? M) && negb (n' && (k' / T =? 0))) eqn:C'; intros E.
    + apply decz_inj in E. apply andb_true_iff in C as [C C2]. apply andb_true_iff in C as [C1 _]. apply andb_true_iff in C' as [C' C2']. apply andb_true_iff in C' as [C1' _].
      apply N.eqb_eq in C1, C1'.
      pose proof (N.div_mod k T ltac:(lia)) as D. pose proof (N.div_mod k' T ltac:(lia)) as D'. rewrite C1, N.add_0_r in D. rewrite C1', N.add_0_r in D'.
      set (q := k / T) in *. set (q' := k' / T) in *. clearbody q q'.
      assert (H : n = n' /\ q = q').
      { destruct n, n'; cbn [andb] in C2, C2'; try (apply negb_true_iff in C2; apply N.eqb_neq in C2); try (apply negb_true_iff in C2'; apply N.eqb_neq in C2'); split; lia. }
      destruct H as [-> ->]. congruence.
    + now apply decz_e in E.
    + symmetry in E. now apply decz_e in E.
    + apply app_inv_tail in E. apply decz_inj in E. f_equal; destruct n, n'; try reflexivity; lia.
  - intros z Hz. unfold some_text. cbn [fst snd]. cbv zeta. pose proof (pow2_pos 1074) as Hp. rewrite N.mod_mul, N.div_mul by lia.
    assert (Hn : (Z.abs_N z <=? 2 ^ 53) = true) by (apply N.leb_le; lia). rewrite Hn. cbn [N.eqb andb].
    destruct (Z.ltb_spec z 0) as [H|H]; cbn [andb negb].
    + replace (Z.abs_N z =? 0) with false by (symmetry; apply N.eqb_neq; lia). cbn [negb]. f_equal. lia.
    + f_equal. lia.
Qed.

(* ---- further refutations ---- *)
(* C103: "different numbers are not equal" is false beyond 2^53. *)
Theorem C103_digits_refuted : exists s t x y, json_text s x /\ json_text t y /\ ~ alike same_number x y /\
  forall ftext message short, prints ftext -> EqualsJSON ftext message short (GStr s) (GStr t) = Ok Passes.
Proof.
  exists (B "9007199254740993"), (B "9007199254740992"), (TNum (B "9007199254740993")), (TNum (B "9007199254740992")).
  assert (J : forall s, is_number s = true -> json_text s (TNum s)).
  { intros s H. exists [], s, []. rewrite app_nil_r. split; auto. split; [constructor|]. split; [|constructor]. constructor. now apply is_number_spec. }
  split; [now apply J|]. split; [now apply J|]. split.
  - intros H. inversion H as [| |? ? (neg & P & Q & P' & Q' & H1 & H2 & E)| | |]; subst.
    apply says_parts in H1 as (M & E1 & N1 & -> & ->). apply says_parts in H2 as (M' & E2 & N2 & -> & ->).
    vm_compute in N1. injection N1 as _ <- <-. vm_compute in N2. injection N2 as _ <- <-. vm_compute in E. discriminate.
  - intros ftext message short HP.
    assert (U : forall j s f, whole j = Some (JNum s) -> convert s = Some f -> marshalled ftext message (GStr j) = Good (NFloat (Floatv [] [] (ftext f)))).
    { intros j s f H1 H2. unfold marshalled, unmarshalled. rewrite H1, H2. cbn [native]. now rewrite H2. }
    assert (C : convert (B "9007199254740993") = Some (false, 2 ^ 53 * 2 ^ 1074)) by (vm_compute; reflexivity).
    assert (C' : convert (B "9007199254740992") = Some (false, 2 ^ 53 * 2 ^ 1074)) by (vm_compute; reflexivity).
    assert (K : json_number (ftext (false, 2 ^ 53 * 2 ^ 1074))).
    { apply HP. split; [exists (2 ^ 52), (1 + 1074); split; vm_compute; reflexivity|vm_compute; reflexivity]. }
    apply is_number_spec in K. unfold EqualsJSON, equalJSON, jsonish.
    rewrite (U (B "9007199254740993") (B "9007199254740993") _ ltac:(vm_compute; reflexivity) C), (U (B "9007199254740992") (B "9007199254740992") _ ltac:(vm_compute; reflexivity) C').
    unfold Encode. cbn [encodable f_json]. rewrite K. cbn [rbind]. now rewrite beqb_refl.
Qed.
Print Assumptions C103_digits_refuted.

(* C103: "an integer equals its own JSON" is false beyond 2^53. *)
Theorem C103_integer_refuted : exists z s, (0 <= z < 2 ^ 63)%Z /\ forall ftext message short, prints ftext ->
  Encode short false (NInt z) = Ok s /\ EqualsJSON ftext message short (GValue (Good (NInt z))) (GStr s) = Ok Fails.
Proof.
  exists (2 ^ 53 + 1)%Z, (B "9007199254740993"). split; [lia|]. intros ftext message short HP. split; [vm_compute; reflexivity|].
  assert (C : convert (B "9007199254740993") = Some (false, 2 ^ 53 * 2 ^ 1074)) by (vm_compute; reflexivity).
  assert (F : ftext (false, 2 ^ 53 * 2 ^ 1074) = decz (2 ^ 53)). { destruct HP as (_ & _ & Hi). apply (Hi (2 ^ 53)%Z). lia. }
  assert (U : marshalled ftext message (GStr (B "9007199254740993")) = Good (NFloat (Floatv [] [] (decz (2 ^ 53))))).
  { unfold marshalled, unmarshalled. replace (whole (B "9007199254740993")) with (Some (JNum (B "9007199254740993"))) by (vm_compute; reflexivity). rewrite C. cbn [native]. now rewrite C, F. }
  unfold EqualsJSON, equalJSON, jsonish. rewrite U. destruct short; vm_compute; reflexivity.
Qed.
Print Assumptions C103_integer_refuted.

(* C103: numbers beyond the range of float64 are null within a text, and a string when they are all of it. *)
Theorem C103_range_refuted : forall ftext message short,
  EqualsJSON ftext message short (GStr (B "[1e999]")) (GStr (B "[null]")) = Ok Passes /\
  EqualsJSON ftext message short (GStr (B "1e999")) (GStr (B """1e999""")) = Ok Passes /\
  EqualsJSON ftext message short (GStr (B "1e999")) (GRaw (Some (B "1e999"))) = Ok Fails.
Proof.
  intros ftext message short.
  assert (C : convert (B "1e999") = None) by (vm_compute; reflexivity).
  assert (U1 : marshalled ftext message (GStr (B "[1e999]")) = Good (NList [NNil])).
  { unfold marshalled, unmarshalled. replace (whole (B "[1e999]")) with (Some (JArr [JNum (B "1e999")])) by (vm_compute; reflexivity). cbn [native map]. now rewrite C. }
  assert (U2 : marshalled ftext message (GStr (B "1e999")) = Good (NStr (B "1e999"))).
  { unfold marshalled, unmarshalled. replace (whole (B "1e999")) with (Some (JNum (B "1e999"))) by (vm_compute; reflexivity). now rewrite C. }
  assert (U3 : marshalled ftext message (GRaw (Some (B "1e999"))) = Good (NDigits (B "1e999"))).
  { unfold marshalled, unmarshalled. replace (whole (B "1e999")) with (Some (JNum (B "1e999"))) by (vm_compute; reflexivity). rewrite C. vm_compute. reflexivity. }
  split; [|split]; unfold EqualsJSON, equalJSON, jsonish; rewrite ?U1, ?U2, ?U3; destruct short; vm_compute; reflexivity.
Qed.
Print Assumptions C103_range_refuted.

(* C103: "what is no JSON equals no JSON" is false: a RawMessage with something after its value, and an error whose message is JSON. *)
Theorem C103_nojson_refuted : exists s m, (forall x, ~ json_text s x) /\ forall ftext message short,
  EqualsJSON ftext message short (GRaw (Some s)) (GStr (B "{}")) = Ok Passes /\
  EqualsJSON ftext message short (GValue (Fail m)) (GStr (B "null")) = Ok Passes.
Proof.
  exists (B "{}}"), (B "null"). split.
  - intros x H. destruct (text_parse _ x H) as (b & Hb & Hp).
    change (2 * length (B "{}}") + 2)%nat with 8%nat in Hp.
    assert (E : pvalue 8 0 (B "{}}") = Some (JObj [], [chr 125])) by (vm_compute; reflexivity). rewrite E in Hp.
    destruct (tdepth x <=? maxdepth)%nat; [|discriminate]. injection Hp as _ <-. inversion Hb as [|? ? H1 _]; subst.
    cbn [In] in H1. repeat (destruct H1 as [H1|H1]; [vm_compute in H1; discriminate|]). destruct H1.
  - intros ftext message short. split; destruct short; vm_compute; reflexivity.
Qed.
Print Assumptions C103_nojson_refuted.

(* C103: a []byte that is no JSON is the list of its bytes, never the string of them. *)
Theorem C103_bytes_refuted : exists s, forall ftext message short,
  EqualsJSON ftext message short (GBytes (Some s)) (GStr s) = Ok Fails /\
  EqualsJSON ftext message short (GBytes (Some s)) (GValue (Good (NList (map (fun c => NInt (Z.of_N (code c))) s)))) = Ok Passes.
Proof. exists (B "hello"). intros ftext message short. split; destruct short; vm_compute; reflexivity. Qed.
Print Assumptions C103_bytes_refuted.

(* ---- examples ---- *)
Lemma j_blank : blanks (B " "). Proof. repeat constructor. Qed.
Lemma j_num s : is_number s = true -> jtext s (TNum s). Proof. intros H. constructor. now apply is_number_spec. Qed.
Lemma j_ascii c : 32 <= code c < 128 -> code c <> 34 -> code c <> 92 -> forall s v, jstring s v -> jstring (c :: s) (c :: v).
Proof. intros Hc H1 H2 s v Hs. pose proof (js_rune (code c) s v) as J. rewrite encode_ascii, chr_code in J by lia. apply J; auto; try lia. unfold valid_rune. Nify_bool. lia. Qed.
Ltac j_name := apply j_ascii; [vm_compute; split; congruence|vm_compute; discriminate|vm_compute; discriminate|constructor].

Definition ex_s : bytes := B "{""b"":1.0,""a"":[5e-1]}".
Definition ex_t : bytes := B "{""a"":[0.50] ,""b"":1}".
Definition ex_x : jtree := TObj [(B "b", TNum (B "1.0")); (B "a", TArr [TNum (B "5e-1")])].
Definition ex_y : jtree := TObj [(B "a", TArr [TNum (B "0.50")]); (B "b", TNum (B "1"))].
Lemma ex_js : json_text ex_s ex_x.
Proof.
  exists [], ex_s, []. split; [now rewrite app_nil_r|]. split; [constructor|]. split; [|constructor].
  apply (jt_obj (B """b"":1.0") [B """a"":[5e-1]"]). constructor; [|constructor; [|constructor]].
  - exists [], (B "b"), [], [], (B "1.0"), []. split; [reflexivity|]. split; [constructor|]. split; [j_name|]. do 2 (split; [constructor|]). split; [now apply j_num|constructor].
  - exists [], (B "a"), [], [], (B "[5e-1]"), []. split; [reflexivity|]. split; [constructor|]. split; [j_name|]. do 2 (split; [constructor|]). split; [|constructor].
    apply (jt_arr (B "5e-1") []). constructor; [|constructor]. exists [], (B "5e-1"), []. split; [reflexivity|]. split; [constructor|]. split; [now apply j_num|constructor].
Qed.
Lemma ex_jt : json_text ex_t ex_y.
Proof.
  exists [], ex_t, []. split; [now rewrite app_nil_r|]. split; [constructor|]. split; [|constructor].
  apply (jt_obj (B """a"":[0.50] ") [B """b"":1"]). constructor; [|constructor; [|constructor]].
  - exists [], (B "a"), [], [], (B "[0.50]"), (B " "). split; [reflexivity|]. split; [constructor|]. split; [j_name|]. do 2 (split; [constructor|]). split; [|apply j_blank].
    apply (jt_arr (B "0.50") []). constructor; [|constructor]. exists [], (B "0.50"), []. split; [reflexivity|]. split; [constructor|]. split; [now apply j_num|constructor].
  - exists [], (B "b"), [], [], (B "1"), []. split; [reflexivity|]. split; [constructor|]. split; [j_name|]. do 2 (split; [constructor|]). split; [now apply j_num|constructor].
Qed.
Lemma ex_exact s neg M E k : is_number s = true -> num_parts s = (neg, M, E) -> grid k -> k < 2 ^ (1024 + 1074) -> M * 10 ^ Z.to_N E * 2 ^ 1074 = k * 10 ^ Z.to_N (- E) -> exact s.
Proof.
  intros H1 H2 H3 H4 H5. apply is_number_spec in H1. destruct (number_says s H1) as (n & P & Q & Hs). destruct (says_parts _ _ _ _ Hs) as (M' & E' & Hp & -> & ->).
  rewrite H2 in Hp. injection Hp as <- <- <-. exists neg. eauto 10.
Qed.
Lemma ex_one : grid (1 * 2 ^ 1074). Proof. exists 1, 1074. split; reflexivity. Qed.
Lemma ex_half : grid (1 * 2 ^ 1073). Proof. exists 1, 1073. split; reflexivity. Qed.
Lemma ex_ax : all_numbers exact ex_x.
Proof.
  cbn. repeat split.
  - apply (ex_exact _ false 10 (-1) (1 * 2 ^ 1074)); [vm_compute; reflexivity|vm_compute; reflexivity|apply ex_one|vm_compute; reflexivity|vm_compute; reflexivity].
  - apply (ex_exact _ false 5 (-1) (1 * 2 ^ 1073)); [vm_compute; reflexivity|vm_compute; reflexivity|apply ex_half|vm_compute; reflexivity|vm_compute; reflexivity].
Qed.
Lemma ex_ay : all_numbers exact ex_y.
Proof.
  cbn. repeat split.
  - apply (ex_exact _ false 50 (-2) (1 * 2 ^ 1073)); [vm_compute; reflexivity|vm_compute; reflexivity|apply ex_half|vm_compute; reflexivity|vm_compute; reflexivity].
  - apply (ex_exact _ false 1 0 (1 * 2 ^ 1074)); [vm_compute; reflexivity|vm_compute; reflexivity|apply ex_one|vm_compute; reflexivity|vm_compute; reflexivity].
Qed.
(* two spellings of an object, the members in another order: equal *)
Example C103_texts_ex : prints some_text /\ json_text ex_s ex_x /\ json_text ex_t ex_y /\ in_range ex_x /\ in_range ex_y /\
  all_numbers exact ex_x /\ all_numbers exact ex_y /\ (tdepth ex_x = 2)%nat /\ (tdepth ex_y = 2)%nat /\
  EqualsJSON some_text (fun b => b) true (GStr ex_s) (GBytes (Some ex_t)) = Ok Passes /\ alike same_number ex_x ex_y.
Proof.
  assert (K : EqualsJSON some_text (fun b => b) true (GStr ex_s) (GBytes (Some ex_t)) = Ok Passes) by (vm_compute; reflexivity).
  split; [apply some_text_prints|]. split; [apply ex_js|]. split; [apply ex_jt|]. split; [apply exact_in_range, ex_ax|]. split; [apply exact_in_range, ex_ay|].
  split; [apply ex_ax|]. split; [apply ex_ay|]. split; [reflexivity|]. split; [reflexivity|]. split; [exact K|].
  assert (D : forall x, tdepth x = 2%nat -> N.of_nat (tdepth x) <= 10000) by (intros x ->; vm_compute; congruence).
  destruct (C103_exact some_text (fun b => b) true some_text_prints (GStr ex_s) (GBytes (Some ex_t)) ex_s ex_t ex_x ex_y (or_introl eq_refl)
    (or_intror (or_introl eq_refl)) ex_js ex_jt (D ex_x eq_refl) (D ex_y eq_refl) ex_ax ex_ay) as (v & H1 & _ & H3).
  apply H3. congruence.
Qed.
(* a struct with fields a and b in that order, against a text in another *)
Definition ex_n : node := NPairs [(B "A", B "a", NList [NInt (-3); NStr (B "x")]); (B "B", B "b", NMap [(B "k", NBool true)])].
Definition ex_m : node := NPairs [(B "B", B "b", NInt 1); (B "A", B "a", NInt 2)].
Example C103_values_ex : plain ex_n /\ (ndepth ex_n = 2)%nat /\
  EqualsJSON some_text (fun b => b) true (GValue (Good ex_n)) (GStr (B "{""b"":{""k"":true},""a"":[-3e0,""x""]}")) = Ok Passes /\
  EqualsJSON some_text (fun b => b) true (GValue (Good ex_n)) (GStr (B "{""b"":{""k"":false},""a"":[-3e0,""x""]}")) = Ok Fails.
Proof.
  split; [|split; [reflexivity|split; vm_compute; reflexivity]]. cbn. repeat split; try lia; repeat constructor; try (apply ltb_before; vm_compute; reflexivity); cbn; tauto.
Qed.
Example C103_struct_ex : good_node ex_m /\ NoDup (json_names [(B "B", B "b", NInt 1); (B "A", B "a", NInt 2)]) /\
  ~ in_order (json_names [(B "B", B "b", NInt 1); (B "A", B "a", NInt 2)]) /\ Encode true false ex_m = Ok (B "{""b"":1,""a"":2}") /\
  EqualsJSON some_text (fun b => b) true (GValue (Good ex_m)) (GStr (B "{""b"":1,""a"":2}")) = Ok Fails.
Proof.
  split; [cbn; auto|]. split; [repeat constructor; cbn; intros H; repeat (destruct H as [H|H]; [discriminate|]); auto|].
  split; [|split; vm_compute; reflexivity]. intros H. inversion H as [|? ? _ H1]; subst. inversion H1 as [|? ? Hb _]; subst. apply before_ltb in Hb. vm_compute in Hb. discriminate.
Qed.
