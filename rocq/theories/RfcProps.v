(* Theorems about the texts JSON.Decode takes: C102. *)
From Coq Require Import Bool Ascii String Arith NArith ZArith Lia List.
From Verif Require Import Prelude PreludeFacts Utf8Model Utf8Facts QuoteModel DecModel DurModel DurProofs
  EncModel JsonModel JsonSpec JsonFacts JsonProofs JsonParse RfcSpec RfcString RfcProofs.
Import ListNotations.
Local Open Scope N_scope.

Lemma text_parse s x : json_text s x -> exists b, blanks b /\
  pvalue (2 * length s + 2) 0 s = if (tdepth x <=? maxdepth)%nat then Some (jval_of x, b) else None.
Proof.
  intros (a & t & b & -> & Ha & Ht & Hb). exists b. split; auto.
  rewrite (all_taken x t Ht) by (auto using num_end_tail; try lia). now rewrite Nat.add_0_r.
Qed.
Lemma text_nonnil s x : json_text s x -> s <> [].
Proof. intros (a & t & b & -> & Ha & Ht & Hb) E. destruct (jtext_head _ _ Ht) as (c & t' & -> & _). destruct a; discriminate. Qed.

(* C102: every JSON text nested at most 10000 deep is read, as what it says. *)
Theorem C102_accepts : forall (s : bytes) (x : jtree), json_text s x -> N.of_nat (tdepth x) <= 10000 ->
  exists n, Decode s = Good (Some n) /\ stands x n.
Proof.
  intros s x H Hd. exists (fromNative (jval_of x)). split; [|apply stands_of]. destruct (text_parse s x H) as (b & Hb & Hp).
  unfold Decode. destruct s as [|c s]; [now apply text_nonnil in H|]. rewrite Hp. apply maxdepth_le in Hd. apply Nat.leb_le in Hd. now rewrite Hd.
Qed.
Print Assumptions C102_accepts.

(* C102: whatever is read begins with a JSON text, and is what that text says. *)
Theorem C102_only : forall (s : bytes) (n : node), Decode s = Good (Some n) ->
  exists t rest x, s = t ++ rest /\ json_text t x /\ N.of_nat (tdepth x) <= 10000 /\ stands x n.
Proof.
  intros s n H. unfold Decode in H. destruct s as [|c s]; [discriminate|]. destruct (pvalue _ 0 (c :: s)) as [[v r]|] eqn:E; [|discriminate].
  injection H as <-. destruct (parse_sound (2 * length (c :: s) + 2) 0 (c :: s) v r) as [Hp _].
  destruct (Hp (Nat.le_0_l _) E) as (a & t & x & Hs & Ha & Ht & -> & Hd). exists (a ++ t), r, x. rewrite <- app_assoc. split; auto.
  split; [exists a, t, []; rewrite app_nil_r; repeat split; auto; constructor|]. split; [|apply stands_of]. apply maxdepth_le. lia.
Qed.
Print Assumptions C102_only.

(* C102: a JSON text nested more deeply is refused. *)
Theorem C102_deep : forall (s : bytes) (x : jtree), json_text s x -> 10000 < N.of_nat (tdepth x) -> Decode s = Fail tt.
Proof.
  intros s x H Hd. destruct (text_parse s x H) as (b & Hb & Hp). unfold Decode. destruct s as [|c s]; [now apply text_nonnil in H|].
  rewrite Hp. replace (tdepth x <=? maxdepth)%nat with false; auto. symmetry. apply Nat.leb_gt. pose proof maxdepth_n. lia.
Qed.
Print Assumptions C102_deep.

(* C102: only the empty text reads as no node at all. *)
Theorem C102_empty : forall s : bytes, Decode s = Good None <-> s = [].
Proof.
  intros s. unfold Decode. destruct s as [|c s]; [tauto|]. destruct (pvalue _ 0 (c :: s)) as [[v r]|]; split; discriminate.
Qed.
Print Assumptions C102_empty.

(* C102: the grammar is unambiguous: two readings of a text have the same node. *)
Theorem C102_unambiguous : forall (s : bytes) (x y : jtree), json_text s x -> json_text s y -> N.of_nat (tdepth x) <= 10000 -> exists n, stands x n /\ stands y n.
Proof.
  intros s x y Hx Hy Hd. exists (fromNative (jval_of x)). split; [apply stands_of|].
  destruct (text_parse s x Hx) as (b & _ & E1). destruct (text_parse s y Hy) as (b' & _ & E2). rewrite E1 in E2.
  apply maxdepth_le in Hd. apply Nat.leb_le in Hd. rewrite Hd in E2. destruct (tdepth y <=? maxdepth)%nat; [|discriminate].
  injection E2 as -> _. apply stands_of.
Qed.
Print Assumptions C102_unambiguous.

(* C102: "a text that is no JSON is refused" is false: what follows the first value is not looked at. *)
Theorem C102_whole_refuted : exists (s : bytes) (n : node), Decode s = Good (Some n) /\ forall x, ~ json_text s x.
Proof.
  exists (B "{}}"), (NMap []). split; [vm_compute; reflexivity|]. intros x H. destruct (text_parse _ x H) as (b & Hb & Hp).
  change (2 * length (B "{}}") + 2)%nat with 8%nat in Hp.
  assert (E : pvalue 8 0 (B "{}}") = Some (JObj [], [chr 125])) by (vm_compute; reflexivity). rewrite E in Hp.
  destruct (tdepth x <=? maxdepth)%nat; [|discriminate]. injection Hp as _ <-. inversion Hb as [|? ? H1 _]; subst.
  cbn [In] in H1. repeat (destruct H1 as [H1|H1]; [vm_compute in H1; discriminate|]). destruct H1.
Qed.
Print Assumptions C102_whole_refuted.

(* a text with blanks, escapes, a surrogate pair, half of one, an undecodable byte, and a name given twice *)
Definition C102_text : bytes :=
  B " { ""k"" : [ 1.50e+3 , ""a\u00e9\ud83d\ude00\ud800\n" ++ [chr 0xFF] ++ B """ ], ""k"":null,""\u006b2"":{},""b"" : [ ] } ".
Definition C102_tree : jtree :=
  TObj [(B "k", TArr [TNum (B "1.50e+3"); TStr (B "a" ++ encode_rune 0xE9 ++ encode_rune 0x1F600 ++ encode_rune 0xFFFD ++ [chr 10] ++ encode_rune 0xFFFD)]);
        (B "k", TNull); (B "k2", TObj []); (B "b", TArr [])].
Ltac hex := match goal with |- hex4 ?h _ => let h' := eval vm_compute in h in match h' with [?a; ?b; ?c; ?d] => exists a, b, c, d end end;
  do 4 eexists; repeat (split; [first [reflexivity | apply hexval_digit; vm_compute; reflexivity]|]); reflexivity.
Lemma blank1 : blanks (B " "). Proof. repeat constructor. Qed.
Example C102_ex : json_text C102_text C102_tree /\ (tdepth C102_tree = 2)%nat /\
  Decode C102_text = Good (Some (NMap [(B "k", NNil); (B "k2", NMap []); (B "b", NList [])])).
Proof.
  split; [|split; vm_compute; reflexivity].
  assert (K : forall c, 32 <= code c < 128 -> code c <> 34 -> code c <> 92 -> forall s v, jstring s v -> jstring (c :: s) (c :: v)).
  { intros c Hc H1 H2 s v Hs. pose proof (js_rune (code c) s v) as J. rewrite encode_ascii, chr_code in J by lia. apply J; auto; try lia. unfold valid_rune. Nify_bool. lia. }
  exists (B " "), (B "{ ""k"" : [ 1.50e+3 , ""a\u00e9\ud83d\ude00\ud800\n" ++ [chr 0xFF] ++ B """ ], ""k"":null,""\u006b2"":{},""b"" : [ ] }"), (B " ").
  split; [reflexivity|]. split; [apply blank1|]. split; [|apply blank1].
  apply (jt_obj (B " ""k"" : [ 1.50e+3 , ""a\u00e9\ud83d\ude00\ud800\n" ++ [chr 0xFF] ++ B """ ]") [B " ""k"":null"; B """\u006b2"":{}"; B """b"" : [ ] "]).
  constructor; [|constructor; [|constructor; [|constructor; [|constructor]]]].
  - exists (B " "), (B "k"), (B " "), (B " "), (B "[ 1.50e+3 , ""a\u00e9\ud83d\ude00\ud800\n" ++ [chr 0xFF] ++ B """ ]"), [].
    split; [reflexivity|]. split; [apply blank1|]. split; [apply K; [vm_compute; split; congruence| | |constructor]; vm_compute; discriminate|].
    split; [apply blank1|]. split; [apply blank1|]. split; [|constructor].
    apply (jt_arr (B " 1.50e+3 ") [B " ""a\u00e9\ud83d\ude00\ud800\n" ++ [chr 0xFF] ++ B """ "]).
    constructor; [|constructor; [|constructor]].
    + exists (B " "), (B "1.50e+3"), (B " "). split; [reflexivity|]. split; [apply blank1|]. split; [|apply blank1]. constructor. apply is_number_spec. reflexivity.
    + exists (B " "), (B """" ++ (B "a\u00e9\ud83d\ude00\ud800\n" ++ [chr 0xFF]) ++ B """"), (B " "). split; [reflexivity|]. split; [apply blank1|]. split; [|apply blank1].
      apply jt_str. apply K; [vm_compute; split; congruence| | |]; try (vm_compute; discriminate).
      apply (js_hex (B "00e9") 0xE9 (B "\ud83d\ude00\ud800\n" ++ [chr 0xFF])); [hex|lia|].
      apply (js_pair (B "d83d") 0xD83D (B "de00") 0xDE00 (B "\ud800\n" ++ [chr 0xFF])); [hex|lia|hex|lia|].
      apply (js_half (B "d800") 0xD800 (B "\n" ++ [chr 0xFF])); [hex|lia| |].
      { intros [_ (h & n & t & E & _)]. discriminate. }
      apply (js_esc (B "\n") 10 [chr 0xFF]); [cbn; tauto|].
      apply (js_bad (chr 0xFF) [] []); [vm_compute; congruence| |constructor].
      intros (r & t & Hv & E). pose proof (decode_encode r t Hv) as D. rewrite <- E in D. discriminate.
  - exists (B " "), (B "k"), [], [], (B "null"), []. split; [reflexivity|]. split; [apply blank1|].
    split; [apply K; [vm_compute; split; congruence| | |constructor]; vm_compute; discriminate|]. repeat split; constructor.
  - exists [], (B "\u006b2"), [], [], (B "{" ++ [] ++ B "}"), []. split; [reflexivity|]. split; [constructor|].
    split; [|repeat split; repeat constructor].
    apply (js_hex (B "006b") 0x6B (B "2")); [hex|lia|]. apply K; [vm_compute; split; congruence| | |constructor]; vm_compute; discriminate.
  - exists [], (B "b"), (B " "), (B " "), (B "[" ++ B " " ++ B "]"), (B " "). split; [reflexivity|]. split; [constructor|].
    split; [apply K; [vm_compute; split; congruence| | |constructor]; vm_compute; discriminate|].
    repeat (split; [first [apply blank1 | constructor; apply blank1]|]). apply blank1.
Qed.
