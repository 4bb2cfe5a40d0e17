(* C105, C106, C107: the assertions of /repo/test. *)
From Coq Require Import Bool Ascii String Arith NArith ZArith Lia List Permutation.
From Verif Require Import Prelude PreludeFacts Utf8Model Utf8Facts QuoteModel DecModel DurModel DurProofs EncModel KvProofs TqModel AstModel GvModel
  AsModel AsSpec AstProofs AsProofs.
Import ListNotations.

(* ---- C105 ---- *)
(* an assertion that passes was right, whatever the source looks like *)
Theorem C105_trusty s b (e g : bytes) :
  trusty (Assert s b) (b = true) /\ trusty (EqualsStr s e g) (e = g) /\ trusty (NotEqualsStr s e g) (e <> g).
Proof.
  split; [|split].
  - intros v. unfold Assert. destruct (Assignment s 1); cbn [rbind]; [|discriminate]. intros H (m & Hp). destruct b; [reflexivity|].
    unfold KO in H. congruence.
  - intros v. unfold EqualsStr. destruct (named2 _ s (equal e g)) as [r|] eqn:E; cbn [rbind]; [|discriminate].
    intros H Hp. assert (Ev : expect_true r = v) by congruence. subst v. apply expect_true_passed in Hp.
    apply named2_fst in E. apply equal_says. congruence.
  - intros v. unfold NotEqualsStr. destruct (named2 _ s (equal e g)) as [r|] eqn:E; cbn [rbind]; [|discriminate].
    intros H Hp. assert (Ev : expect_false r = v) by congruence. subst v. apply expect_false_passed in Hp.
    apply named2_fst in E. intros Heq. apply equal_says in Heq. congruence.
Qed.
(* it passes exactly if it should, if every call of its name in its line has the arguments and no empty function literal, and also if
   there is no source *)
Theorem C105_decides s b (e g : bytes) :
  (usable s 1 -> decides (Assert s b) (b = true)) /\
  (usable s 2 -> decides (EqualsStr s e g) (e = g) /\ decides (NotEqualsStr s e g) (e <> g)).
Proof.
  split; [|intros H; split].
  - intros H. destruct (assignment_usable s 1 H) as (a & E). unfold Assert. rewrite E. cbn [rbind]. eexists. split; [reflexivity|].
    destruct b; [left; split; [reflexivity|eexists; reflexivity]|right; split; [discriminate|eexists; reflexivity]].
  - destruct (named2_ok (B "EqualsStr") s (equal e g) H) as (r & E & Er). unfold EqualsStr. rewrite E. cbn [rbind].
    apply says_true. eapply says_fst; [exact Er|apply equal_says].
  - destruct (named2_ok (B "NotEqualsStr") s (equal e g) H) as (r & E & Er). unfold NotEqualsStr. rewrite E. cbn [rbind].
    apply says_false. eapply says_fst; [exact Er|apply equal_says].
Qed.
Theorem C105_contains s p :
  decides (Ok (Contains s p)) (exists a b, s = a ++ p ++ b) /\ decides (Ok (NotContains s p)) (~ exists a b, s = a ++ p ++ b).
Proof. split; [apply says_true|apply says_false]; apply contains_says. Qed.
(* Shift and Pop take an element, or fail and leave the list *)
Theorem C105_shift {T} (sprint : T -> bytes) s : usable s 1 ->
  (forall x l, exists v, Shift sprint s (x :: l) = (l, Ok (v, Some x)) /\ passed v) /\
  (forall x l, exists v, Pop sprint s (l ++ [x]) = (l, Ok (v, Some x)) /\ passed v) /\
  (exists v, Shift sprint s [] = ([], Ok (v, None)) /\ failed v) /\ (exists v, Pop sprint s [] = ([], Ok (v, None)) /\ failed v).
Proof.
  intros H. split; [|split; [|split]]; intros; unfold Shift, shift, Pop, pop; rewrite ?rev_unit, ?rev_involutive; cbn [rev];
  match goal with |- context[named1 ?n s ?r] => destruct (named1_ok n s r H) as (r' & -> & Er) end; cbn [rbind fst] in *.
  all: eexists; split; [reflexivity|].
  1,2: now apply expect_true_passed.
  all: now apply expect_true_failed.
Qed.

(* test.Assert(t, 7 > 2*2) *)
Definition ex_arg (s : string) : arg := Arg (B s) None.
Definition ex_call (l : nat) (n : string) (a : list string) (ch : list tree) : tree := TCall l (FSel (B n)) (map ex_arg a) ch.
Definition ex_site (t : tree) (l : nat) (n : string) : site := Site (Some t) l (B n) (B "x_test.go:7").
Definition ex_plain : tree := TOther [TOther [TBlock [
  TAssign (B "2*2") [Some (B "x")] []; TOther [ex_call 7 "Assert" ["t"; "7 > x"] []]; TOther [ex_call 8 "Assert" ["t"; "7 <= x"] []]]]]%string.
Ltac insides H := apply within_inv in H; destruct H as [<-|(?y & ?Hi & H)]; [|cbn in Hi; repeat (destruct Hi as [<-|Hi]; [insides H|]); try contradiction].
Ltac regulars := split; [reflexivity|]; intros c Hc Hh; insides Hc; cbn in Hh; try contradiction; try (destruct Hh as [Hh _]; discriminate Hh);
  try (destruct Hh as [_ [Hh|Hh]]; discriminate Hh); cbn; split; try lia; repeat constructor; discriminate.
Example C105_ex : decides (Assert (ex_site ex_plain 7 "Assert") true) (true = true) /\
  decides (Assert (ex_site ex_plain 8 "Assert") false) (false = true).
Proof.
  split; apply (proj1 (C105_decides _ _ [] [])); intros t Ht; injection Ht as <-; regulars.
Qed.

(* test.Assert(t, mock.Assert()) panics: the call of the same name is taken for it *)
Definition ex_inner : tree := TOther [TBlock [TOther [ex_call 7 "Assert" ["t"; "mock.Assert()"] [ex_call 7 "Assert" [] []]]]]%string.
Theorem C105_inner_refuted : exists s t c, s_file s = Some t /\ go_file t /\ within t c /\ here s c /\ length (call_args c) = 2 /\
  Assert s true = Panic.
Proof.
  exists (ex_site ex_inner 7 "Assert"), ex_inner, (ex_call 7 "Assert" ["t"; "mock.Assert()"] [ex_call 7 "Assert" [] []]%string)%string.
  split; [reflexivity|]. split; [reflexivity|]. split.
  { do 3 (eapply within_child; [left; reflexivity|]). constructor. }
  split; [split; [reflexivity|right; reflexivity]|]. split; [reflexivity|]. vm_compute. reflexivity.
Qed.
(* test.Assert(setup()), where setup returns the test and a condition *)
Theorem C105_spread_refuted : exists s t c, s_file s = Some t /\ go_file t /\ count s t = 1 /\ within t c /\ here s c /\ Assert s true = Panic.
Proof.
  exists (ex_site (TOther [TBlock [ex_call 7 "Assert" ["setup()"] []]])%string 7 "Assert"),
    (TOther [TBlock [ex_call 7 "Assert" ["setup()"] []]])%string, (ex_call 7 "Assert" ["setup()"] [])%string.
  do 3 (split; [reflexivity|]). split; [do 2 (eapply within_child; [left; reflexivity|]); constructor|].
  split; [split; [reflexivity|right; reflexivity]|]. vm_compute. reflexivity.
Qed.
(* test.NotNil(t, func() {}) *)
Theorem C105_literal_refuted {F} isprint ftext shown : exists s t c a, s_file s = Some t /\ go_file t /\ count s t = 1 /\ within t c /\ here s c /\
  length (call_args c) = 2 /\ NotNil (F := F) isprint ftext shown s (Some (GFunc (B "func()"), VFunc (Some a))) = Panic.
Proof.
  pose (c := TCall 7 (FSel (B "NotNil")) [Arg (B "t") None; Arg (B "func() {}") (Some None)] []).
  exists (ex_site (TOther [TBlock [c]]) 7 "NotNil"), (TOther [TBlock [c]]), c, 1%N.
  do 3 (split; [reflexivity|]). split; [do 2 (eapply within_child; [left; reflexivity|]); constructor|].
  split; [split; [reflexivity|right; reflexivity]|]. split; reflexivity.
Qed.
(* without the source, or if the call is not in its line (defer, a function value), Nil, NotNil, Empty and NotEmpty always panic *)
Theorem C105_nosource_refuted {F} isprint ftext fzero shown s (x : any F) :
  (s_file s = None \/ exists t, s_file s = Some t /\ go_file t /\ count s t = 0) ->
  Nil isprint ftext shown s x = Panic /\ NotNil isprint ftext shown s x = Panic /\
  Empty fzero shown s x = Panic /\ NotEmpty fzero shown s x = Panic.
Proof.
  intros H.
  assert (E : Caller s = Fail tt).
  { unfold Caller. destruct H as [->|(t & -> & Hg & H0)]; [reflexivity|].
    destruct (walk_goes s t None) as (cs & E & L & _).
    - intros c Hc Hh. pose proof (count_within s t c Hc Hh). lia.
    - right. exact Hg.
    - rewrite E. rewrite H0 in L. destruct cs; [reflexivity|discriminate]. }
  assert (A : forall r, argument s 1 r = Panic) by (intros r; unfold argument; rewrite E; reflexivity).
  unfold Nil, NotNil, Empty, NotEmpty. rewrite !A. cbn [rbind].
  destruct (empty fzero shown x); cbn [rbind]; rewrite ?A; repeat split; reflexivity.
Qed.

(* ---- C106 ---- *)
(* The text that is shown for an argument, if there is one call of this name in the line: of the last assignment to it that is visible
   (in the block of the call or a block around it, before it or as part of the same statement), otherwise of the argument itself.  Only
   the first line. *)
Theorem C106_text s t c m n a x : s_file s = Some t -> go_file t -> count s t = 1 -> sees t c m -> here s c ->
  Forall (fun a => a_lit a <> Some None) (call_args c) -> nth_error (call_args c) n = Some a -> arg_text a x ->
  exists r, Assignment s n = Ok r /\
    ((exists u, last_set m x u /\ u <> [] /\ line1 u r) \/ ((forall u, last_set m x u -> u = []) /\ line1 x r)).
Proof.
  intros Ef Hg H1 Hs Hh Hl Hn Hx. destruct (caller_sees s t c m Ef Hg H1 Hs Hh Hl) as (sc & E & L).
  unfold Assignment. rewrite E, nth_error_map, Hn. cbn [option_map]. eexists. split; [reflexivity|].
  assert (Ex : farg sc a = CArg x (lookup sc x)).
  { unfold farg. destruct Hx as [(-> & ->)| ->]; reflexivity. }
  rewrite Ex. unfold Short. cbn [c_assignment c_src].
  destruct (L x) as [Hlast|(Hno & ->)].
  - destruct (lookup sc x) as [|b u] eqn:El.
    + right. split; [|apply firstline_line1]. intros u Hu. eapply last_set_fun; eauto.
    + left. exists (b :: u). split; [exact Hlast|]. split; [discriminate|apply firstline_line1].
  - right. split; [|apply firstline_line1]. intros u (m1 & m2 & -> & _). exfalso. apply (Hno u). apply in_elt.
Qed.
(* the whole text that EqualsStr and NotEqualsStr log: a mark for whether they pass, their name, what the two arguments were assigned, in order, and the values *)
Theorem C106_logged s t c m a b x y e g : s_file s = Some t -> go_file t -> count s t = 1 -> sees t c m -> here s c ->
  Forall (fun a => a_lit a <> Some None) (call_args c) -> nth_error (call_args c) 1 = Some a -> arg_text a x -> nth_error (call_args c) 2 = Some b -> arg_text b y ->
  let tells x r := (exists u, last_set m x u /\ u <> [] /\ line1 u r) \/ ((forall u, last_set m x u -> u = []) /\ line1 x r) in
  exists p q, tells x p /\ tells y q /\
    (e = g -> EqualsStr s e g = Ok (Passes (B "  ✔ EqualsStr(" ++ p ++ B ", " ++ q ++ B ") ⮕  " ++ e)) /\
              NotEqualsStr s e g = Ok (Fails (B "❌  NotEqualsStr(" ++ p ++ B ", " ++ q ++ B ") ⮕  " ++ e))) /\
    (e <> g -> EqualsStr s e g = Ok (Fails (B "❌  EqualsStr(" ++ p ++ B ", " ++ q ++ B ") ⮕  " ++ e ++ B " != " ++ g)) /\
              NotEqualsStr s e g = Ok (Passes (B "  ✔ NotEqualsStr(" ++ p ++ B ", " ++ q ++ B ") ⮕  " ++ e ++ B " != " ++ g))).
Proof.
  intros Ef Hg H1 Hs Hh Hl Ha Hx Hb Hy tells. destruct (C106_text s t c m 1 a x Ef Hg H1 Hs Hh Hl Ha Hx) as (p & Ep & Tp). destruct (C106_text s t c m 2 b y Ef Hg H1 Hs Hh Hl Hb Hy) as (q & Eq & Tq).
  exists p, q. split; [exact Tp|]. split; [exact Tq|]. unfold EqualsStr, NotEqualsStr, named2, equal. rewrite Ep, Eq. cbn [rbind].
  split; intros E; (destruct (beqb e g) eqn:Eb; [apply beqb_eq in Eb|]).
  - unfold expect_true, expect_false, prefix, OK, KO. cbn [fst snd]. rewrite <- !app_assoc. split; reflexivity.
  - rewrite E in Eb. assert (beqb g g = true) by now apply beqb_eq. congruence.
  - contradiction.
  - unfold expect_true, expect_false, prefix, OK, KO. cbn [fst snd]. rewrite <- !app_assoc. split; reflexivity.
Qed.
Print Assumptions C106_logged.
(* without the source or the call: file and line *)
Theorem C106_place s n : (s_file s = None \/ exists t, s_file s = Some t /\ go_file t /\ count s t = 0) -> Assignment s n = Ok (s_fl s).
Proof.
  intros H. unfold Assignment, Caller. destruct H as [->|(t & -> & Hg & H0)]; [reflexivity|].
  destruct (walk_goes s t None) as (cs & E & L & _).
  - intros c Hc Hh. pose proof (count_within s t c Hc Hh). lia.
  - right. exact Hg.
  - rewrite E. rewrite H0 in L. destruct cs; [reflexivity|discriminate].
Qed.
(* x := 2*2; { y := 1 }; Assert(t, x) *)
Definition ex_see_call : tree := ex_call 9 "Assert" ["t"%string; "ok"%string] [].
Definition ex_see : tree := TOther [TBlock [TAssign (B "f(1)") [Some (B "ok"); Some (B "err")] [];
  TBlock [TAssign (B "g()") [Some (B "err")] []]; TBlock [TAssign (B "true") [Some (B "yes")] []; TOther [ex_see_call]]]].
Example C106_ex : exists r, Assignment (ex_site ex_see 9 "Assert") 1 = Ok r /\
  ((exists u, last_set [(B "ok", B "f(1)"); (B "err", B "f(1)"); (B "yes", B "true")] (B "ok") u /\ u <> [] /\ line1 u r) \/
   ((forall u, last_set [(B "ok", B "f(1)"); (B "err", B "f(1)"); (B "yes", B "true")] (B "ok") u -> u = []) /\ line1 (B "ok") r)).
Proof.
  apply (C106_text _ ex_see ex_see_call _ 1 (ex_arg "ok")); try reflexivity.
  - match goal with |- sees ?a ?b ?m => cut (exists x, sees a b x /\ x = m); [intros (x & Hx & <-); exact Hx|] end. eexists. split.
    + apply (sees_other [] _ []). apply (sees_block [_; _] _ []). apply (sees_block [_] _ []). apply (sees_other [] _ []). constructor.
    + reflexivity.
  - split; [reflexivity|right; reflexivity].
  - repeat constructor; discriminate.
  - left. split; reflexivity.
Qed.
(* want := f(1); EqualsStr(t, want, got) *)
Definition ex_log_call : tree := ex_call 9 "EqualsStr" ["t"%string; "want"%string; "got"%string] [].
Definition ex_log : tree := TOther [TBlock [TAssign (B "f(1)") [Some (B "want")] []; TOther [ex_log_call]]].
Example C106_logged_ex : go_file ex_log /\ count (ex_site ex_log 9 "EqualsStr") ex_log = 1 /\ here (ex_site ex_log 9 "EqualsStr") ex_log_call /\
  EqualsStr (ex_site ex_log 9 "EqualsStr") (B "a") (B "b") = Ok (Fails (B "❌  EqualsStr(f(1), got) ⮕  a != b")) /\
  exists p q, EqualsStr (ex_site ex_log 9 "EqualsStr") (B "a") (B "b") = Ok (Fails (B "❌  EqualsStr(" ++ p ++ B ", " ++ q ++ B ") ⮕  " ++ B "a" ++ B " != " ++ B "b")).
Proof.
  split; [reflexivity|]. split; [reflexivity|]. split; [split; [reflexivity|right; reflexivity]|]. split; [vm_compute; reflexivity|].
  destruct (C106_logged (ex_site ex_log 9 "EqualsStr") ex_log ex_log_call [(B "want", B "f(1)")] (ex_arg "want") (ex_arg "got") (B "want") (B "got") (B "a") (B "b")) as (p & q & _ & _ & _ & H); try reflexivity.
  - match goal with |- sees ?a ?b ?m => cut (exists x, sees a b x /\ x = m); [intros (x & Hx & <-); exact Hx|] end. eexists. split.
    + apply (sees_other [] _ []). apply (sees_block [_] _ []). apply (sees_other [] _ []). constructor.
    + reflexivity.
  - split; [reflexivity|right; reflexivity].
  - repeat constructor; discriminate.
  - left. split; reflexivity.
  - left. split; reflexivity.
  - exists p, q. apply H. discriminate.
Qed.
(* err := a(); if c { err = b() }; NoError(t, err): shown is a() though the last assignment before is b() *)
Definition ex_blk_call : tree := ex_call 9 "NoError" ["t"%string; "err"%string] [].
Definition ex_blk : tree := TOther [TBlock [TAssign (B "a()") [Some (B "err")] []; TOther [TBlock [TAssign (B "b()") [Some (B "err")] []]];
  TOther [ex_blk_call]]].
Theorem C106_block_refuted : exists s t c m, s_file s = Some t /\ go_file t /\ count s t = 1 /\ here s c /\ before t c m /\
  last_set m (B "err") (B "b()") /\ Assignment s 1 = Ok (B "a()").
Proof.
  exists (ex_site ex_blk 9 "NoError"), ex_blk, ex_blk_call, [(B "err", B "a()"); (B "err", B "b()")].
  do 3 (split; [reflexivity|]). split; [split; [reflexivity|right; reflexivity]|]. split.
  { match goal with |- before ?a ?b ?m => cut (exists x, before a b x /\ x = m); [intros (x & Hx & <-); exact Hx|] end. eexists. split.
    apply (before_other [] _ []). apply (before_block [_; _] _ []). apply (before_other [] _ []). apply before_here.
    reflexivity. }
  split; [exists [(B "err", B "a()")], []; split; [reflexivity|intros r []]|]. vm_compute. reflexivity.
Qed.
(* n := len(l); n = NoNil(t, n): shown is the call itself *)
Definition ex_self_call : tree := ex_call 9 "Check" ["t"%string; "n"%string] [].
Definition ex_self : tree := TOther [TBlock [TAssign (B "len(l)") [Some (B "n")] []; TAssign (B "Check(t, n)") [Some (B "n")] [ex_self_call]]].
Theorem C106_self_refuted : exists s t c m, s_file s = Some t /\ go_file t /\ count s t = 1 /\ here s c /\ before t c m /\
  last_set m (B "n") (B "len(l)") /\ Assignment s 1 = Ok (B "Check(t, n)").
Proof.
  exists (ex_site ex_self 9 "Check"), ex_self, ex_self_call, [(B "n", B "len(l)")].
  do 3 (split; [reflexivity|]). split; [split; [reflexivity|right; reflexivity]|]. split.
  { match goal with |- before ?a ?b ?m => cut (exists x, before a b x /\ x = m); [intros (x & Hx & <-); exact Hx|] end. eexists. split.
    apply (before_other [] _ []). apply (before_block [_] _ []). apply (before_assign _ _ [] _ []). apply before_here.
    reflexivity. }
  split; [exists [], []; split; [reflexivity|intros r []]|]. vm_compute. reflexivity.
Qed.
(* NoError(t, a()); NoError(t, b()) in one line: both show b() *)
Definition ex_two (x : string) : tree := ex_call 9 "NoError" ["t"%string; x] [].
Theorem C106_line_refuted : exists s t c, s_file s = Some t /\ regular s 1 t /\ within t c /\ here s c /\
  nth_error (call_args c) 1 = Some (ex_arg "a()") /\ all_sets t = [] /\ Assignment s 1 = Ok (B "b()").
Proof.
  pose (t := TOther [TBlock [TOther [ex_two "a()"]; TOther [ex_two "b()"]]]).
  exists (ex_site t 9 "NoError"), t, (ex_two "a()"). split; [reflexivity|]. split; [regulars|].
  split; [do 3 (eapply within_child; [left; reflexivity|]); constructor|].
  split; [split; [reflexivity|right; reflexivity]|]. split; [reflexivity|]. split; [reflexivity|]. vm_compute. reflexivity.
Qed.

(* ---- C107 ---- *)
Section V.
  Context {F : Type} (isprint : N -> bool) (ftext : F -> bytes) (fzero : F -> bool) (shown : any F -> bytes).
  Lemma isNil_says x : no_func x -> says (isNil isprint ftext shown x) (is_nil x).
  Proof.
    unfold says. destruct x as [[t v]|]; [|cbn; tauto].
    destruct v as [b|z|m|f|s|[l|]|l|[l|]|l|[[a w]|]|[[d w]|]|[a|]|[[a c]|]]; intros Hn; try contradiction; cbn [isNil isnull fst is_nil].
    all: try (split; [discriminate|intros [H|[H|[H|[H|H]]]]; discriminate H]; fail).
    all: split; auto 6.
  Qed.
  (* Nil and NotNil, of everything but functions *)
  Theorem C107_nil s x : usable s 1 -> sourced s -> no_func x ->
    decides (Nil isprint ftext shown s x) (is_nil x) /\ decides (NotNil isprint ftext shown s x) (~ is_nil x).
  Proof.
    intros Hu Hso Hn. pose proof (isNil_says x Hn) as Hs. unfold Nil, NotNil.
    destruct (argument_sourced s 1 (isNil isprint ftext shown x) Hu Hso) as (r & E). rewrite E. cbn [rbind].
    split; [apply says_true|apply says_false]; exact Hs.
  Qed.
  (* NoError and Error, of everything but functions *)
  Theorem C107_error s x : usable s 1 -> no_func x ->
    decides (NoError isprint ftext shown s x) (is_nil x) /\ decides (Error isprint ftext shown s x) (~ is_nil x).
  Proof.
    intros Hu Hn. pose proof (isNil_says x Hn) as Hs. destruct (assignment_usable s 1 Hu) as (a & E). unfold NoError, Error, says in *.
    destruct (fst (isNil isprint ftext shown x)); rewrite ?E; cbn [rbind].
    - split; eexists; (split; [reflexivity|]).
      + left. split; [now apply Hs|eexists; reflexivity].
      + right. split; [|eexists; reflexivity]. intros H. apply H. now apply Hs.
    - split; eexists; (split; [reflexivity|]).
      + right. split; [|eexists; reflexivity]. intros H. apply Hs in H. discriminate.
      + left. split; [|eexists; reflexivity]. intros H. apply Hs in H. discriminate.
  Qed.
  (* a function that is nil counts as not nil *)
  Theorem C107_func_refuted s n : usable s 1 -> sourced s ->
    is_nil (Some (GFunc n, VFunc (F := F) None)) /\
    (exists v, Nil isprint ftext shown s (Some (GFunc n, VFunc None)) = Ok v /\ failed v) /\
    (exists v, NotNil isprint ftext shown s (Some (GFunc n, VFunc None)) = Ok v /\ passed v).
  Proof.
    intros Hu Hso. split; [cbn; auto 6|]. unfold Nil, NotNil.
    destruct (argument_sourced s 1 (isNil isprint ftext shown (Some (GFunc n, VFunc None))) Hu Hso) as (r & ->). cbn [rbind].
    split; eexists; (split; [reflexivity|]); [now apply expect_true_failed|now apply expect_false_passed].
  Qed.
  (* an error that is not nil, with a nil pointer in it, counts as no error *)
  Theorem C107_typednil_refuted s n e : usable s 1 -> (Some (GPtr n e, VPtr None) : any F) <> None /\
    (exists v, NoError isprint ftext shown s (Some (GPtr n e, VPtr None)) = Ok v /\ passed v) /\
    (exists v, Error isprint ftext shown s (Some (GPtr n e, VPtr None)) = Ok v /\ failed v).
  Proof.
    intros Hu. split; [discriminate|]. destruct (assignment_usable s 1 Hu) as (a & E). unfold NoError, Error.
    cbn [isNil isnull fst]. rewrite E. cbn [rbind]. split; eexists; (split; [reflexivity|eexists; reflexivity]).
  Qed.
  (* Empty and NotEmpty, of the kinds in the README *)
  Theorem C107_empty f0 s t v : (forall f, fzero f = true <-> f = f0) -> usable s 1 -> sourced s -> has t v -> listed v ->
    decides (Empty fzero shown s (Some (t, v))) (is_empty f0 t v) /\ decides (NotEmpty fzero shown s (Some (t, v))) (~ is_empty f0 t v).
  Proof.
    intros Hz Hu Hso Ht Hl.
    assert (E : exists r, empty fzero shown (Some (t, v)) = Ok r /\ says r (is_empty f0 t v)).
    { unfold says. destruct v; try contradiction; cbn [empty is_empty]; eexists; (split; [reflexivity|]); cbn [fst].
      - destruct s0; split; congruence.
      - destruct o as [[|x l]|]; cbn; split; auto; try discriminate; intros [H|H]; discriminate H.
      - destruct o as [[|x l]|]; cbn; split; auto; try discriminate; intros [H|H]; discriminate H.
      - change (isZero fzero (VStruct l) = true <-> VStruct l = zero f0 t). now apply isZero_zero.
      - destruct o; split; congruence.
      - destruct o as [[a [|k]]|]; cbn; split; eauto; try discriminate; intros [H|(b & H)]; discriminate H. }
    destruct E as (r & E & Hr). unfold Empty, NotEmpty. rewrite E. cbn [rbind].
    destruct (argument_sourced s 1 r Hu Hso) as (x & ->). cbn [rbind].
    split; [apply says_true|apply says_false]; exact Hr.
  Qed.
  (* of numbers, booleans, arrays and functions both panic, wherever they are called *)
  Theorem C107_kinds_refuted s t (v : gval F) : has t v -> ~ listed v ->
    Empty fzero shown s (Some (t, v)) = Panic /\ NotEmpty fzero shown s (Some (t, v)) = Panic.
  Proof. intros _ Hl. unfold Empty, NotEmpty. destruct v; try (exfalso; apply Hl; exact Logic.I); split; reflexivity. Qed.
End V.
Definition ex_nil : tree := TOther [TBlock [TOther [ex_call 9 "Nil" ["t"; "p"] []]]]%string.
Example C107_ex : decides (Nil (F := N) (fun _ => true) dec (fun _ => B "?") (ex_site ex_nil 9 "Nil") (Some (GPtr (B "*int") (GInt (B "int")), VPtr None)))
  (is_nil (Some (GPtr (B "*int") (GInt (B "int")), VPtr (F := N) None))).
Proof.
  apply C107_nil.
  - intros t Ht. injection Ht as <-. regulars.
  - exists ex_nil, (ex_call 9 "Nil" ["t"; "p"] [])%string. split; [reflexivity|].
    split; [do 3 (eapply within_child; [left; reflexivity|]); constructor|split; [reflexivity|right; reflexivity]].
  - exact Logic.I.
Qed.
Example C107_empty_ex : let t := GStruct (B "main.T") [(B "A", GInt (B "int")); (B "B", GSlice (B "[]int") (GInt (B "int")))] in
  decides (Empty (F := N) (fun n => (n =? 0)%N) (fun _ => B "?") (ex_site ex_nil 9 "Nil") (Some (t, VStruct [VInt 0; VSlice None])))
  (is_empty 0%N t (VStruct [VInt 0; VSlice None])).
Proof.
  apply C107_empty.
  - intros f. apply N.eqb_eq.
  - intros t Ht. injection Ht as <-. regulars.
  - exists ex_nil, (ex_call 9 "Nil" ["t"; "p"] [])%string. split; [reflexivity|].
    split; [do 3 (eapply within_child; [left; reflexivity|]); constructor|split; [reflexivity|right; reflexivity]].
  - cbn. tauto.
  - exact Logic.I.
Qed.

(* ---- C162 ---- *)
(* C162, what holds: EqualsType passes for two values of one type, and for nil and nil, whatever the values are; it fails if the types are written differently, and for nil and a value *)
Theorem C162_partial {F} s (e g : any F) : usable s 2 ->
  (option_map fst e = option_map fst g -> exists v, EqualsType s e g = Ok v /\ passed v) /\
  (forall t x u y, e = Some (t, x) -> g = Some (u, y) -> tname t <> tname u -> exists v, EqualsType s e g = Ok v /\ failed v) /\
  (forall t x, (e = Some (t, x) /\ g = None \/ e = None /\ g = Some (t, x)) -> tname t <> B "<nil>" -> exists v, EqualsType s e g = Ok v /\ failed v).
Proof.
  intros H. destruct (named2_ok (B "EqualsType") s (equal (typetext e) (typetext g)) H) as (r & E & Er).
  assert (D : decides (EqualsType s e g) (typetext e = typetext g)).
  { unfold EqualsType. rewrite E. cbn [rbind]. apply says_true. eapply says_fst; [exact Er|apply equal_says]. }
  destruct D as (v & Ev & D). split; [|split].
  - intros Q. exists v. split; [exact Ev|]. destruct D as [[_ P]|[N _]]; [exact P|]. exfalso. apply N. destruct e as [[t x]|], g as [[u y]|]; cbn in Q |- *; try discriminate; [injection Q as ->|]; reflexivity.
  - intros t x u y -> -> Q. exists v. split; [exact Ev|]. destruct D as [[P _]|[_ N]]; [contradiction|exact N].
  - intros t x Q Hn. exists v. split; [exact Ev|]. destruct D as [[P _]|[_ N]]; [|exact N]. exfalso. destruct Q as [[-> ->]|[-> ->]]; cbn [typetext] in P; [apply Hn; exact P|apply Hn; symmetry; exact P].
Qed.
(* C162, whatever the source looks like: if it passes, the types are written the same *)
Theorem C162_trusty {F} s t u (x y : gval F) : trusty (EqualsType s (Some (t, x)) (Some (u, y))) (tname t = tname u).
Proof.
  intros v. unfold EqualsType. destruct (named2 _ s _) as [r|] eqn:E; cbn [rbind]; [|discriminate].
  intros H Hp. assert (Ev : expect_true r = v) by congruence. subst v. apply expect_true_passed in Hp.
  apply named2_fst in E. apply (equal_says (tname t) (tname u)). cbn [typetext] in E. congruence.
Qed.
(* C162, false as stated: types of the same name from packages of the same name, such as a/model.User and b/model.User, are written the same *)
Definition ex_types : tree := TOther [TBlock [TOther [ex_call 9 "EqualsType" ["t"; "x"; "y"] []]]]%string.
Theorem C162_names_refuted {F} : exists s (e g : any F) v, usable s 2 /\ option_map fst e <> option_map fst g /\ EqualsType s e g = Ok v /\ passed v.
Proof.
  set (s := ex_site ex_types 9 "EqualsType"). set (e := Some (GStruct (B "model.User") [], VStruct []) : any F).
  set (g := Some (GStruct (B "model.User") [(B "Name", GString (B "string"))], VStruct [VStr (B "joe")]) : any F).
  assert (U : usable s 2) by (intros t Ht; injection Ht as <-; regulars).
  destruct (named2_ok (B "EqualsType") s (equal (typetext e) (typetext g)) U) as (r & E & Er).
  exists s, e, g, (expect_true r). split; [exact U|]. split; [discriminate|]. split; [unfold EqualsType; rewrite E; reflexivity|].
  apply expect_true_passed. rewrite Er. reflexivity.
Qed.
Example C162_ex : usable (ex_site ex_types 9 "EqualsType") 2 /\
  (exists v, EqualsType (F := N) (ex_site ex_types 9 "EqualsType") (Some (GInt (B "int"), VInt 1)) (Some (GInt (B "int"), VInt 2)) = Ok v /\ passed v) /\
  (exists v, EqualsType (F := N) (ex_site ex_types 9 "EqualsType") (Some (GInt (B "int"), VInt 1)) (Some (GInt (B "int64"), VInt 1)) = Ok v /\ failed v).
Proof.
  assert (U : usable (ex_site ex_types 9 "EqualsType") 2) by (intros t Ht; injection Ht as <-; regulars). split; [exact U|]. split.
  - now apply C162_partial.
  - eapply (proj1 (proj2 (C162_partial _ _ _ U))); [reflexivity|reflexivity|discriminate].
Qed.
Print Assumptions C162_partial. Print Assumptions C162_trusty. Print Assumptions C162_names_refuted.

Print Assumptions C105_trusty. Print Assumptions C105_decides. Print Assumptions C105_contains. Print Assumptions C105_shift.
Print Assumptions C105_inner_refuted. Print Assumptions C105_spread_refuted. Print Assumptions C105_literal_refuted. Print Assumptions C105_nosource_refuted.
Print Assumptions C106_text. Print Assumptions C106_place. Print Assumptions C106_block_refuted. Print Assumptions C106_self_refuted. Print Assumptions C106_line_refuted.
Print Assumptions C107_nil. Print Assumptions C107_error. Print Assumptions C107_func_refuted. Print Assumptions C107_typednil_refuted. Print Assumptions C107_empty. Print Assumptions C107_kinds_refuted.
