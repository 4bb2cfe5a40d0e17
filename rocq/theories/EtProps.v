(* C160: errors in log lines. *)
From Coq Require Import Bool Ascii String Arith NArith ZArith List Lia Permutation.
From Verif Require Import Prelude PreludeFacts Utf8Model Utf8Facts DurModel DurProofs KvProofs EncModel JsonModel JsonSpec JsonFacts JsonProofs RfcSpec RfcString RfcProofs RfcProps CtxModel CtxSpec CtxProofs
  ErrModel LogModel LgModel LgSpec LgProofs LgProps RqModel RqSpec RqProps RlSpec RlProps EtModel EtSpec.
Import ListNotations.

Lemma jstr_inner short s : exists q, jstr short s = B """" ++ q ++ B """" /\ jstring q (cleaned s).
Proof.
  destruct (pstring_jstr short s []) as (q & -> & H). rewrite app_nil_r in H. unfold pstring in H. destruct (pstr_sound _ _ _ _ H) as (q' & -> & Q). exists q'. split; [reflexivity|exact Q].
Qed.
Lemma memb_json short k t x : json_text t x -> memb (jstr short k ++ B ":" ++ t) (cleaned k, x).
Proof.
  intros (a & t' & b & -> & Ha & Ht & Hb). destruct (jstr_inner short k) as (q & -> & Q). exists [], q, [], a, t', b. cbn [fst snd]. rewrite <- !app_assoc. cbn [app]. repeat split; auto using no_blanks.
Qed.
Lemma obj_text ps l : Forall2 memb ps l -> jtext (group false 123 125 0 ps) (TObj l).
Proof. intros H. destruct ps as [|p ps]; [inversion H; subst; apply (jt_obj0 [] no_blanks)|]. change (jtext (B "{" ++ join (B ",") (p :: ps) ++ B "}") (TObj l)). apply jt_obj. exact H. Qed.
Lemma arr_text ps l : Forall2 elem ps l -> jtext (group false 91 93 0 ps) (TArr l).
Proof. intros H. destruct ps as [|p ps]; [inversion H; subst; apply (jt_arr0 [] no_blanks)|]. change (jtext (B "[" ++ join (B ",") (p :: ps) ++ B "]") (TArr l)). apply jt_arr. exact H. Qed.
Lemma whole_text t x : jtext t x -> json_text t x.
Proof. intros H. exists [], t, []. rewrite app_nil_r. auto using no_blanks. Qed.
Lemma max_le {A} (f : A -> nat) n l : (forall y, In y l -> f y <= n) -> fold_right (fun y m => Nat.max (f y) m) 0 l <= n.
Proof. induction l as [|a l IH]; intros H; cbn; [lia|]. apply Nat.max_lub; [apply H; now left|]. apply IH. intros y Hy. apply H. now right. Qed.
Lemma all_trees (l : list (bytes * bytes)) n : (forall k t, In (k, t) l -> exists x, json_text t x /\ tdepth x <= n) ->
  exists tl, Forall2 (fun e f => fst f = cleaned (fst e) /\ json_text (snd e) (snd f)) l tl /\ forall e, In e tl -> tdepth (snd e) <= n.
Proof.
  induction l as [|[k t] l IH]; intros H; [exists []; split; [constructor|intros e []]|]. destruct IH as (tl & F & G); [intros; eapply H; right; eauto|].
  destruct (H k t (or_introl eq_refl)) as (x & Hx & Hd). exists ((cleaned k, x) :: tl). split; [constructor; auto|]. intros e [<-|He]; auto.
Qed.
Lemma in_extract c k t : In (k, t) (ksort (ExtractTags c)) <-> closest_tag c k = Some t.
Proof.
  rewrite <- extract_closest. split; intros H.
  - apply (mget_in beqb beqb_ok); [apply extract_nodup|]. eapply Permutation_in; [apply Permutation_sym, ksort_perm|exact H].
  - eapply Permutation_in; [apply ksort_perm|]. now apply (mget_in beqb beqb_ok) in H; [|apply extract_nodup].
Qed.
Section E.
  Context (short : bool) (uc : N -> option einfo) (um : N -> bytes) (st : Z -> bytes).
  Lemma tags_tree c : json_tags c -> exists l, shows_tags c l /\ (forall e, In e l -> tdepth (snd e) <= N.to_nat 9990) /\
    jtext (group false 123 125 0 (map (fun e => jstr short (fst e) ++ B ":" ++ snd e) (ksort (ExtractTags c)))) (TObj l).
  Proof.
    intros J. destruct (all_trees (ksort (ExtractTags c)) (N.to_nat 9990)) as (tl & F & D).
    { intros k t H. apply in_extract in H. destruct (J k t H) as (x & Hx & Hd). exists x. split; [exact Hx|]. lia. }
    exists tl. split; [split|split; [exact D|]].
    - intros k t H. apply in_extract in H. destruct (forall2_left _ _ _ _ F H) as ([k' x] & I1 & K1 & K2). cbn [fst snd] in K1, K2. subst k'. eauto.
    - intros k x H. destruct (forall2_right _ _ _ _ F H) as ([k' t] & I1 & K1 & K2). cbn [fst snd] in K1, K2. apply in_extract in I1. eauto.
    - apply obj_text. clear D. induction F as [|[k t] [k' x] l m [H1 H2] F IH]; cbn [map fst snd] in *; constructor; [|exact IH]. subst k'. now apply memb_json.
  Qed.
  Lemma stack_tree l : jtext (group false 91 93 0 (map (jstr short) l)) (TArr (map (fun s => TStr (cleaned s)) l)).
  Proof. apply arr_text. induction l as [|s l IH]; cbn [map]; constructor; [|exact IH]. exact (jstr_text short s). Qed.
  Lemma error_tree e : json_error uc e -> exists x, json_text (err_json short uc um st e) x /\ error_says uc um st e x /\ tdepth x <= N.to_nat 9992.
  Proof.
    intros J. unfold err_json, error_says.
    assert (M1 : memb (jstr short (B "error") ++ B ":" ++ jstr short (emsg um st e)) (B "error", TStr (cleaned (emsg um st e)))) by (apply (memb_json short (B "error")), jstr_text).
    destruct (as_ctx uc e) as [i|] eqn:Ei.
    - assert (M2 : memb (jstr short (B "stack") ++ B ":" ++ group false 91 93 0 (map (jstr short) (estack i))) (B "stack", TArr (map (fun s => TStr (cleaned s)) (estack i)))) by (apply (memb_json short (B "stack")), whole_text, stack_tree).
      assert (D2 : tdepth (TArr (map (fun s => TStr (cleaned s)) (estack i))) <= 1).
      { cbn [tdepth]. apply le_n_S. apply max_le. intros y Hy. apply in_map_iff in Hy as (s & <- & _). auto. }
      destruct (ectx i) as [c|] eqn:Ec.
      + destruct (tags_tree c (J i c Ei Ec)) as (l & S1 & S2 & S3). eexists. split; [apply whole_text, obj_text; constructor; [exact M1|constructor; [exact M2|constructor; [|constructor]]]; apply (memb_json short (B "tags")), whole_text, S3|].
        split; [eexists; split; [reflexivity|]; eexists; split; [reflexivity|]; exists l; split; [reflexivity|exact S1]|].
        assert (D3 : tdepth (TObj l) <= S (N.to_nat 9990)) by (cbn [tdepth]; apply le_n_S; apply (max_le (fun e => tdepth (snd e))); exact S2).
        set (T2 := TArr (map (fun s => TStr (cleaned s)) (estack i))) in *. set (T3 := TObj l) in *. cbn [tdepth fold_right snd]. change (cleaned (B "tags")) with (B "tags"). lia.
      + eexists. split; [apply whole_text, obj_text; constructor; [exact M1|constructor; [exact M2|constructor]]|]. split; [eexists; split; [reflexivity|]; eexists; split; reflexivity|].
        set (T2 := TArr (map (fun s => TStr (cleaned s)) (estack i))) in *. cbn [tdepth fold_right snd]. lia.
    - eexists. split; [apply whole_text, obj_text; constructor; [exact M1|constructor]|]. split; [eexists; split; reflexivity|]. cbn [tdepth fold_right snd]. lia.
  Qed.
  Lemma errors_tree es : Forall (json_error uc) es -> exists xs, json_text (group false 91 93 0 (map (err_json short uc um st) es)) (TArr xs) /\ Forall2 (error_says uc um st) es xs /\ (N.of_nat (tdepth (TArr xs)) <= 10000)%N.
  Proof.
    intros H. assert (G : exists xs, Forall2 elem (map (err_json short uc um st) es) xs /\ Forall2 (error_says uc um st) es xs /\ forall y, In y xs -> tdepth y <= N.to_nat 9992).
    { induction H as [|e es He H (xs & A & C & D)]; [exists []; split; [apply Forall2_nil|]; split; [apply Forall2_nil|]; intros y []|]. destruct (error_tree e He) as (x & X1 & X2 & X3). exists (x :: xs).
      split; [cbn [map]; constructor; [exact X1|exact A]|]. split; [constructor; auto|]. intros y [<-|Hy]; auto. }
    destruct G as (xs & A & C & D). exists xs. split; [apply whole_text, arr_text, A|]. split; [exact C|]. pose proof (max_le tdepth _ xs D) as M. cbn [tdepth]. lia.
  Qed.
End E.
Lemma loop_errors t args : Forall leaves_tags args -> format_loop t args = (t, map shown args, errors_in args).
Proof.
  induction 1 as [|a args Ha H IH]; [reflexivity|]. cbn [format_loop map errors_in flat_map]. destruct a as [s|s|g|e|n]; cbn [LogAs]; try contradiction; rewrite IH; reflexivity.
Qed.

Lemma marshals_ok uc e : json_error uc e -> marshals uc e = true.
Proof.
  intros J. unfold marshals. destruct (as_ctx uc e) as [i|] eqn:Ei; [|reflexivity]. destruct (ectx i) as [c|] eqn:Ec; [|reflexivity]. apply forallb_forall. intros [k t] H. apply in_extract in H. cbn [snd].
  destruct (J i c Ei Ec k t H) as (x & Hx & Hd). destruct (jvalid t) eqn:E; [reflexivity|]. pose proof (jvalid_false t x E Hx). lia.
Qed.
Lemma marshals_bad uc e : bad_error uc e -> marshals uc e = false.
Proof.
  intros (i & c & k & t & Ei & Ec & Hk & Hx). unfold marshals. rewrite Ei, Ec. apply not_true_iff_false. intros Q. rewrite forallb_forall in Q. apply in_extract in Hk. apply Q in Hk. cbn [snd] in Hk.
  destruct (jvalid_true t Hk) as (x & X & _). exact (Hx x X).
Qed.
(* C160, what holds: for every log call with errors among its arguments, the line has one tag "error", which reads as a list with one object for each of the errors, in order: its message,
   and the stack and all tags of the first ctx.Error in it, as errors.As finds it; provided that the tags of these contexts are JSON. *)
Theorem C160_partial : forall now err short uc um st sp (order : list (bytes * bytes) -> list (bytes * bytes)) min lvl src c f args,
  clock_text now -> (min <= lvl)%Z -> (forall l, Permutation l (order l)) -> Forall leaves_tags args -> plain c ->
  errors_in args <> [] -> Forall (json_error uc) (errors_in args) ->
  exists line tl x xs, log_call now err short uc um st sp order min lvl src c f args = Ok (Some line) /\ is_line line now lvl (sp f (map shown args)) src tl /\
    In (B "error", x) tl /\ (forall y, In (B "error", y) tl -> alike_trees y (TArr xs)) /\ Forall2 (error_says uc um st) (errors_in args) xs.
Proof.
  intros now err short uc um st sp order min lvl src c f args Hn Hm Ho Ha [P1 P2] Ne Je.
  destruct (errors_tree short uc um st (errors_in args) Je) as (xs & X1 & X2 & X3). set (txt := group false 91 93 0 (map (err_json short uc um st) (errors_in args))) in *.
  set (t := mset beqb (ExtractTags c) (B "error") txt).
  assert (E : format short uc um st sp (ExtractTags c) f args = (sp f (map shown args), t)).
  { unfold format, marshal_errs. rewrite (loop_errors _ _ Ha). unfold t, txt. assert (M : forallb (marshals uc) (errors_in args) = true) by (apply forallb_forall; intros e He; apply marshals_ok; rewrite Forall_forall in Je; auto).
    rewrite M. destruct (errors_in args) as [|e es]; [contradiction|reflexivity]. }
  assert (NDt : NoDup (map fst t)) by (apply (mset_nodup beqb beqb_ok), extract_nodup).
  assert (Ge : mget beqb t (B "error") = Some txt) by (apply (mget_mset_eq beqb beqb_ok)).
  assert (No : forall k, k <> B "error" -> closest_tag c k = None -> ~ In k (map fst (order t))).
  { intros k Hk Hc Q. eapply Permutation_in in Q; [|apply Permutation_sym, Permutation_map, Ho]. rewrite <- extract_closest in Hc.
    rewrite <- (mget_mset_ne beqb beqb_ok (ExtractTags c) (B "error") k txt) in Hc by congruence. fold t in Hc. apply (mget_none beqb beqb_ok) in Hc. contradiction. }
  destruct (C127_line_partial now err min lvl src (sp f (map shown args)) (order t) Hn Hm) as (line & El & (s & lv & tl & L1 & L2 & L3 & L4 & L5)); [apply No; [discriminate|exact P1]|apply No; [discriminate|exact P2]|].
  assert (It : forall v, In (B "error", v) (order t) <-> v = txt).
  { intros v. split; intros H.
    - eapply Permutation_in in H; [|apply Permutation_sym, Ho]. apply (mget_in beqb beqb_ok) in H; [|exact NDt]. congruence.
    - subst v. eapply Permutation_in; [apply Ho|]. apply (mget_in beqb beqb_ok); [exact NDt|exact Ge]. }
  assert (Al : forall y, tag_shows txt y -> alike_trees y (TArr xs)).
  { intros y [[Hy _]|[Hy _]]; [|specialize (Hy _ X1); lia]. destruct (C102_unambiguous _ _ _ X1 Hy X3) as (n & N1 & N2). exists n. auto. }
  destruct (forall2_left _ _ _ _ L5 (proj2 (It txt) eq_refl)) as ([k x] & I1 & K1 & K2). cbn [fst snd] in K1, K2. change (cleaned (B "error")) with (B "error") in K1. subst k.
  exists line, tl, x, xs. split; [unfold log_call; rewrite E; exact El|]. split; [exists s, lv; auto|]. split; [exact I1|]. split; [|exact X2].
  intros y Hy. destruct (forall2_right _ _ _ _ L5 Hy) as ([k' v] & J1 & J2 & J3). cbn [fst snd] in J2, J3.
  assert (k' = B "error") by (rewrite J2; symmetry; apply cleaned_plain; rewrite <- J2; repeat constructor). subst k'. apply It in J1. subst v. now apply Al.
Qed.
Print Assumptions C160_partial.

(* C160: so an error that was made with the context of a request tells the path, the user agent and the remote address of the request, wherever it is logged. *)
Theorem C160_request : forall (l : list event) (r : req) (c : context) uc um st e i x, let w := history l in
  In r (reqs w) -> is_ctx w (r_ctx r) c -> as_ctx uc e = Some i -> ectx i = Some c -> error_says uc um st e x ->
  exists m, x = TObj m /\ exists tl, In (B "tags", TObj tl) m /\ tells tl (B "path") (cleaned (r_path r)) /\ tells tl (B "ua") (cleaned (r_ua r)) /\ tells tl (B "http.remote") (cleaned (c_remote (r_con r))).
Proof.
  intros l r c uc um st e i x w Hr Hc Ei Ec (more & -> & H). rewrite Ei in H. destruct H as (more' & -> & H). rewrite Ec in H. destruct H as (tl & -> & S1 & S2).
  eexists. split; [reflexivity|]. exists tl. split; [right; right; now left|].
  destruct (ok_history l) as (_ & _ & D & _). destruct (D r Hr) as (b & f0 & g & i0 & j & _ & _ & _ & E). apply env_ctx in E. fold w in E. unfold is_ctx in *. assert (c = rctx b r i0 j) by congruence. subst c.
  assert (G : forall k v, cleaned k = k -> Forall (fun a => (code a < 128)%N) k -> closest_tag (rctx b r i0 j) k = Some (jstr false v) -> tells tl k (cleaned v)).
  { intros k v Ck Fk Hk.
    assert (Y : forall y, json_text (jstr false v) y -> y = TStr (cleaned v)).
    { intros y Hy. destruct (C102_unambiguous _ _ _ (jstr_text false v) Hy) as (n & A & C); [cbn; lia|]. inversion A; subst. inversion C; subst. reflexivity. }
    split.
    - destruct (S1 _ _ Hk) as (y & Y1 & Y2). apply Y in Y2. subst y. now rewrite Ck in Y1.
    - intros y Hy. destruct (S2 _ _ Hy) as (k' & t & T1 & T2 & T3). assert (k' = k) by (rewrite T2; symmetry; apply cleaned_plain; now rewrite <- T2). subst k'. rewrite Hk in T1. injection T1 as <-. auto. }
  split; [|split]; (apply G; [reflexivity|repeat constructor|unfold rctx, tagd; destruct (r_handle r); reflexivity]).
Qed.
Print Assumptions C160_request.

(* C160, false as stated: of an error that wraps several, the stack and the tags of the first only are shown; the line does not depend on those of the others
   (the hypothesis: Sprintf prints an error as its message, which is the same for both). *)
Theorem C160_refuted : exists a b c c', closest_tag c (B "k") <> closest_tag c' (B "k") /\
  a = ECtx (EInfo [B "a.go:1"] (Some c)) (EBase 1 (B "x")) /\ b = ECtx (EInfo [B "b.go:2"] (Some c')) (EBase 1 (B "x")) /\
  forall now err short uc um st sp order min lvl src cl f p m d,
    let e x := AErr (EWraps p m [ECtx (EInfo [] None) d; x]) in
    sp f (map shown [e a]) = sp f (map shown [e b]) ->
    log_call now err short uc um st sp order min lvl src cl f [e a] = log_call now err short uc um st sp order min lvl src cl f [e b].
Proof.
  eexists. eexists. exists (Tag Root (B "k") (B "1")), (Tag Root (B "k") (B "2")). split; [vm_compute; discriminate|]. split; [reflexivity|]. split; [reflexivity|].
  intros now err short uc um st sp order min lvl src cl f p m d e Q. unfold e in *. unfold log_call, format. cbn [format_loop LogAs map shown] in *. rewrite Q. reflexivity.
Qed.
Print Assumptions C160_refuted.

(* C160, false as stated: if one of the errors has a tag that is no JSON (json.RawMessage values of tags are not checked), none of the errors of the call are told: the line has the tags of the
   context of the call only. *)
Theorem C160_bad_refuted : forall now err short uc um st sp (order : list (bytes * bytes) -> list (bytes * bytes)) min lvl src c f args,
  clock_text now -> (min <= lvl)%Z -> (forall l, Permutation l (order l)) -> Forall leaves_tags args -> plain c ->
  Exists (bad_error uc) (errors_in args) ->
  exists line tl, log_call now err short uc um st sp order min lvl src c f args = Ok (Some line) /\ is_line line now lvl (sp f (map shown args)) src tl /\
    forall k y, In (k, y) tl -> exists k' t, closest_tag c k' = Some t /\ k = cleaned k' /\ tag_shows t y.
Proof.
  intros now err short uc um st sp order min lvl src c f args Hn Hm Ho Ha [P1 P2] Hb.
  assert (M : forallb (marshals uc) (errors_in args) = false).
  { apply not_true_iff_false. intros Q. rewrite forallb_forall in Q. apply Exists_exists in Hb as (e & He & Hb). apply marshals_bad in Hb. rewrite (Q e He) in Hb. discriminate. }
  assert (E : format short uc um st sp (ExtractTags c) f args = (sp f (map shown args), ExtractTags c)).
  { unfold format, marshal_errs. rewrite (loop_errors _ _ Ha), M. destruct (errors_in args); reflexivity. }
  assert (No : forall k, closest_tag c k = None -> ~ In k (map fst (order (ExtractTags c)))).
  { intros k Hc Q. eapply Permutation_in in Q; [|apply Permutation_sym, Permutation_map, Ho]. rewrite <- extract_closest in Hc. apply (mget_none beqb beqb_ok) in Hc. contradiction. }
  destruct (C127_line_partial now err min lvl src (sp f (map shown args)) (order (ExtractTags c)) Hn Hm (No _ P1) (No _ P2)) as (line & El & (s & lv & tl & L1 & L2 & L3 & L4 & L5)).
  exists line, tl. split; [unfold log_call; rewrite E; exact El|]. split; [exists s, lv; auto|].
  intros k y Hy. destruct (forall2_right _ _ _ _ L5 Hy) as ([k' v] & J1 & J2 & J3). cbn [fst snd] in J2, J3. exists k', v. split; [|auto].
  rewrite <- extract_closest. apply (mget_in beqb beqb_ok); [apply extract_nodup|]. eapply Permutation_in; [apply Permutation_sym, Ho|exact J1].
Qed.
Print Assumptions C160_bad_refuted.
(* a tag that is no JSON hides the other error of the call as well *)
Example C160_bad_ex :
  log_call lg_now (fun _ => B "eof") true (fun _ => None) (fun _ => []) (fun _ => []) (fun f _ => f) (fun l => l) 0 8 (B "x.go:1") (Tag Root (B "a") (B "1")) (B "hi")
    [AErr (ECtx (EInfo [] (Some (Tag Root (B "raw") (B "{}}")))) (EBase 1 (B "boom"))); AErr (EBase 2 (B "other"))] =
  Ok (Some (B "{""time"":""2024-01-02T03:04:05.006+01:00"",""level"":""error"",""message"":""hi"",""src"":""x.go:1"",""tags"":{""a"":1}}" ++ [chr 10])) /\
  bad_error (fun _ => None) (ECtx (EInfo [] (Some (Tag Root (B "raw") (B "{}}")))) (EBase 1 (B "boom"))).
Proof.
  split; [vm_compute; reflexivity|]. exists (EInfo [] (Some (Tag Root (B "raw") (B "{}}")))), (Tag Root (B "raw") (B "{}}")), (B "raw"), (B "{}}"). split; [reflexivity|]. split; [reflexivity|]. split; [vm_compute; reflexivity|].
  intros x H. destruct (text_parse _ x H) as (b & Hb & Hp). change (2 * length (B "{}}") + 2) with 8 in Hp.
  assert (E : pvalue 8 0 (B "{}}") = Some (JObj [], [chr 125])) by (vm_compute; reflexivity). rewrite E in Hp.
  destruct (tdepth x <=? maxdepth); [|discriminate]. injection Hp as _ <-. inversion Hb as [|? ? H1 _]; subst. cbn [In] in H1. repeat (destruct H1 as [H1|H1]; [vm_compute in H1; discriminate|]). destruct H1.
Qed.

(* an error made with the context of a request, logged with another one *)
Definition C160_ctx : context := Tag (Tag Root (B "ua") (jstr false (B "curl"))) (B "path") (jstr false (B "/a""b")).
Example C160_ex :
  log_call lg_now (fun _ => B "eof") true (fun _ => None) (fun _ => []) (fun _ => []) (fun f _ => f) (fun l => l) 0 4 (B "x.go:1") Root (B "hi") [AStr (B "s"); AErr (ECtx (EInfo [B "a.go:1"; B "b.go:2"] (Some C160_ctx)) (EBase 1 (B "boom"))); AErr (EBase 2 (B "other"))] =
  Ok (Some (B "{""time"":""2024-01-02T03:04:05.006+01:00"",""level"":""warn"",""message"":""hi"",""src"":""x.go:1"",""tags"":{""error"":[{""error"":""boom"",""stack"":[""a.go:1"",""b.go:2""],""tags"":{""path"":""/a\""b"",""ua"":""curl""}},{""error"":""other""}]}}" ++ [chr 10])) /\
  json_tags C160_ctx /\ plain Root.
Proof.
  split; [vm_compute; reflexivity|]. split; [|split; reflexivity]. intros k t. rewrite <- in_extract. intros H. vm_compute in H.
  destruct H as [H|[H|[]]]; injection H as <- <-; eexists; (split; [first [exact (jstr_text false (B "curl"))|exact (jstr_text false (B "/a""b"))]|cbn; lia]).
Qed.
