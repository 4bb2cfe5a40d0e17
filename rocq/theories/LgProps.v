(* Theorems about the lines of the default logger: C127, C128. *)
From Coq Require Import Bool Ascii String Arith NArith ZArith Lia List Permutation.
From Verif Require Import Prelude PreludeFacts Utf8Model DecModel DurModel DurProofs KvProofs EncModel JsonModel JsonSpec RfcSpec CtxModel CtxSpec CtxProofs
  ErrModel LogModel LgModel LgSpec LgProofs.
Import ListNotations.
Local Open Scope N_scope.

(* C127: the line of a record: one line of JSON with the level, the message, the source and the tags, each under its name; provided
   that no tag is named "level" or "msg". *)
Theorem C127_line_partial : forall now err min lvl src msg tags, clock_text now -> (min <= lvl)%Z ->
  ~ In (B "level") (map fst tags) -> ~ In (B "msg") (map fst tags) ->
  exists line, log_attrs now err min lvl src msg tags = Ok (Some line) /\ line_says line now lvl msg src tags.
Proof. exact log_line. Qed.
Print Assumptions C127_line_partial.

(* the arguments as fmt.Sprintf sees them *)
Definition shown (a : arg) : arg := match a with ARedacted _ => AStr (B "***") | _ => a end.
Lemma loop_leaves t args : Forall leaves_tags args ->
  exists es, format_loop t args = (t, map shown args, es) /\ (Forall (fun a => ~ is_error a) args -> es = []).
Proof.
  induction 1 as [|a args Ha H IH]; [exists []; split; auto|]. destruct IH as (es & E & H1). cbn [format_loop map].
  destruct a as [s|s|g|e|n]; cbn [LogAs]; try contradiction; rewrite E; cbn [shown]; eexists; (split; [reflexivity|]); intros Q; inversion Q as [|? ? Q1 Q2]; subst; auto;
  exfalso; apply Q1; exact Logic.I.
Qed.
Lemma extract_nodup c : NoDup (map fst (ExtractTags c)).
Proof.
  unfold ExtractTags. rewrite range_each.
  assert (G : forall l (s : list (bytes * bytes)), NoDup (map fst s) -> NoDup (map fst (fst (each (E := unit) (fun m k j => (mset beqb m k j, None)) l s)))).
  { induction l as [|[k j] l IH]; intros s Hs; cbn [each fst]; [exact Hs|]. apply IH, (mset_nodup beqb beqb_ok), Hs. }
  apply G. constructor.
Qed.
Lemma slog_leaves short uc um st sp c f args : Forall leaves_tags args ->
  exists t, slog_call short uc um st sp c f args = (sp f (map shown args), t) /\ NoDup (map fst t) /\
    (forall k, k <> B "error" \/ Forall (fun a => ~ is_error a) args -> mget beqb t k = closest_tag c k).
Proof.
  intros H. unfold slog_call, FormatMsg. destruct (loop_leaves (ExtractTags c) args H) as (es & E & H1). rewrite E.
  destruct es as [|e es].
  - eexists. split; [reflexivity|]. split; [apply extract_nodup|]. intros k _. apply extract_closest.
  - eexists. split; [reflexivity|]. split; [apply (mset_nodup beqb beqb_ok), extract_nodup|].
    intros k [Hk|Hk]; [|specialize (H1 Hk); discriminate]. rewrite (mget_mset_ne beqb beqb_ok) by congruence. apply extract_closest.
Qed.
Lemma perm_in {A} (l m : list A) x : Permutation l m -> In x l <-> In x m.
Proof. intros P. split; apply Permutation_in; [exact P|apply Permutation_sym, P]. Qed.

(* C127: so the line of a log call has the message and the tags of the context, those that are closest. *)
Theorem C127_call_partial : forall now err short uc um st sp (order : list (bytes * bytes) -> list (bytes * bytes)) min lvl src c f args,
  clock_text now -> (min <= lvl)%Z -> (forall l, Permutation l (order l)) -> Forall leaves_tags args ->
  closest_tag c (B "level") = None -> closest_tag c (B "msg") = None ->
  exists line tags, Log now err short uc um st sp order min lvl src c f args = Ok (Some line) /\
    line_says line now lvl (sp f (map shown args)) src tags /\ NoDup (map fst tags) /\
    forall k t, k <> B "error" \/ Forall (fun a => ~ is_error a) args -> In (k, t) tags <-> closest_tag c k = Some t.
Proof.
  intros now err short uc um st sp order min lvl src c f args Hn Hl Ho Ha H1 H2.
  destruct (slog_leaves short uc um st sp c f args Ha) as (t & E & Ht & Hg). unfold Log. rewrite E.
  assert (P : forall k, k <> B "error" -> closest_tag c k = None -> ~ In k (map fst (order t))).
  { intros k Hk Hc Q. eapply Permutation_in in Q; [|apply Permutation_sym, Permutation_map, Ho].
    rewrite <- Hg in Hc by (left; exact Hk). apply (mget_none beqb beqb_ok) in Hc. contradiction. }
  destruct (log_line now err min lvl src (sp f (map shown args)) (order t)) as (line & El & Hs); auto.
  - apply P; [discriminate|exact H1].
  - apply P; [discriminate|exact H2].
  - exists line, (order t). repeat split; auto.
    + eapply Permutation_NoDup; [apply Permutation_map, Ho|exact Ht].
    + intros Q. rewrite <- Hg by assumption. apply (mget_in beqb beqb_ok); [exact Ht|]. eapply perm_in; [apply Ho|exact Q].
    + intros Q. rewrite <- Hg in Q by assumption. apply (mget_in beqb beqb_ok) in Q; [|exact Ht]. eapply perm_in; [apply Permutation_sym, Ho|exact Q].
Qed.
Print Assumptions C127_call_partial.

(* C127: the text of a level belongs to no other, and the usual ones have their names. *)
Theorem C127_levels : (forall t a b, reads_level t a -> reads_level t b -> a = b) /\
  forall l, exists t, reads_level t l.
Proof. split; [exact reads_one|]. intros l. eexists. apply level_reads. Qed.
Print Assumptions C127_levels.

(* C127: below the minimum level nothing is written, whatever the tags are. *)
Theorem C127_below : forall now err short uc um st sp order min lvl src c f args, (lvl < min)%Z ->
  Log now err short uc um st sp order min lvl src c f args = Ok None.
Proof.
  intros now err short uc um st sp order min lvl src c f args H. unfold Log. destruct (slog_call _ _ _ _ _ _ _ _) as [m t]. unfold log_attrs. apply Z.ltb_lt in H. now rewrite H.
Qed.
Print Assumptions C127_below.

(* C127 is false of the code: a tag named "level" makes every log call panic that is not below the minimum level. *)
Theorem C127_level_refuted : forall now err short uc um st sp (order : list (bytes * bytes) -> list (bytes * bytes)) min lvl src c f args t,
  (min <= lvl)%Z -> (forall l, Permutation l (order l)) -> Forall leaves_tags args -> closest_tag c (B "level") = Some t ->
  Log now err short uc um st sp order min lvl src c f args = Panic.
Proof.
  intros now err short uc um st sp order min lvl src c f args t Hl Ho Ha Hc.
  destruct (slog_leaves short uc um st sp c f args Ha) as (u & E & Hu & Hg). unfold Log. rewrite E. unfold log_attrs.
  replace (lvl <? min)%Z with false by (symmetry; apply Z.ltb_ge; exact Hl).
  assert (Q : In (B "level") (map fst (order u))).
  { rewrite <- Hg in Hc by (left; discriminate). apply (mget_in beqb beqb_ok) in Hc; [|exact Hu].
    eapply Permutation_in; [apply Permutation_map, Ho|]. apply in_map_iff. exists (B "level", t). auto. }
  pose proof (members_level now err (order u) Q) as P. unfold handle. cbn [attrs_text].
  assert (T : attrs_text now err [Gr (B "tags") (map (fun e => (fst e, SJson (snd e))) (order u))] = Panic).
  { destruct (order u) as [|e l]; [destruct Q|]. cbn [map attrs_text] in *. rewrite P. reflexivity. }
  destruct src as [|x src]; cbn [app attrs_text] in *; rewrite T; reflexivity.
Qed.
Print Assumptions C127_level_refuted.

(* C127 is false of the code: a tag "msg" shows as "message". *)
Theorem C127_msg_refuted : exists c c' t, closest_tag c (B "msg") = Some t /\ closest_tag c' (B "msg") = None /\
  forall now err short uc um st sp min lvl src f, 
    Log now err short uc um st sp (fun l => l) min lvl src c f [] = Log now err short uc um st sp (fun l => l) min lvl src c' f [].
Proof.
  exists (Tag Root (B "msg") (B "1")), (Tag Root (B "message") (B "1")), (B "1"). split; [reflexivity|]. split; [reflexivity|].
  intros. unfold Log, slog_call, FormatMsg. cbn [format_loop ExtractTags RangeTag range_val fst snd mset].
  unfold log_attrs. destruct (lvl <? min)%Z; [reflexivity|]. destruct src; reflexivity.
Qed.
Print Assumptions C127_msg_refuted.

(* C127 is false of the code: a tag "error" is lost when an error is logged. *)
Theorem C127_error_refuted : exists c c' t t', closest_tag c (B "error") = Some t /\ closest_tag c' (B "error") = Some t' /\ t <> t' /\
  forall now err short uc um st sp min lvl src f e, 
    Log now err short uc um st sp (fun l => l) min lvl src c f [AErr e] = Log now err short uc um st sp (fun l => l) min lvl src c' f [AErr e].
Proof.
  exists (Tag Root (B "error") (B "1")), (Tag Root (B "error") (B "2")), (B "1"), (B "2"). repeat split; discriminate.
Qed.
Print Assumptions C127_error_refuted.

(* a tag with blanks in its text, one that is no JSON, a message over two lines with a byte that is no UTF-8 *)
Definition lg_now : bytes := B "2024-01-02T03:04:05.006+01:00".
Definition lg_ctx : context := Tag (Tag (Tag Root (B "user") (B " { ""id"" : 7 }")) (B "bad") (B "{")) (B "user") (B "[ 1, 2 ]").
Definition lg_line : bytes :=
  B "{""time"":""2024-01-02T03:04:05.006+01:00"",""level"":""info+1"",""message"":""a\n<b>\ufffd"",""src"":""x.go:1"",""tags"":{""bad"":""!ERROR:eof"",""user"":[1,2]}}"
  ++ [chr 10].
Example C127_ex : Log lg_now (fun _ => B "eof") true (fun _ => None) (fun _ => []) (fun _ => []) (fun f _ => f) (@rev _) (-4) 1 (B "x.go:1") lg_ctx
    (B "a" ++ chr 10 :: B "<b>" ++ [chr 255]) [AStr (B "x"); ARedacted (B "y")] = Ok (Some lg_line) /\
  clock_text lg_now /\ (forall l : list (bytes * bytes), Permutation l (rev l)) /\ Forall leaves_tags [AStr (B "x"); ARedacted (B "y")] /\
  Forall (fun a => ~ is_error a) [AStr (B "x"); ARedacted (B "y")] /\
  closest_tag lg_ctx (B "level") = None /\ closest_tag lg_ctx (B "msg") = None /\ closest_tag lg_ctx (B "user") = Some (B "[ 1, 2 ]") /\
  reads_level (B "info+1") 1 /\ reads_level (B "debug-3") (-7).
Proof.
  split; [vm_compute; reflexivity|]. split; [repeat constructor; discriminate|]. split; [apply Permutation_rev|]. split; [repeat constructor|].
  split; [repeat constructor; cbn; auto|]. repeat (split; [reflexivity|]). split.
  - apply (rl_above (B "info") 0 1); [cbn; auto|lia].
  - apply (rl_below (B "debug") (-4) (-3)); [cbn; auto|lia].
Qed.

(* C128: a call is written exactly if its level is at least the one that was set last, provided that no default logger was created since. *)
Definition keeps_level (o : lop) : Prop := match o with OLog _ _ _ _ _ => True | _ => False end.
Theorem C128_level_partial : forall now err short uc um st sp order ops ops' z s lvl src c f args s',
  let run := lrun now err short uc um st sp order in
  run linit (ops ++ OSet z :: ops') = Ok s -> Forall keeps_level ops' -> run s [OLog lvl src c f args] = Ok s' ->
  ((lvl < z)%Z -> l_out s' = l_out s) /\ ((z <= lvl)%Z -> exists line, l_out s' = l_out s ++ [line]).
Proof.
  intros now err short uc um st sp order ops ops' z s lvl src c f args s' run H Hk H'.
  assert (M : l_min s = z).
  { unfold run in H. clear - H Hk. revert H. generalize linit as s0. induction ops as [|o ops IH]; intros s0 H.
    - cbn [app lrun lstep rbind] in H.
      assert (G : forall l s0, Forall keeps_level l -> lrun now err short uc um st sp order s0 l = Ok s -> l_min s = l_min s0).
      { clear. induction l as [|o l IH]; intros s0 Hl H; cbn [lrun] in H; [congruence|]. inversion Hl as [|? ? Ho Hl']; subst.
        destruct o; try destruct Ho. cbn [lstep] in H. destruct (Log _ _ _ _ _ _ _ _ _ _ _ _ _ _) as [r|]; cbn [rbind] in H; [|discriminate].
        rewrite (IH _ Hl' H). reflexivity. }
      rewrite (G _ _ Hk H). reflexivity.
    - cbn [app lrun] in H. destruct (lstep now err short uc um st sp order s0 o) as [s1|] eqn:E; cbn [rbind] in H; [|discriminate]. eapply IH, H. }
  unfold run in H'. cbn [lrun lstep] in H'. rewrite M in H'. split.
  - intros Hl. rewrite C127_below in H' by exact Hl. cbn [rbind] in H'. injection H' as <-. cbn. apply app_nil_r.
  - intros Hl. destruct (Log now err short uc um st sp order z lvl src c f args) as [[r|]|] eqn:E; cbn [rbind] in H'; [| |discriminate].
    + injection H' as <-. exists r. reflexivity.
    + exfalso. unfold Log in E. destruct (slog_call _ _ _ _ _ _ _ _) as [m t]. unfold log_attrs in E.
      replace (lvl <? z)%Z with false in E by (symmetry; apply Z.ltb_ge; exact Hl). destruct (handle _ _ _ _ _); discriminate.
Qed.
Print Assumptions C128_level_partial.

(* C128 is false of the code: creating a default logger lets everything down to debug through again, for all default loggers. *)
Theorem C128_level_refuted : forall now err short uc um st sp order z lvl src f, clock_text now -> (forall l : list (bytes * bytes), Permutation l (order l)) ->
  (-4 <= lvl < z)%Z ->
  exists line, lrun now err short uc um st sp order linit [OSet z; ONew; OLog lvl src Root f []] = Ok (Lst (-4) [line]).
Proof.
  intros now err short uc um st sp order z lvl src f Hn Ho Hl.
  destruct (C127_call_partial now err short uc um st sp order (-4) lvl src Root f []) as (line & t & E & _); auto; [lia|].
  exists line. cbn [lrun lstep rbind l_min l_out linit]. rewrite E. reflexivity.
Qed.
Print Assumptions C128_level_refuted.

Example C128_ex : exists s s', let run := lrun lg_now (fun _ => []) true (fun _ => None) (fun _ => []) (fun _ => []) (fun f _ => f) (fun l => l) in
  run linit ([OSet (-8); OLog 4 [] Root (B "a") []; ONew] ++ OSet 4 :: [OLog 0 [] Root (B "b") []]) = Ok s /\
  Forall keeps_level [OLog 0 [] Root (B "b") []] /\ run s [OLog 8 [] Root (B "c") []] = Ok s' /\ length (l_out s) = 1%nat /\ length (l_out s') = 2%nat.
Proof.
  eexists. eexists. split; [vm_compute; reflexivity|]. split; [repeat constructor|]. split; [vm_compute; reflexivity|]. split; reflexivity.
Qed.
