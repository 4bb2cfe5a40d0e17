(* C152: the context of a test. *)
From Coq Require Import Bool Ascii String Arith NArith ZArith Lia List.
From Verif Require Import Prelude DurModel DurProofs JsonModel QuoteModel CtxModel CtxSpec CtxProofs XtModel XtSpec.
Import ListNotations.

(* A *testing.T that was attached with WithTester is the one that is found, in that context and all made from it. *)
Theorem C152_partial : forall (tester : N) (is_T : N -> bool) (p c : context) (t : N), is_T t = true ->
  derived tester (Val p (KUser tester) (Some (VUser t))) c -> ExtractTester tester is_T (Some c) = Some t /\ forall b, assert_json tester is_T (Some c) b = Ok (t, b).
Proof.
  intros tester is_T p c t HT D. assert (E : Value c (KUser tester) = Some (VUser t)).
  { induction D; cbn [Value]; auto.
    - cbn. now rewrite N.eqb_refl.
    - destruct (key_eqb k (KUser tester)) eqn:K; [|exact IHD]. exfalso. apply H. destruct k; try discriminate. apply N.eqb_eq in K. now subst. }
  unfold assert_json, ExtractTester. rewrite E, HT. auto.
Qed.
(* Another testing.TB, as a *testing.B, is not found, nor a test that was attached before it; the assertions that take a context panic. *)
Theorem C152_refuted : forall (tester : N) (is_T : N -> bool) (p c : context) (t : N), is_T t = false ->
  derived tester (Val p (KUser tester) (Some (VUser t))) c -> ExtractTester tester is_T (Some c) = None /\ forall b, assert_json tester is_T (Some c) b = Panic.
Proof.
  intros tester is_T p c t HT D. assert (E : Value c (KUser tester) = Some (VUser t)).
  { induction D; cbn [Value]; auto.
    - cbn. now rewrite N.eqb_refl.
    - destruct (key_eqb k (KUser tester)) eqn:K; [|exact IHD]. exfalso. apply H. destruct k; try discriminate. apply N.eqb_eq in K. now subst. }
  unfold assert_json, ExtractTester. rewrite E, HT. auto.
Qed.

(* ---- test.Context ---- *)
Lemma at_env cs cf e l fr k f : on (State cs cf (e ++ l) fr) (length e + k) f = match nth_error l k with Some (c, _) => f c | None => State cs cf (e ++ l) fr end.
Proof. unfold on, ctx_at. cbn [env]. rewrite nth_error_app2 by lia. replace (length e + k - length e) with k by lia. destruct (nth_error l k) as [[c i]|]; reflexivity. Qed.
Lemma at_env0 cs cf e l fr f : on (State cs cf (e ++ l) fr) (length e) f = match nth_error l 0 with Some (c, _) => f c | None => State cs cf (e ++ l) fr end.
Proof. rewrite <- (at_env cs cf e l fr 0 f). now rewrite Nat.add_0_r. Qed.
Definition chain (tester : N) (q : nat) (name : bytes) (t : N) (terminal : option (N * N)) : context :=
  let b := Val (Tag Root (B "test") (jstr false name)) (KUser tester) (Some (VUser t)) in
  match terminal with Some _ => Val (Val b KConfig (Some (VConf q))) KConfig (Some (VConf q)) | None => b end.
Definition cfs (l : list config) (terminal : option (N * N)) : list config := match terminal with Some (h, f) => l ++ [Config (Some f) (Some h)] | None => l end.
Lemma upd_last {A} (l : list A) x y : upd (l ++ [x]) (length l) y = l ++ [y].
Proof. induction l as [|z l IH]; [reflexivity|]. cbn. now rewrite IH. Qed.
Lemma config_new cs cf e fr c g : Value c KConfig = None -> with_config (State cs cf e fr) c g = State cs (cf ++ [g (Config None None)]) (e ++ [(Val c KConfig (Some (VConf (length cf))), None)]) fr.
Proof. intros H. unfold with_config, extractConfig. cbn [confs]. rewrite H. rewrite nth_error_app2, Nat.sub_diag by lia. cbn [nth_error]. rewrite upd_last. reflexivity. Qed.
Lemma config_old cs cf x e fr c g : Value c KConfig = Some (VConf (length cf)) -> with_config (State cs (cf ++ [x]) e fr) c g = State cs (cf ++ [g x]) (e ++ [(Val c KConfig (Some (VConf (length cf))), None)]) fr.
Proof. intros H. unfold with_config, extractConfig. cbn [confs]. rewrite H. rewrite nth_error_app2, Nat.sub_diag by lia. cbn [nth_error]. rewrite upd_last. reflexivity. Qed.
Ltac ev := cbn [fold_left step]; unfold push; cbn [env cells confs fired nth_error option_map]; rewrite <- ?app_assoc; cbn [app].
Lemma context_run tester s name t terminal deadline : (forall d late, deadline = Some (d, late) -> late = false) ->
  exists l, length (env s ++ l) = made (length (env s)) terminal /\
  fold_left step (Context_ tester (length (env s)) name t terminal deadline) s =
    State (cells s ++ [Cell (chain tester (length (confs s)) name t terminal) [] None]) (cfs (confs s) terminal)
      (env s ++ l ++ [(Cancel (chain tester (length (confs s)) name t terminal) (length (cells s)) (option_map fst deadline), Some (length (cells s)))]) (fired s) /\
  Forall (fun x => snd x = None /\ forall p i d, fst x <> Cancel p i d) l.
Proof.
  intros Hl. destruct s as [cs cf e fr]. cbn [env cells confs fired].
  set (c1 := Tag Root (B "test") (jstr false name)). set (c2 := Val c1 (KUser tester) (Some (VUser t))).
  assert (E1 : fold_left step [OTODO; OTag (length e) (B "test") (jstr false name); WithTester tester (length e + 1) t] (State cs cf e fr) = State cs cf (e ++ [(Root, None); (c1, None); (c2, None)]) fr).
  { unfold WithTester. ev. rewrite at_env0. ev. rewrite at_env. ev. reflexivity. }
  unfold Context_. rewrite !fold_left_app. cbv zeta. rewrite E1. clear E1. unfold made, chain, cfs. destruct terminal as [[h f]|].
  - set (c3 := Val c2 KConfig (Some (VConf (length cf)))). set (c4 := Val c3 KConfig (Some (VConf (length cf)))).
    exists [(Root, None); (c1, None); (c2, None); (c3, None); (c4, None)]. split; [rewrite app_length; reflexivity|]. split.
    + assert (E2 : fold_left step [OHelper (length e + 2) h; OLogFunc (length e + 3) f] (State cs cf (e ++ [(Root, None); (c1, None); (c2, None)]) fr) =
        State cs (cf ++ [Config (Some f) (Some h)]) (e ++ [(Root, None); (c1, None); (c2, None); (c3, None); (c4, None)]) fr).
      { ev. rewrite at_env. ev. rewrite config_new by reflexivity. rewrite <- app_assoc. cbn [app]. rewrite at_env. ev. rewrite config_old by reflexivity. rewrite <- app_assoc. reflexivity. }
      rewrite E2. clear E2. destruct deadline as [[d late]|]; cbn [fold_left step]; rewrite at_env; cbn [nth_error].
      * rewrite (Hl d late eq_refl). cbn [Deadline c4 c3 c2 c1]. unfold with_cancel, new_cancel. cbn [Done cells confs env fired c4 c3 c2 c1]. unfold push. cbn [cells confs env fired]. rewrite <- !app_assoc. reflexivity.
      * unfold with_cancel, new_cancel. cbn [Done cells confs env fired c4 c3 c2 c1]. unfold push. cbn [cells confs env fired]. rewrite <- !app_assoc. reflexivity.
    + repeat constructor; discriminate.
  - exists [(Root, None); (c1, None); (c2, None)]. split; [rewrite app_length; reflexivity|]. split; [|repeat constructor; discriminate].
    cbn [fold_left]. destruct deadline as [[d late]|]; cbn [fold_left step]; rewrite at_env; cbn [nth_error].
    * rewrite (Hl d late eq_refl). cbn [Deadline c2 c1]. unfold with_cancel, new_cancel. cbn [Done cells confs env fired c2 c1]. unfold push. cbn [cells confs env fired]. rewrite <- !app_assoc. reflexivity.
    * unfold with_cancel, new_cancel. cbn [Done cells confs env fired c2 c1]. unfold push. cbn [cells confs env fired]. rewrite <- !app_assoc. reflexivity.
Qed.

Lemma cancel_length f : forall cs i e, length (cancel f cs i e) = length cs.
Proof.
  induction f as [|f IH]; intros cs i e; [reflexivity|]. cbn [cancel]. destruct (nth_error cs i) as [c|]; [|reflexivity]. destruct (cerr c); [reflexivity|].
  assert (H : forall ks cs0, length (fold_left (fun cs k => cancel f cs k e) ks cs0) = length cs0).
  { induction ks as [|k ks IHk]; intros cs0; [reflexivity|]. cbn [fold_left]. now rewrite IHk, IH. }
  rewrite H. apply upd_length.
Qed.
Lemma new_length cs p : length (new_cancel cs p) = S (length cs).
Proof.
  unfold new_cancel. destruct (Done p) as [j|]; [|rewrite app_length; cbn; lia]. destruct (Err cs p); [destruct (Cause cs p)|]; try (rewrite app_length; cbn; lia); destruct (nth_error cs j); rewrite app_length, ?upd_length; cbn; lia.
Qed.
(* what one operation does: at most one new context, with a new cancelCtx if any; at most one more cancellation, of the context that is named or of a new one *)
Definition fresh_entry (n : nat) (x : context * option nat) : Prop := (snd x = None \/ snd x = Some n) /\ forall p j d, fst x = Cancel p j d -> j = n.
Lemma step_shape s o : exists l, env (step s o) = env s ++ l /\ Forall (fresh_entry (length (cells s))) l /\ length (cells s) <= length (cells (step s o)) /\
  (fired (step s o) = fired s \/ exists j e, fired (step s o) = fired s ++ [(j, e)] /\
    (j = length (cells s) \/ exists n c, (nth_error (env s) n = Some (c, Some j) /\ exists ca, o = OFire n ca) \/ (exists p d cf, nth_error (env s) n = Some (Cancel p j d, cf) /\ o = OTimer n))).
Proof.
  assert (Y : forall c cf, fresh_entry (length (cells s)) (c, cf) -> exists l, env s ++ [(c, cf)] = env s ++ l /\ Forall (fresh_entry (length (cells s))) l) by (intros c cf H; exists [(c, cf)]; auto).
  assert (Z0 : exists l, env s = env s ++ l /\ Forall (fresh_entry (length (cells s))) l) by (exists []; rewrite app_nil_r; auto).
  assert (N0 : forall c, (forall p j d, c <> Cancel p j d) -> fresh_entry (length (cells s)) (c, None)) by (intros c H; split; [auto|]; intros p j d E; exfalso; exact (H p j d E)).
  assert (P : forall P (s' : state) , (exists l, env s' = env s ++ l /\ Forall (fresh_entry (length (cells s))) l) -> length (cells s) <= length (cells s') /\ (fired s' = fired s \/ P) ->
     exists l, env s' = env s ++ l /\ Forall (fresh_entry (length (cells s))) l /\ length (cells s) <= length (cells s') /\ (fired s' = fired s \/ P)).
  { intros P s' (l & E1 & E2) (E3 & E4). exists l. auto. }
  assert (W : forall p dl, fresh_entry (length (cells s)) (Cancel p (length (cells s)) dl, Some (length (cells s)))) by (intros p dl; split; [auto|]; intros ? ? ? [= _ <- _]; reflexivity).
  destruct o as [| |p k v|p|p t late|p k j|p|p sg fr|p fr|p f|p h|x ca|x]; cbn [step]; unfold on; try (destruct (ctx_at s p) as [c|]; [|apply P; [exact Z0|auto]]).
  - apply P; [|cbn; auto]. apply Y, N0. discriminate.
  - apply P; [|cbn; rewrite app_length; cbn; split; [lia|auto]]. apply Y, W.
  - apply P; [|cbn; auto]. apply Y, N0. discriminate.
  - apply P; [|cbn; rewrite new_length; auto]. apply Y, W.
  - cbn [with_cancel]. set (s1 := push (State (new_cancel (cells s) c) (confs s) (env s) (fired s)) (Cancel c (length (cells s)) (match Deadline c with Some d0 => if (d0 <? t)%Z then None else Some t | None => Some t end)) (Some (length (cells s)))).
    assert (A1 : (exists l, env s1 = env s ++ l /\ Forall (fresh_entry (length (cells s))) l)) by (apply Y, W).
    assert (A2 : length (cells s) <= length (cells s1)) by (cbn; rewrite new_length; lia).
    assert (A3 : forall e, length (cells s) <= length (cells (fire s1 (length (cells s)) e))) by (intros e; unfold fire; cbn [cells]; rewrite cancel_length; exact A2).
    assert (A4 : exists j e, fired (fire s1 (length (cells s)) (DeadlineExceeded, Same DeadlineExceeded)) = fired s ++ [(j, e)] /\ (j = length (cells s) \/ exists n c0, (nth_error (env s) n = Some (c0, Some j) /\ exists ca, ODeadline p t late = OFire n ca) \/ (exists p0 d cf, nth_error (env s) n = Some (Cancel p0 j d, cf) /\ ODeadline p t late = OTimer n))).
    { eexists. eexists. split; [reflexivity|]. auto. }
    destruct (Deadline c) as [d|]; [destruct (d <? t)%Z|]; [|destruct late|destruct late]; apply P; try exact A1; split; auto; try apply A3; right; exact A4.
  - apply P; [|cbn; auto]. apply Y, N0. discriminate.
  - apply P; [|cbn; auto]. apply Y, N0. discriminate.
  - apply P; [|cbn; auto]. apply Y, N0. discriminate.
  - apply P; [|cbn; rewrite new_length; auto]. apply Y. split; [auto|]. discriminate.
  - unfold with_config. destruct (extractConfig _ _) as [cf q]. apply P; [|cbn; auto]. apply Y, N0. discriminate.
  - unfold with_config. destruct (extractConfig _ _) as [cf q]. apply P; [|cbn; auto]. apply Y, N0. discriminate.
  - destruct (nth_error (env s) x) as [[c [i|]]|] eqn:E; try (apply P; [exact Z0|split; [lia|left; reflexivity]]). apply P; [exact Z0|]. split; [unfold fire; cbn [cells]; rewrite cancel_length; lia|]. right. eexists. eexists. split; [reflexivity|]. right. exists x, c. left. split; [exact E|]. eauto.
  - destruct (nth_error (env s) x) as [[[] cf]|] eqn:E; try (apply P; [exact Z0|split; [lia|left; reflexivity]]). destruct dl; [|apply P; [exact Z0|auto]]. apply P; [exact Z0|]. split; [unfold fire; cbn [cells]; rewrite cancel_length; lia|]. right. eexists. eexists. split; [reflexivity|]. right. exists x, Root. right. eauto.
Qed.

Lemma run_app a b : run (a ++ b) = fold_left step b (run a).
Proof. unfold run. apply fold_left_app. Qed.
Lemma contexts_length ops : length (contexts ops) = length (env (run ops)).
Proof. apply map_length. Qed.
(* the context m is c, made with cancelCtx i, and nothing else can end i *)
Definition only (m : nat) (c : context) (i : nat) (s : state) : Prop :=
  nth_error (env s) m = Some (c, Some i) /\ i < length (cells s) /\
  forall n x, n <> m -> nth_error (env s) n = Some x -> snd x <> Some i /\ forall p d, fst x <> Cancel p i d.
Lemma only_step m c i s o : only m c i s -> only m c i (step s o) /\ (fired (step s o) = fired s \/ exists j e, fired (step s o) = fired s ++ [(j, e)] /\ (j = i -> ends_ m o)).
Proof.
  intros (O1 & O2 & O3). destruct (step_shape s o) as (l & E1 & E2 & E3 & E4). assert (Lm : m < length (env s)) by (apply nth_error_Some; congruence). split.
  - split; [|split].
    + rewrite E1. now rewrite nth_error_app1.
    + lia.
    + intros n x Hn Hx. rewrite E1 in Hx. destruct (Nat.lt_ge_cases n (length (env s))) as [H|H].
      * rewrite nth_error_app1 in Hx by exact H. exact (O3 n x Hn Hx).
      * rewrite nth_error_app2 in Hx by exact H. apply nth_error_In in Hx. rewrite Forall_forall in E2. destruct (E2 x Hx) as [F1 F2]. split; [destruct F1 as [->| ->]; [discriminate|intros Ei; injection Ei as Ei; lia]|]. intros p d E. specialize (F2 _ _ _ E). lia.
  - destruct E4 as [E4|(j & e & E4 & E5)]; [auto|]. right. exists j, e. split; [exact E4|]. intros ->. destruct E5 as [E5|(n & c0 & [(Hn & ca & ->)|(p & d & cf & Hn & ->)])]; [lia| |].
    + destruct (Nat.eq_dec n m) as [->|Hne]; [right; eauto|]. destruct (O3 n _ Hne Hn) as [F _]. now contradiction F.
    + destruct (Nat.eq_dec n m) as [->|Hne]; [left; reflexivity|]. destruct (O3 n _ Hne Hn) as [_ F]. exfalso. exact (F p d eq_refl).
Qed.
Lemma only_run m c i more : forall s, only m c i s -> only m c i (fold_left step more s) /\
  forall e, In (i, e) (fired (fold_left step more s)) -> In (i, e) (fired s) \/ exists o, In o more /\ ends_ m o.
Proof.
  induction more as [|o more IH]; intros s O; [auto|]. cbn [fold_left]. destruct (only_step m c i s o O) as [O1 F]. destruct (IH _ O1) as [O2 F2]. split; [exact O2|]. intros e He. destruct (F2 e He) as [H|(o' & H1 & H2)]; [|right; exists o'; split; [now right|exact H2]].
  destruct F as [F|(j & e' & F & G)]; rewrite F in H; [auto|]. apply in_app_or in H as [H|[[= -> ->]|[]]]; [auto|]. right. exists o. split; [now left|auto].
Qed.
Lemma attached_scope p i d c : attached (Cancel p i d) c -> In i (scope c).
Proof. intros A. induction A; cbn; auto. Qed.

Section Made.
  Context (tester : N) (is_T : N -> bool) (ops : list op) (name : bytes) (t : N) (terminal : option (N * N)) (deadline : option (Z * bool)).
  Context (HT : is_T t = true) (Hd : forall d late, deadline = Some (d, late) -> late = false).
  Let n := length (contexts ops).
  Let full := ops ++ Context_ tester n name t terminal deadline.
  Let c := Cancel (chain tester (length (confs (run ops))) name t terminal) (length (cells (run ops))) (option_map fst deadline).
  Lemma full_run : exists l, length (env (run ops) ++ l) = made n terminal /\
    run full = State (cells (run ops) ++ [Cell (chain tester (length (confs (run ops))) name t terminal) [] None]) (cfs (confs (run ops)) terminal) (env (run ops) ++ l ++ [(c, Some (length (cells (run ops))))]) (fired (run ops)) /\
    Forall (fun x => snd x = None /\ forall p i d, fst x <> Cancel p i d) l.
  Proof. unfold full, n. rewrite run_app, contexts_length. exact (context_run tester (run ops) name t terminal deadline Hd). Qed.
  Lemma full_only : only (made n terminal) c (length (cells (run ops))) (run full).
  Proof.
    destruct full_run as (l & E1 & E2 & E3). rewrite E2. split; [|split]; cbn [env cells].
    - rewrite app_assoc, nth_error_app2, E1, Nat.sub_diag by lia. reflexivity.
    - rewrite app_length. cbn. lia.
    - intros k x Hk Hx. rewrite app_assoc in Hx. destruct (Nat.lt_ge_cases k (length (env (run ops) ++ l))) as [H|H].
      + rewrite nth_error_app1 in Hx by exact H. apply nth_error_In in Hx. apply in_app_or in Hx as [Hx|Hx].
        * destruct x as [cx cf]. destruct (s_env _ (sinv_run ops) cx cf Hx) as (W1 & _ & W3). cbn [fst snd]. split; [intros ->; specialize (W3 _ eq_refl); lia|]. intros p d ->. cbn [wf] in W1. destruct W1 as [W1 _]. assert (length (cells (run ops)) < length (cells (run ops))) by (apply par_lt; congruence). lia.
        * rewrite Forall_forall in E3. destruct (E3 x Hx) as [F1 F2]. rewrite F1. split; [discriminate|]. intros p d. apply F2.
      + rewrite nth_error_app2 in Hx by exact H. rewrite E1 in Hx. destruct (k - made n terminal) as [|k'] eqn:K; [lia|]. cbn in Hx. destruct k'; discriminate.
  Qed.
  Lemma made_context : nth_error (contexts full) (made n terminal) = Some c /\ newest full = Some c /\ derived tester (Val (Tag Root (B "test") (jstr false name)) (KUser tester) (Some (VUser t))) c /\
    Deadline c = option_map fst deadline /\ closest_tag c (B "test") = Some (jstr false name) /\ (forall h f, terminal = Some (h, f) -> logs_with full c = (Some f, Some h)) /\ Err (cells (run full)) c = None.
  Proof.
    destruct full_run as (l & E1 & E2 & E3). destruct full_only as (O1 & _ & _). split; [|split; [|split; [|split; [|split; [|split]]]]].
    - unfold contexts. now rewrite nth_error_map, O1.
    - unfold newest, ctx_at. rewrite contexts_length. assert (L : length (env (run full)) - 1 = made n terminal) by (rewrite E2; cbn [env]; rewrite app_assoc, app_length, E1; cbn; lia). rewrite L, O1. reflexivity.
    - unfold c, chain. destruct terminal; repeat constructor; discriminate.
    - unfold c, chain. cbn [Deadline]. destruct deadline as [[d late]|]; [reflexivity|]. destruct terminal; reflexivity.
    - unfold c, chain. destruct terminal; reflexivity.
    - intros h f ->. unfold logs_with, log_func, log_helper. rewrite E2. cbn [confs cfs]. unfold c, chain. cbn [Value key_eqb]. rewrite nth_error_app2, Nat.sub_diag by lia. reflexivity.
    - unfold Err. unfold c at 1. cbn [Done]. rewrite E2. cbn [cells]. unfold err_of. rewrite nth_error_app2, Nat.sub_diag by lia. reflexivity.
  Qed.
End Made.

(* The context that test.Context makes, whatever was made before: the test is found in it, its deadline is that of the test, it has the name of the test as a tag,
   on a terminal it logs with the functions of the test; it is not cancelled. *)
Theorem C152_context : forall (tester : N) (is_T : N -> bool) (ops : list op) (name : bytes) (t : N) (terminal : option (N * N)) (deadline : option (Z * bool)),
  is_T t = true -> (forall d late, deadline = Some (d, late) -> late = false) ->
  let full := ops ++ Context_ tester (length (contexts ops)) name t terminal deadline in
  exists c, nth_error (contexts full) (made (length (contexts ops)) terminal) = Some c /\ newest full = Some c /\ ExtractTester tester is_T (Some c) = Some t /\
    Deadline c = option_map fst deadline /\ closest_tag c (B "test") = Some (jstr false name) /\ (forall h f, terminal = Some (h, f) -> logs_with full c = (Some f, Some h)) /\
    Err (cells (run full)) c = None.
Proof.
  intros tester is_T ops name t terminal deadline HT Hd full. destruct (made_context tester ops name t terminal deadline Hd) as (M1 & M2 & M3 & M4). eexists. split; [exact M1|]. split; [exact M2|]. split; [exact (proj1 (C152_partial tester is_T _ _ t HT M3))|exact M4].
Qed.
(* It is cancelled by nothing but the end of the test and its deadline, whatever else happens; at the end of the test it is, with all that is made from it
   and not detached. *)
Theorem C152_ends : forall (tester : N) (ops : list op) (name : bytes) (t : N) (terminal : option (N * N)) (deadline : option (Z * bool)) (more : list op) (c : context),
  (forall d late, deadline = Some (d, late) -> late = false) ->
  let n := length (contexts ops) in let full := ops ++ Context_ tester n name t terminal deadline in newest full = Some c ->
  (Err (cells (run (full ++ more))) c <> None -> exists o, In o more /\ ends_ (made n terminal) o) /\
  (forall x, In x (contexts (full ++ more)) -> attached c x -> Err (cells (run ((full ++ more) ++ [cleanup n terminal]))) x <> None).
Proof.
  intros tester ops name t terminal deadline more c Hd n full Hc. destruct (made_context tester ops name t terminal deadline Hd) as (M1 & M2 & _).
  fold n full in M1, M2. rewrite Hc in M2. injection M2 as Ec. pose proof (full_only tester ops name t terminal deadline Hd) as O. fold n full in O.
  destruct (only_run _ _ _ more _ O) as [O1 F]. rewrite <- run_app in O1, F. split.
  - intros He. assert (Hin : In c (contexts (full ++ more))) by (apply in_map_iff; eexists; split; [|eapply nth_error_In; exact (proj1 O1)]; symmetry; exact Ec).
    rewrite (err_spec _ _ Hin) in He. destruct (first_of (scope c) (fired (run (full ++ more)))) as [e|] eqn:E; [|now contradiction He]. unfold first_of in E. destruct (find _ _) as [[j e']|] eqn:G; [|discriminate]. apply find_some in G as [G1 G2]. cbn [fst] in G2. apply existsb_in in G2.
    assert (Sc : scope c = [length (cells (run ops))]) by (rewrite Ec; unfold chain; destruct terminal; reflexivity). rewrite Sc in G2. destruct G2 as [<-|[]]. destruct (F _ G1) as [H|H]; [|exact H]. exfalso.
    destruct (full_run tester ops name t terminal deadline Hd) as (l & _ & E2 & _). fold n full in E2. rewrite E2 in H. cbn [fired] in H. pose proof (inv_fired _ _ (s_inv _ (sinv_run ops)) _ _ H). lia.
  - intros x Hx A. unfold cleanup. rewrite (fire_err _ _ None _ _ x (proj1 O1) Hx). destruct (Err (cells (run (full ++ more))) x); [discriminate|]. rewrite Ec in A. rewrite (proj2 (existsb_in _ _) (attached_scope _ _ _ _ A)). discriminate.
Qed.

(* A test with a deadline on a terminal, after another context was made; a context with a tag is made from it, the other is cancelled, then the test is over. *)
Example C152_ex :
  let ops := [OBackground] in let full := ops ++ Context_ 9 1 (B "TestA") 7 (Some (1, 2)%N) (Some (100%Z, false)) in
  map (fun c => ExtractTester 9 (N.eqb 7) (Some c)) (contexts (full ++ [OTag 6 (B "x") (B "1")])) = [None; None; None; Some 7%N; Some 7%N; Some 7%N; Some 7%N; Some 7%N] /\
  map (Err (cells (run (full ++ [OTag 6 (B "x") (B "1"); OFire 0 None])))) (skipn 6 (contexts (full ++ [OTag 6 (B "x") (B "1")]))) = [None; None] /\
  map (Err (cells (run (full ++ [OTag 6 (B "x") (B "1"); cleanup 1 (Some (1, 2)%N)])))) (skipn 6 (contexts (full ++ [OTag 6 (B "x") (B "1")]))) = [Some Canceled; Some Canceled] /\
  derived 9 (Val Root (KUser 9) (Some (VUser 7))) (Detach (Val Root (KUser 9) (Some (VUser 7)))) /\ assert_json 9 (N.eqb 7) (Some (Val Root (KUser 9) (Some (VUser 8)))) true = Panic.
Proof. cbv zeta. repeat split; try (vm_compute; reflexivity). repeat constructor. Qed.

Print Assumptions C152_partial.
Print Assumptions C152_refuted.
Print Assumptions C152_context.
Print Assumptions C152_ends.
Print Assumptions C152_ex.
