(* The model of contexts follows the reference of CtxSpec. *)
From Coq Require Import Bool Ascii String Arith NArith ZArith Lia List.
From Verif Require Import Prelude PreludeFacts DurModel DurProofs JsonModel CtxModel CtxSpec CtxProofs.
Import ListNotations.
Local Open Scope nat_scope.

Record matches (e : context * option nat) (v : view) : Prop := {
  m_user : forall u, Value (fst e) (KUser u) = v_user v u;
  m_str : forall t, Value (fst e) (KStr t) = v_str v t;
  m_tags : tags (fst e) = v_tags v;
  m_track : closest_track (fst e) = v_track v;
  m_dead : Deadline (fst e) = v_deadline v;
  m_above : scope (fst e) = v_above v;
  m_own : snd e = v_own v;
  m_timer : v_timer v = match fst e with Cancel _ i (Some _) => Some i | _ => None end }.

Lemma track_cons c : closest_track c = match c with
  | Root => None
  | Val p _ _ | Cancel p _ _ | Tag p _ _ | Detach p => closest_track p
  | Track _ t _ => Some t
  end.
Proof. destruct c; reflexivity. Qed.

Lemma beqb_sym a b : beqb a b = beqb b a.
Proof. destruct (beqb a b) eqn:E; destruct (beqb b a) eqn:E2; auto; [apply beqb_eq in E; subst; rewrite beqb_refl in E2|apply beqb_eq in E2; subst; rewrite beqb_refl in E]; discriminate. Qed.

Lemma new_length cs p : length (new_cancel cs p) = S (length cs).
Proof.
  unfold new_cancel. destruct (Done p) as [j|]; [destruct (Err cs p); [destruct (Cause cs p)|]; try destruct (nth_error cs j)|];
    rewrite app_length, ?upd_length; cbn; lia.
Qed.
Lemma cancel_length f : forall cs i e, length (cancel f cs i e) = length cs.
Proof.
  induction f as [|f IH]; intros cs i e; cbn [cancel]; auto.
  destruct (nth_error cs i) as [c|]; auto. destruct (cerr c); auto.
  rewrite <- (upd_length cs i (Cell (cpar c) (kids c) (Some e))). generalize (upd cs i (Cell (cpar c) (kids c) (Some e))).
  induction (kids c) as [|k ks IHk]; intros l; cbn; auto. rewrite IHk. apply IH.
Qed.

Ltac mm := constructor; cbn [fst snd v_user v_str v_tags v_track v_deadline v_above v_own v_timer Value Deadline scope key_eqb derive stoppable tagged tracked]; try (rewrite track_cons; cbv iota beta); try (rewrite tags_cons; cbv iota beta); try (rewrite (tags_cons (Tag _ _ _)); cbv iota beta); try (rewrite (tags_cons (Cancel _ _ _)); cbv iota beta).

Ltac fin := split; [cbn -[new_cancel]; rewrite ?new_length; reflexivity|split; [reflexivity|match goal with A : forall e v, matches e v -> _ |- _ => apply A end]].

Lemma sim : forall ops, count (meaning ops) = length (cells (run ops)) /\ ends (meaning ops) = fired (run ops) /\
  Forall2 matches (env (run ops)) (views (meaning ops)).
Proof.
  induction ops as [|o ops (H1 & H2 & H3)] using rev_ind; [repeat split; constructor|].
  unfold meaning. rewrite fold_left_app. fold (meaning ops). cbn [fold_left]. rewrite run_snoc.
  pose proof (in_contexts ops) as HW. pose proof (last0_env ops) as HL. unfold contexts in HW, HL.
  destruct (meaning ops) as [vs cn en]. destruct (run ops) as [cs cfs ev fi]. cbn [count ends views cells fired env] in *. subst cn en.
  assert (Hlen : forall p, length (new_cancel cs p) = S (length cs)).
  { intros p. apply new_length. }
  assert (G : forall n, match nth_error ev n, nth_error vs n with
                        | Some e, Some v => matches e v /\ In (fst e) (map fst ev)
                        | None, None => True | _, _ => False end).
  { clear - H3. induction H3 as [|e v ev vs He H3 IH]; intros [|n]; cbn; auto. specialize (IH n).
    destruct (nth_error ev n), (nth_error vs n); auto. tauto. }
  assert (A : forall e v, matches e v -> Forall2 matches (ev ++ [e]) (vs ++ [v])).
  { intros e v He. apply Forall2_app; auto. }
  destruct o as [| |n k x|n|n t late|n k j|n|n sug fresh|n fresh|n f|n h|n ca|n]; cbn [step meant];
    try (unfold on, ctx_at; cbn [env]; specialize (G n); destruct (nth_error ev n) as [[p cf]|] eqn:En; destruct (nth_error vs n) as [v|] eqn:Ev; try contradiction;
         cbn [option_map fst];
         [cbn [views count ends]; rewrite ?Ev; destruct G as [[Mu Ms Mt Mk Md Ma Mo Mi] Hin]; cbn [fst snd] in *|try destruct k; cbn [views]; rewrite ?Ev; repeat split; auto]).
  - fin. mm; auto.
  - fin. mm; auto.
  - destruct k as [u|s0].
    + fin. mm; auto. intros u'. rewrite Mu. reflexivity.
    + fin. mm; auto. intros u'. rewrite Ms. reflexivity.
  - fin. mm; auto. now rewrite Ma.
  - cbn [with_cancel]. rewrite <- Md.
    set (dl := match Deadline p with Some d => if (d <? t)%Z then None else Some t | None => Some t end).
    set (mine := match Deadline p with Some d => negb (d <? t)%Z | None => true end).
    assert (Hdl : dl = if mine then Some t else None).
    { unfold dl, mine. destruct (Deadline p) as [d|]; auto. destruct (d <? t)%Z; auto. }
    assert (HM : matches (Cancel p (length cs) dl, Some (length cs)) (View (v_user v) (v_str v) (v_tags v) (v_track v) (Some (earliest (Deadline p) t)) (length cs :: v_above v)
                          (Some (length cs)) (if mine then Some (length cs) else None))).
    { mm; auto.
      - unfold dl, earliest. destruct (Deadline p) as [d|] eqn:E; auto. destruct (Z.ltb_spec d t); auto; f_equal; lia.
      - now rewrite Ma.
      - rewrite Hdl. destruct mine; auto. }
    assert (HF : forall x, length (cells (fire x (length cs) timeout)) = length (cells x)).
    { intros x. cbn. apply cancel_length. }
    assert (E : match Deadline p with
      | Some d => if (d <? t)%Z then push (State (new_cancel cs p) cfs ev fi) (Cancel p (length cs) dl) (Some (length cs))
                  else if late then fire (push (State (new_cancel cs p) cfs ev fi) (Cancel p (length cs) dl) (Some (length cs))) (length cs) timeout
                  else push (State (new_cancel cs p) cfs ev fi) (Cancel p (length cs) dl) (Some (length cs))
      | None => if late then fire (push (State (new_cancel cs p) cfs ev fi) (Cancel p (length cs) dl) (Some (length cs))) (length cs) timeout
                  else push (State (new_cancel cs p) cfs ev fi) (Cancel p (length cs) dl) (Some (length cs))
      end = if mine && late then fire (push (State (new_cancel cs p) cfs ev fi) (Cancel p (length cs) dl) (Some (length cs))) (length cs) timeout
                  else push (State (new_cancel cs p) cfs ev fi) (Cancel p (length cs) dl) (Some (length cs))).
    { unfold mine. destruct (Deadline p) as [d|]; auto. destruct (d <? t)%Z; auto. }
    unfold timeout in E. cbn [cells confs env fired count] in *. rewrite E. fold timeout.
    destruct (mine && late).
    + cbn [add1 ended count ends views]. rewrite HF. repeat split; auto. cbn. symmetry. apply Hlen. apply A. exact HM.
    + cbn [add1 ended count ends views]. repeat split; auto. cbn. symmetry. apply Hlen. apply A. exact HM.
  - fin. mm; auto.
    + intros t'. rewrite Ms. reflexivity.
    + now rewrite Mt.
  - fin. mm; auto.
  - fin. unfold with_tracking. mm; auto.
    + intros t'. rewrite Ms. reflexivity.
    + now rewrite Mt.
  - cbn [with_cancel]. fin. unfold with_tracking.
    destruct (HW p Hin) as [Hw _]. rewrite <- Mk.
    assert (Es : match match Value (Cancel p (length cs) None) KTrackNext with Some (VStr t) => t | _ => [] end with [] => fresh | x => x end =
                 match closest_track p with Some t => t ++ B ".1" | None => fresh end).
    { cbn [Value]. rewrite (next_track _ p Hw (HL p Hin)). destruct (closest_track p) as [t|]; auto.
      destruct (t ++ B ".1") eqn:E2; auto. apply app_eq_nil in E2 as [_ E2]. discriminate. }
    cbn [cells confs env fired] in *. 
    set (w := match Value (Cancel p (length cs) None) KTrackNext with Some (VStr t) => t | _ => [] end) in *.
    assert (Es' : match w with [] => fresh | _ :: _ => w end = match closest_track p with Some t => t ++ B ".1" | None => fresh end).
    { rewrite <- Es. destruct w; reflexivity. }
    clearbody w. rewrite Es'.
    set (id := match closest_track p with Some t => _ | None => _ end).
    mm; auto.
    + intros t'. rewrite Ms. reflexivity.
    + now rewrite Mt.
    + now rewrite Ma.
  - unfold with_config. cbn [confs]. destruct (extractConfig cfs p) as [cfs0 q]. fin. mm; auto.
  - unfold with_config. cbn [confs]. destruct (extractConfig cfs p) as [cfs0 q]. fin. mm; auto.
  - rewrite <- Mo. destruct cf as [i|]; repeat split; auto. cbn. symmetry. apply cancel_length.
  - rewrite Mi. destruct p as [| |p i [dl|]| | |]; repeat split; auto. cbn. symmetry. apply cancel_length.
Qed.

Lemma reference ops n c : nth_error (contexts ops) n = Some c ->
  exists v, nth_error (views (meaning ops)) n = Some v /\ shows (run ops) (meaning ops) c v.
Proof.
  intros Hn. pose proof (nth_error_In _ _ Hn) as Hin. destruct (sim ops) as (_ & He & HF).
  unfold contexts in Hn. rewrite nth_error_map in Hn.
  destruct (nth_error (env (run ops)) n) as [[c' cf]|] eqn:En; [|discriminate]. injection Hn as ->.
  assert (G : exists v, nth_error (views (meaning ops)) n = Some v /\ matches (c, cf) v).
  { clear - HF En. revert n En. induction HF as [|e v l l' Hm HF IH]; intros [|n] En; try discriminate; cbn in *; [injection En as ->; eauto|eauto]. }
  destruct G as (v & Hv & [Mu Ms Mt Mk Md Ma Mo Mi]). cbn [fst snd] in *. exists v. split; auto.
  unfold shows. rewrite He, <- Ma, <- Mt, <- Mk. repeat split; auto.
  - intros St E fn x. apply range_each.
  - now apply (tracking_spec ops).
  - now apply err_spec.
  - now apply cause_spec.
  - clear. induction c; cbn; auto; discriminate.
  - clear. induction c; cbn; auto; discriminate.
Qed.
Lemma reference_length ops : length (contexts ops) = length (views (meaning ops)).
Proof. destruct (sim ops) as (_ & _ & HF). unfold contexts. rewrite map_length. induction HF; cbn; auto. Qed.

(* ---- what a new logger or helper leaves alone ---- *)
Lemma config_new ops n p o g : (exists f, o = OLogFunc n f /\ g = fun cf => Config (Some f) (helper cf)) \/
                               (exists h, o = OHelper n h /\ g = fun cf => Config (logFunc cf) (Some h)) ->
  nth_error (contexts ops) n = Some p ->
  exists c, newest (ops ++ [o]) = Some c /\
    logs_with (ops ++ [o]) c = (let cf := g (Config (fst (logs_with ops p)) (snd (logs_with ops p))) in (logFunc cf, helper cf)).
Proof.
  intros Ho Hn. pose proof Hn as Hn'. apply ctx_at_contexts in Hn'. apply nth_error_In in Hn. destruct (in_contexts _ _ Hn) as [Hw Hc].
  destruct (extractConfig (confs (run ops)) p) as [cfs q] eqn:Ex.
  assert (Hs : run (ops ++ [o]) = with_config (run ops) p g).
  { rewrite run_snoc. destruct Ho as [(f & -> & ->)|(h & -> & ->)]; cbn [step]; unfold on; rewrite Hn'; reflexivity. }
  exists (Val p KConfig (Some (VConf q))). split.
  - eapply newest_push. rewrite Hs. unfold with_config. rewrite Ex. reflexivity.
  - unfold logs_with, log_func, log_helper. rewrite Hs. unfold with_config. rewrite Ex. cbn.
    unfold extractConfig in Ex. pose proof (wfc_value _ _ Hc) as Hv.
    destruct (Value p KConfig) as [[| | |q'|]|]; try contradiction; injection Ex as <- <-.
    + destruct (nth_error (confs (run ops)) q') as [[a b]|] eqn:En; [|apply nth_error_None in En; lia].
      rewrite nth_upd, Nat.eqb_refl. apply Nat.ltb_lt in Hv. now rewrite Hv.
    + rewrite nth_error_app2, Nat.sub_diag by lia. cbn. rewrite nth_upd, Nat.eqb_refl, app_length. cbn [length].
      replace (length (confs (run ops)) <? length (confs (run ops)) + 1) with true by (symmetry; apply Nat.ltb_lt; lia). reflexivity.
Qed.
