(* The invariant of the goroutines that write to a websocket, for C100. *)
From Coq Require Import Bool Ascii String Arith NArith Lia List.
From Verif Require Import Prelude Utf8Model Utf8Facts ReqModel FrModel FrSpec FrProofs.
Import ListNotations.

Definition in_w (p : pc) : bool := match p with WLocked _ | WHeaded _ | WBodied _ => true | _ => false end.
Definition in_c (p : pc) : bool := match p with CLocked _ | CHeaded _ | CBodied _ => true | _ => false end.
Definition part (p : pc) : bytes :=
  match p with
  | WHeaded m => header opText (N.of_nat (length m)) | WBodied m => header opText (N.of_nat (length m)) ++ m
  | CHeaded _ => header opClose 2 | CBodied st => header opClose 2 ++ closeMsg st | _ => []
  end.
Definition ok_pc (p : pc) : Prop := match p with WWait m | WLocked m | WHeaded m | WBodied m => (N.of_nat (length m) < 2 ^ 63)%N | _ => True end.
Definition active (s : fst_) : pc := match hold_m s with Some g => pcs s g | None => match hold_wio s with Some g => pcs s g | None => Idle end end.
(* the locks, and the sizes *)
Definition locks (s : fst_) : Prop :=
  (forall g, in_w (pcs s g) = true <-> hold_m s = Some g) /\ (forall g, in_c (pcs s g) = true <-> hold_wio s = Some g) /\ forall g, ok_pc (pcs s g).

Lemma fset_eq {A} (f : nat -> A) i x : fset f i x i = x.
Proof. unfold fset. now rewrite Nat.eqb_refl. Qed.
Lemma fset_ne {A} (f : nat -> A) i x j : j <> i -> fset f i x j = f j.
Proof. intros H. unfold fset. now rewrite (proj2 (Nat.eqb_neq _ _) H). Qed.

Section Run.
  Context (size : nat).
  Notation fstep := (fstep size). Notation fexec := (fexec size).

  (* one goroutine changes its place *)
  Lemma locks_set s g p hm hw o l : locks s -> ok_pc p ->
    (hm = hold_m s /\ in_w p = in_w (pcs s g) \/ hm = Some g /\ in_w p = true /\ hold_m s = None \/ hm = None /\ in_w p = false /\ in_w (pcs s g) = true) ->
    (hw = hold_wio s /\ in_c p = in_c (pcs s g) \/ hw = Some g /\ in_c p = true /\ hold_wio s = None \/ hw = None /\ in_c p = false /\ in_c (pcs s g) = true) ->
    locks (FSt hm hw (fset (pcs s) g p) o l).
  Proof.
    intros (H1 & H2 & H3) Hp Hm Hw. split; [|split]; cbn [hold_m hold_wio pcs].
    - intros h. destruct (Nat.eq_dec h g) as [->|Hne]; [rewrite fset_eq|rewrite fset_ne by assumption].
      + destruct Hm as [(-> & ->)|[(-> & -> & _)|(-> & -> & _)]]; [apply H1|tauto|split; discriminate].
      + destruct Hm as [(-> & E)|[(-> & _ & E)|(-> & _ & E)]]; [apply H1| |].
        * rewrite (H1 h), E. split; [discriminate|]. intros [=]. congruence.
        * apply H1 in E. rewrite (H1 h), E. split; [|discriminate]. intros [=]. congruence.
    - intros h. destruct (Nat.eq_dec h g) as [->|Hne]; [rewrite fset_eq|rewrite fset_ne by assumption].
      + destruct Hw as [(-> & ->)|[(-> & -> & _)|(-> & -> & _)]]; [apply H2|tauto|split; discriminate].
      + destruct Hw as [(-> & E)|[(-> & _ & E)|(-> & _ & E)]]; [apply H2| |].
        * rewrite (H2 h), E. split; [discriminate|]. intros [=]. congruence.
        * apply H2 in E. rewrite (H2 h), E. split; [|discriminate]. intros [=]. congruence.
    - intros h. destruct (Nat.eq_dec h g) as [->|Hne]; [rewrite fset_eq|rewrite fset_ne by assumption]; auto.
  Qed.
  Lemma locks_out s o l : locks s -> locks (FSt (hold_m s) (hold_wio s) (pcs s) o l).
  Proof. intros H. exact H. Qed.
  Ltac lset Ep := apply locks_set; [assumption|try assumption; try exact I|rewrite ?Ep; cbn [in_w in_c]; auto 6|rewrite ?Ep; cbn [in_w in_c]; auto 6].
  Lemma locks_step s l : locks s -> (forall g m, l = FWrite g m -> (N.of_nat (length m) < 2 ^ 63)%N) -> locks (fstep s l).
  Proof.
    intros Hl Hs. destruct l as [g m|g st|g|k]; cbn [FrModel.fstep].
    - destruct (pcs s g) eqn:Ep; auto. lset Ep. exact (Hs g m eq_refl).
    - destruct (pcs s g) eqn:Ep; auto. lset Ep.
    - pose proof (proj2 (proj2 Hl) g) as Hok. destruct (pcs s g) as [|m|m|m|m|st|st|st|st|] eqn:Ep; auto; cbn [ok_pc] in Hok.
      + destruct (hold_m s) eqn:Em; auto. lset Ep.
      + lset Ep.
      + lset Ep.
      + lset Ep.
      + destruct (hold_wio s) eqn:Em; auto. lset Ep.
      + lset Ep.
      + lset Ep.
      + destruct (failed (bw_flush (out s))); lset Ep.
      + lset Ep.
    - destruct (room (net_of (out s))); auto.
  Qed.
  Lemma locks_init : locks finit.
  Proof. split; [|split]; cbn; intros; auto; split; discriminate. Qed.
  Lemma fexec_snoc ls l : fexec finit (ls ++ [l]) = fstep (fexec finit ls) l.
  Proof. unfold FrModel.fexec. rewrite fold_left_app. reflexivity. Qed.
  Lemma sized_snoc ls l : sized (ls ++ [l]) -> sized ls /\ forall g m, l = FWrite g m -> (N.of_nat (length m) < 2 ^ 63)%N.
  Proof.
    intros H. split.
    - intros g m Hi. apply (H g m). apply in_or_app. auto.
    - intros g m ->. apply (H g m). apply in_or_app. right. now left.
  Qed.
  Lemma locks_run ls : sized ls -> locks (fexec finit ls).
  Proof.
    induction ls as [|l ls IH] using rev_ind; intros H; [apply locks_init|]. rewrite fexec_snoc. apply sized_snoc in H as [H1 H2]. apply locks_step; auto.
  Qed.

  (* ---- what was sent ---- *)
  Lemma tells_app l l' fs fs' : tells l fs -> tells l' fs' -> tells (l ++ l') (fs ++ fs').
  Proof. induction 1; intros H'; cbn [app]; auto; [apply tells_skip|apply tells_sent]; auto. Qed.
  Lemma tells_one e f : sent_by e f -> tells [e] [f].
  Proof. intros H. apply tells_sent; auto. constructor. Qed.
  Lemma tells_none e : (forall f, ~ sent_by e f) -> tells [e] [].
  Proof. intros H. constructor; auto. constructor. Qed.
  Lemma tells_rev_skip e l fs : (forall f, ~ sent_by e f) -> tells (rev l) fs -> tells (rev (e :: l)) fs.
  Proof. intros H H'. cbn [rev]. rewrite <- (app_nil_r fs). apply tells_app; auto using tells_none. Qed.
  Lemma tells_rev_sent e f l fs : sent_by e f -> tells (rev l) fs -> tells (rev (e :: l)) (fs ++ [f]).
  Proof. intros H H'. cbn [rev]. apply tells_app; auto using tells_one. Qed.

  Definition sent (s : fst_) : Prop := exists fs a, tells (rev (flog s)) fs /\ stream false fs a /\
    if failed (out s) then exists f b rest x, is_frame false f b /\ wire (net_of (out s)) = a ++ rest /\ rest ++ x = b /\ x <> []
    else exists w, wire (net_of (out s)) = a ++ w /\ w ++ pend (out s) = part (active s).

  Lemma close_len st : length (closeMsg st) = 2.
  Proof. apply lengthBytes_len. Qed.
  Lemma close_frame st : is_frame false (RFrame true opClose (closeMsg st)) (header opClose 2 ++ closeMsg st).
  Proof.
    replace 2%N with (N.of_nat (length (closeMsg st))) by (rewrite close_len; reflexivity). apply header_frame; [reflexivity|]. rewrite close_len. reflexivity.
  Qed.
  Lemma close_closing st : closing st (RFrame true opClose (closeMsg st)).
  Proof.
    split; [reflexivity|]. split; [reflexivity|]. split; [apply close_len|]. cbn [r_payload]. unfold closeMsg. rewrite be_lengthBytes; auto.
    change (256 ^ N.of_nat 2)%N with 65536%N. apply N.mod_lt. discriminate.
  Qed.
  (* a part of a frame that is followed by the rest of it *)
  Lemma part_whole p : ok_pc p -> part p <> [] -> exists f z, is_frame false f (part p ++ z) /\
    (forall g s, pcs s g = p -> sending s g f).
  Proof.
    destruct p as [|m|m|m|m|st|st|st|st|]; cbn [part ok_pc]; intros Hok Hne; try congruence.
    - exists (text m), m. split; [now apply header_frame|]. intros g s E. left. exists m. auto.
    - exists (text m), []. rewrite app_nil_r. split; [now apply header_frame|]. intros g s E. left. exists m. auto.
    - exists (RFrame true opClose (closeMsg st)), (closeMsg st). split; [apply close_frame|]. intros g s E. right. exists st. split; auto. apply close_closing.
    - exists (RFrame true opClose (closeMsg st)), []. rewrite app_nil_r. split; [apply close_frame|]. intros g s E. right. exists st. split; auto. apply close_closing.
  Qed.
  (* the next call of bufio *)
  Lemma sent_write s s' d g p' : sent s -> locks s -> active s = pcs s g -> active s' = p' -> ok_pc p' -> out s' = bw_write size (out s) d -> flog s' = flog s ->
    part p' = part (pcs s g) ++ d -> part p' <> [] -> sent s'.
  Proof.
    intros (fs & a & Ht & Hs & H) Hl Ha Ha' Hok Ho Hlog Hp Hne. exists fs, a. rewrite Hlog, Ho. split; auto. split; auto.
    destruct (failed (out s)) eqn:F; [rewrite (write_failed _ _ _ F), F; auto|]. destruct H as (w & H1 & H2).
    destruct (write_moved size (out s) d F) as (y & x & M1 & M2 & M3).
    assert (E : (w ++ y) ++ x = part p') by (rewrite <- app_assoc, M2, app_assoc, H2, Ha; auto).
    destruct (failed (bw_write size (out s) d)).
    - destruct (part_whole p' Hok Hne) as (f & z & Hf & _). exists f, (part p' ++ z), (w ++ y), (x ++ z). split; auto. rewrite M1, H1, app_assoc. split; auto.
      split; [rewrite app_assoc, E; auto|]. intros E0. apply app_eq_nil in E0 as [E0 _]. auto.
    - exists (w ++ y). rewrite M1, H1, app_assoc. split; auto. rewrite M3, Ha'. auto.
  Qed.
  (* the last call of bufio; the frame is complete *)
  Lemma sent_flush s s' g f e : sent s -> locks s -> active s = pcs s g -> active s' = Idle -> out s' = bw_flush (out s) ->
    is_frame false f (part (pcs s g)) -> flog s' = e :: flog s -> (if failed (out s') then forall f', ~ sent_by e f' else sent_by e f) -> sent s'.
  Proof.
    intros (fs & a & Ht & Hs & H) Hl Ha Ha' Ho Hf Hlog He. destruct (failed (out s)) eqn:F.
    - rewrite Ho, (flush_failed _ F), F in He. exists fs, a. rewrite Hlog, Ho, (flush_failed _ F), F. split; [now apply tells_rev_skip|]. auto.
    - destruct H as (w & H1 & H2). destruct (flush_moved (out s) F) as [(y & x & M1 & M2 & M3) M4]. rewrite <- Ho in *. rewrite app_nil_r in M2.
      assert (E : (w ++ y) ++ x = part (pcs s g)) by (rewrite <- app_assoc, M2, H2, Ha; auto).
      destruct (failed (out s')) eqn:F'.
      + exists fs, a. rewrite Hlog, F'. split; [now apply tells_rev_skip|]. split; auto. exists f, (part (pcs s g)), (w ++ y), x. split; auto. rewrite M1, H1, app_assoc. auto.
      + exists (fs ++ [f]), (a ++ part (pcs s g)). rewrite Hlog, F'. split; [now apply tells_rev_sent|]. split; [apply stream_app; auto using stream_one|].
        exists []. rewrite !app_nil_r. assert (Ep : pend (out s') = []) by auto. rewrite Ep in *. rewrite <- M3, app_nil_r in E. rewrite M1, H1, <- E, Ha'. cbn [part]. now rewrite !app_assoc.
  Qed.
  (* nothing is sent *)
  Lemma sent_same s s' e : sent s -> active s' = active s \/ (part (active s') = [] /\ part (active s) = []) ->
    pend (out s') = pend (out s) -> failed (out s') = failed (out s) -> wire (net_of (out s')) = wire (net_of (out s)) ->
    flog s' = e ++ flog s -> (forall x f, In x e -> ~ sent_by x f) -> sent s'.
  Proof.
    intros (fs & a & Ht & Hs & H) Ha Hp Hf Hw Hlog He. exists fs, a. rewrite Hlog, Hp, Hf, Hw. split; [|split; auto].
    - clear - Ht He. induction e as [|x e IH]; cbn [app]; auto. apply tells_rev_skip; [intros f; apply He; now left|]. apply IH. intros y f Hy. apply He. now right.
    - destruct (failed (out s)); auto. destruct H as (w & H1 & H2). exists w. split; auto. destruct Ha as [->|[-> E]]; auto. now rewrite <- E.
  Qed.

  Definition one (s : fst_) : Prop := hold_m s = None \/ hold_wio s = None.
  Lemma active_w s g : one s -> locks s -> in_w (pcs s g) = true -> active s = pcs s g /\ hold_m s = Some g /\ hold_wio s = None.
  Proof. intros Ho (H1 & _) H. apply H1 in H. unfold active. rewrite H. destruct Ho as [Ho|Ho]; [congruence|auto]. Qed.
  Lemma active_c s g : one s -> locks s -> in_c (pcs s g) = true -> active s = pcs s g /\ hold_wio s = Some g /\ hold_m s = None.
  Proof. intros Ho (_ & H1 & _) H. apply H1 in H. unfold active. rewrite H. destruct Ho as [Ho|Ho]; [rewrite Ho; auto|congruence]. Qed.
  (* a goroutine that holds no lock changes its place *)
  Lemma active_other s g p o l : locks s -> in_w (pcs s g) = false -> in_c (pcs s g) = false -> active (FSt (hold_m s) (hold_wio s) (fset (pcs s) g p) o l) = active s.
  Proof.
    intros (H1 & H2 & _) Hw Hc. unfold active. cbn [hold_m hold_wio pcs]. destruct (hold_m s) as [h|] eqn:Em.
    - apply fset_ne. intros ->. rewrite (proj2 (H1 g) ltac:(congruence)) in Hw. discriminate.
    - destruct (hold_wio s) as [h|] eqn:Ew; auto. apply fset_ne. intros ->. rewrite (proj2 (H2 g) ltac:(congruence)) in Hc. discriminate.
  Qed.

  Lemma sent_step s l : sent s -> locks s -> one s -> one (fstep s l) -> sent (fstep s l).
  Proof.
    intros Hs Hl Ho Ho'. destruct l as [g m|g st|g|k]; cbn [FrModel.fstep] in *.
    - destruct (pcs s g) eqn:Ep; auto. eapply (sent_same s _ [ECall g m]); auto; [left; apply active_other; auto; now rewrite Ep|]. intros x f [<-|[]] H; inversion H.
    - destruct (pcs s g) eqn:Ep; auto. eapply (sent_same s _ [ECloseCall g]); auto; [left; apply active_other; auto; now rewrite Ep|]. intros x f [<-|[]] H; inversion H.
    - pose proof (proj2 (proj2 Hl) g) as Hok. destruct (pcs s g) as [|m|m|m|m|st|st|st|st|] eqn:Ep; auto; cbn [ok_pc] in Hok.
      + destruct (hold_m s) eqn:Em; auto. destruct Ho' as [Ho'|Ho']; [discriminate|]. cbn [hold_wio] in Ho'.
        eapply (sent_same s _ [EHold g m]); auto; [|intros x f [<-|[]] H; inversion H].
        right. unfold active. cbn [hold_m pcs]. rewrite fset_eq, Em, Ho'. auto.
      + destruct (active_w s g) as (Ha & Hm & Hw); auto; [now rewrite Ep|].
        apply (sent_write s _ (header opText (N.of_nat (length m))) g (WHeaded m)); auto; try (rewrite Ep; reflexivity); [|apply header_nonnil].
        unfold active. cbn [hold_m pcs]. rewrite Hm. apply fset_eq.
      + destruct (active_w s g) as (Ha & Hm & Hw); auto; [now rewrite Ep|].
        apply (sent_write s _ m g (WBodied m)); auto; try (rewrite Ep; reflexivity).
        * unfold active. cbn [hold_m pcs]. rewrite Hm. apply fset_eq.
        * cbn [part]. intros E. apply app_eq_nil in E as [E _]. now apply header_nonnil in E.
      + destruct (active_w s g) as (Ha & Hm & Hw); auto; [now rewrite Ep|].
        eapply (sent_flush s _ g (text m) (ERet g m (negb (failed (bw_flush (out s)))))); auto; cbn [out].
        * unfold active. cbn [hold_m hold_wio]. now rewrite Hw.
        * rewrite Ep. cbn [part]. now apply header_frame.
        * destruct (failed (bw_flush (out s))); cbn [negb]; [intros f' H; inversion H|constructor].
      + destruct (hold_wio s) eqn:Em; auto. destruct Ho' as [Ho'|Ho']; [|discriminate]. cbn [hold_m] in Ho'.
        eapply (sent_same s _ [ECloseHold g st]); auto; [|intros x f [<-|[]] H; inversion H].
        right. unfold active. cbn [hold_m hold_wio pcs]. rewrite fset_eq, Em, Ho'. auto.
      + destruct (active_c s g) as (Ha & Hm & Hw); auto; [now rewrite Ep|].
        apply (sent_write s _ (header opClose 2) g (CHeaded st)); auto; try (rewrite Ep; reflexivity); [|apply header_nonnil].
        unfold active. cbn [hold_m hold_wio pcs]. rewrite Hm, Hw. apply fset_eq.
      + destruct (active_c s g) as (Ha & Hm & Hw); auto; [now rewrite Ep|].
        apply (sent_write s _ (closeMsg st) g (CBodied st)); auto; try (rewrite Ep; reflexivity).
        * unfold active. cbn [hold_m hold_wio pcs]. rewrite Hm, Hw. apply fset_eq.
        * cbn [part]. intros E. apply app_eq_nil in E as [E _]. now apply header_nonnil in E.
      + destruct (active_c s g) as (Ha & Hm & Hw); auto; [now rewrite Ep|].
        destruct (failed (bw_flush (out s))) eqn:F.
        * eapply (sent_flush s _ g (RFrame true opClose (closeMsg st)) (ECloseRet g false)); auto; cbn [out].
          -- unfold active. cbn [hold_m hold_wio]. now rewrite Hw.
          -- rewrite Ep. apply close_frame.
          -- rewrite F. intros f' H; inversion H.
        * eapply (sent_flush s _ g (RFrame true opClose (closeMsg st)) (ECloseSent g st)); auto; cbn [out].
          -- unfold active. cbn [hold_m hold_wio]. now rewrite Hw.
          -- rewrite Ep. apply close_frame.
          -- rewrite F. apply sent_close. apply close_closing.
      + eapply (sent_same s _ [ECloseRet g true]); auto; [left; apply active_other; auto; now rewrite Ep|]. intros x f [<-|[]] H; inversion H.
    - destruct (room (net_of (out s))); exact Hs.
  Qed.
  Lemma sent_init : sent finit.
  Proof. exists [], []. cbn. split; [constructor|]. split; [constructor|]. exists []. auto. Qed.
  Lemma apart_one ls : apart size ls -> one (fexec finit ls).
  Proof. intros H. specialize (H (length ls)). rewrite firstn_all in H. exact H. Qed.
  Lemma apart_snoc ls l : apart size (ls ++ [l]) -> apart size ls.
  Proof.
    intros H n. destruct (le_lt_dec n (length ls)) as [Hn|Hn].
    - specialize (H n). rewrite firstn_app in H. replace (n - length ls) with 0 in H by lia. now rewrite firstn_O, app_nil_r in H.
    - specialize (H (length ls)). rewrite firstn_app, Nat.sub_diag, firstn_O, app_nil_r in H. rewrite firstn_all2 by lia. now rewrite firstn_all in H.
  Qed.
  Lemma sent_run ls : sized ls -> apart size ls -> sent (fexec finit ls).
  Proof.
    induction ls as [|l ls IH] using rev_ind; intros H Ha; [apply sent_init|]. pose proof (apart_one _ Ha) as Ho. pose proof (apart_snoc _ _ Ha) as Ha'.
    apply sized_snoc in H as [H1 H2]. rewrite fexec_snoc in *. apply sent_step; auto using locks_run, apart_one.
  Qed.
  (* what a reader gets *)
  Lemma sent_reads s : sent s -> locks s -> exists fs, tells (rev (flog s)) fs /\
    (reads false (wire (net_of (out s))) fs \/ exists g f, (hold_m s = Some g \/ hold_wio s = Some g) /\ sending s g f /\ reads false (wire (net_of (out s))) (fs ++ [f])).
  Proof.
    intros (fs & a & Ht & Hs & H) Hl. exists fs. split; auto. destruct (failed (out s)).
    - destruct H as (f & b & rest & x & Hf & Hw & Hx & Hne). left. exists a, rest. split; auto. split; auto. eapply part_no_frame; eauto.
    - destruct H as (w & Hw & Hp). destruct (list_eq_dec ascii_dec (part (active s)) []) as [E|E].
      + left. rewrite E in Hp. apply app_eq_nil in Hp as [-> _]. exists a, []. split; auto. split; auto. intros f x y Exy Hf. symmetry in Exy. apply app_eq_nil in Exy as [-> _]. now apply frame_nonnil in Hf.
      + assert (Hg : exists g, (hold_m s = Some g \/ hold_wio s = Some g) /\ active s = pcs s g).
        { unfold active in *. destruct (hold_m s) as [g|]; [eauto|]. destruct (hold_wio s) as [g|]; [eauto|]. cbn in E. congruence. }
        destruct Hg as (g & Hg & Ea). destruct (part_whole (active s)) as (f & z & Hf & Hsend); auto; [rewrite Ea; apply Hl|].
        destruct (list_eq_dec ascii_dec (pend (out s) ++ z) []) as [Ez|Ez].
        * right. exists g, f. split; auto. split; [apply Hsend; auto|]. apply app_eq_nil in Ez as [E1 E2]. rewrite E2, app_nil_r in Hf. rewrite E1, app_nil_r in Hp. subst w.
          exists (a ++ part (active s)), []. rewrite app_nil_r. split; auto. split; [apply stream_app; auto using stream_one|].
          intros f' x y Exy Hf'. symmetry in Exy. apply app_eq_nil in Exy as [-> _]. now apply frame_nonnil in Hf'.
        * left. exists a, w. split; auto. split; auto. eapply part_no_frame; [exact Hf| |exact Ez]. now rewrite app_assoc, Hp.
  Qed.
End Run.
