(* C100: the bytes of a websocket, /repo/http/ws/ws.go. *)
From Coq Require Import Bool Ascii String Arith NArith ZArith Lia List.
From Verif Require Import Prelude Utf8Model Utf8Facts ReqModel EncModel JsonModel WsModel FrModel FrSpec FrProofs FrRun.
Import ListNotations.

(* ---- C100 ---- *)
(* The bytes of frames can be read in one way only. *)
Theorem C100_unambiguous : forall mask bs fs fs', reads mask bs fs -> reads mask bs fs' -> fs = fs'.
Proof. intros mask bs fs fs' H H'. eapply reads_inj; eauto. Qed.
Print Assumptions C100_unambiguous.

(* While Close and Write do not use the connection at the same time, the client reads exactly the messages for which Write returned nil,
   and the frames of Close, in this order, at any time and wherever the connection breaks; only the one that is being written may come
   before Write returns. *)
Theorem C100_exact_partial : forall size ls, sized ls -> apart size ls -> let s := fexec size finit ls in
  exists fs, tells (rev (flog s)) fs /\
    (reads false (wire (net_of (out s))) fs \/ exists g f, sending s g f /\ reads false (wire (net_of (out s))) (fs ++ [f])).
Proof.
  intros size ls Hs Ha s. destruct (sent_reads s (sent_run size ls Hs Ha) (locks_run size ls Hs)) as (fs & Ht & [H|(g & f & _ & H1 & H2)]); exists fs; split; auto. right. eauto.
Qed.
Print Assumptions C100_exact_partial.

Section Props.
  Context (size : nat).
  Notation fstep := (fstep size). Notation fexec := (fexec size).

  Definition close_pc (p : pc) : bool := match p with CWait _ | CLocked _ | CHeaded _ | CBodied _ | CShut => true | _ => false end.
  Definition close_ev (e : fevent) : bool := match e with ECloseCall _ | ECloseHold _ _ | ECloseSent _ _ | ECloseRet _ _ => true | _ => false end.
  Definition open (s : fst_) : Prop := hold_wio s = None /\ (forall g, close_pc (pcs s g) = false) /\ forall e, In e (flog s) -> close_ev e = false.
  Lemma open_step s l : open s -> (forall g st, l <> FClose g st) -> open (fstep s l).
  Proof.
    intros (H1 & H2 & H3) Hl.
    assert (G : forall g p hm o e, close_pc p = false -> (forall x, In x e -> close_ev x = false) -> open (FSt hm (hold_wio s) (fset (pcs s) g p) o (e ++ flog s))).
    { intros g p hm o e Hp He. split; [exact H1|]. split; cbn [pcs flog].
      - intros h. destruct (Nat.eq_dec h g) as [->|Hne]; [rewrite fset_eq|rewrite fset_ne]; auto.
      - intros x Hx. apply in_app_or in Hx as [Hx|Hx]; auto. }
    destruct l as [g m|g st|g|k]; cbn [FrModel.fstep].
    - destruct (pcs s g); try exact (conj H1 (conj H2 H3)). apply (G g (WWait m) (hold_m s) (out s) [ECall g m]); auto. intros x [<-|[]]; auto.
    - now contradiction (Hl g st).
    - pose proof (H2 g) as Hg. destruct (pcs s g) as [|m|m|m|m|st|st|st|st|] eqn:Ep; try discriminate; try exact (conj H1 (conj H2 H3)).
      + destruct (hold_m s); try exact (conj H1 (conj H2 H3)). apply (G g (WLocked m) (Some g) (out s) [EHold g m]); auto. intros x [<-|[]]; auto.
      + apply (G g (WHeaded m) (hold_m s) _ []); auto. intros x [].
      + apply (G g (WBodied m) (hold_m s) _ []); auto. intros x [].
      + apply (G g Idle None _ [ERet g m (negb (failed (bw_flush (out s))))]); auto. intros x [<-|[]]; auto.
    - destruct (room (net_of (out s))); exact (conj H1 (conj H2 H3)).
  Qed.
  Lemma open_run ls : (forall g st, ~ In (FClose g st) ls) -> open (fexec finit ls).
  Proof.
    induction ls as [|l ls IH] using rev_ind; intros H.
    - split; [reflexivity|]. split; [reflexivity|]. intros e [].
    - rewrite fexec_snoc. apply open_step; [apply IH; intros g st Hi|intros g st ->]; apply (H g st); apply in_or_app; [now left|right; now left].
  Qed.
  Lemma in_firstn {A} n : forall (l : list A) x, In x (firstn n l) -> In x l.
  Proof. induction n as [|n IH]; intros [|c l] x H; try destruct H; cbn; auto. Qed.
  Lemma apart_open ls : (forall g st, ~ In (FClose g st) ls) -> apart size ls.
  Proof. intros H n. right. apply open_run. intros g st Hi. apply (H g st). eapply in_firstn; eauto. Qed.
  Lemma tells_snoc l e fs : tells (l ++ [e]) fs -> exists fs', tells l fs' /\ (fs = fs' /\ (forall f, ~ sent_by e f) \/ exists f, fs = fs' ++ [f] /\ sent_by e f).
  Proof.
    revert fs. induction l as [|x l IH]; intros fs H; cbn [app] in H.
    - exists []. split; [constructor|]. inversion H as [|e' l' fs' Hn Ht|e' f l' fs' Hn Ht]; subst; inversion Ht; subst; [left; auto|right; exists f; auto].
    - inversion H as [|e' l' fs' Hn Ht|e' f l' fs' Hn Ht]; subst.
      + destruct (IH _ Ht) as (fs' & H1 & H2). exists fs'. split; auto. now apply tells_skip.
      + destruct (IH _ Ht) as (gs & H1 & H2). exists (f :: gs). split; [now apply tells_sent|]. destruct H2 as [(-> & H2)|(f' & -> & H2)]; [left; auto|right; exists f'; auto].
  Qed.
  Lemma tells_accepted l : (forall e, In e l -> close_ev e = false) -> forall fs, tells (rev l) fs -> fs = map text (accepted l).
  Proof.
    induction l as [|e l IH]; intros He fs H; cbn [rev] in H; [inversion H; auto|].
    apply tells_snoc in H as (fs' & H1 & H2). apply IH in H1; [|intros x Hx; apply He; now right]. pose proof (He e (or_introl eq_refl)) as Hc.
    destruct H2 as [(-> & H2)|(f & -> & H2)].
    - destruct e as [| |g m [|]| | | |]; try discriminate Hc; try (cbn [accepted]; assumption). exfalso. exact (H2 _ (sent_text g m)).
    - inversion H2; subst; [|discriminate]. cbn [accepted]. now rewrite map_app.
  Qed.
End Props.

(* So without Close: the client reads exactly the messages for which Write returned nil, in this order, and then perhaps the one that is
   being written. *)
Theorem C100_writes : forall size ls, sized ls -> (forall g st, ~ In (FClose g st) ls) -> let s := fexec size finit ls in
  exists more, reads false (wire (net_of (out s))) (map text (accepted (flog s) ++ more)) /\
    (more = [] \/ exists g m, more = [m] /\ hold_m s = Some g /\ writing s g m).
Proof.
  intros size ls Hs Hc s. pose proof (open_run size ls Hc) as Ho.
  destruct (sent_reads s (sent_run size ls Hs (apart_open size ls Hc)) (locks_run size ls Hs)) as (fs & Ht & H).
  apply (tells_accepted (flog s) (proj2 (proj2 Ho))) in Ht. subst fs. destruct H as [H|(g & f & Hg & Hsend & H)].
  - exists []. rewrite app_nil_r. auto.
  - destruct Hg as [Hg|Hg]; [|destruct Ho as (Ho & _); fold s in Ho; congruence]. destruct Hsend as [(m & Hp & ->)|(st & Hp & _)].
    + exists [m]. rewrite map_app. split; auto. right. exists g, m. split; auto. split; auto. unfold writing. tauto.
    + exfalso. destruct Ho as (_ & Ho & _). specialize (Ho g). fold s in Ho. destruct Hp as [Hp|Hp]; rewrite Hp in Ho; discriminate.
Qed.
Print Assumptions C100_writes.

(* Each Write by a goroutine returns once, in the order of its calls, and only the last may still be going on. *)
Theorem C100_calls : forall size ls g, let s := fexec size finit ls in
  called_by g (flog s) = answered_by g (flog s) /\ (forall m, ~ writing s g m) \/
  exists m, called_by g (flog s) = answered_by g (flog s) ++ [m] /\ writing s g m.
Proof.
  intros size ls g.
  set (pending := fun p : pc => match p with WWait m | WLocked m | WHeaded m | WBodied m => [m] | _ => [] end).
  assert (Inv : forall ls, called_by g (flog (fexec size finit ls)) = answered_by g (flog (fexec size finit ls)) ++ pending (pcs (fexec size finit ls) g)).
  { clear ls. intros ls. induction ls as [|l ls IH] using rev_ind; [reflexivity|]. rewrite fexec_snoc. set (s := fexec size finit ls) in *. clearbody s.
    assert (Same : forall h p hm hw o, pending p = pending (pcs s h) -> called_by g (flog (FSt hm hw (fset (pcs s) h p) o (flog s))) = answered_by g (flog s) ++ pending (fset (pcs s) h p g)).
    { intros h p hm hw o Hp. cbn [flog]. destruct (Nat.eq_dec g h) as [->|Hne]; [rewrite fset_eq, Hp|rewrite fset_ne by assumption]; auto. }
    destruct l as [h m|h st|h|k]; cbn [fstep].
    - destruct (pcs s h) eqn:Ep; auto. cbn [flog pcs called_by answered_by]. destruct (Nat.eqb_spec h g) as [->|Hne].
      + rewrite fset_eq. rewrite IH, Ep. cbn [pending]. now rewrite app_nil_r.
      + rewrite fset_ne, app_nil_r by auto. exact IH.
    - destruct (pcs s h) eqn:Ep; auto. cbn [flog pcs called_by answered_by]. apply (Same h (CWait st) None None (out s)). now rewrite Ep.
    - destruct (pcs s h) as [|m|m|m|m|st|st|st|st|] eqn:Ep; auto.
      + destruct (hold_m s); auto. cbn [flog pcs called_by answered_by]. apply (Same h (WLocked m) None None (out s)). now rewrite Ep.
      + cbn [flog pcs called_by answered_by]. apply (Same h (WHeaded m) None None (out s)). now rewrite Ep.
      + cbn [flog pcs called_by answered_by]. apply (Same h (WBodied m) None None (out s)). now rewrite Ep.
      + cbn [flog pcs called_by answered_by]. destruct (Nat.eqb_spec h g) as [->|Hne].
        * rewrite fset_eq, IH, Ep. cbn [pending]. now rewrite app_nil_r.
        * rewrite fset_ne, app_nil_r by auto. exact IH.
      + destruct (hold_wio s); auto. cbn [flog pcs called_by answered_by]. apply (Same h (CLocked st) None None (out s)). now rewrite Ep.
      + cbn [flog pcs called_by answered_by]. apply (Same h (CHeaded st) None None (out s)). now rewrite Ep.
      + cbn [flog pcs called_by answered_by]. apply (Same h (CBodied st) None None (out s)). now rewrite Ep.
      + destruct (failed (bw_flush (out s))); cbn [flog pcs called_by answered_by]; [apply (Same h Idle None None (out s))|apply (Same h CShut None None (out s))]; now rewrite Ep.
      + cbn [flog pcs called_by answered_by]. apply (Same h Idle None None (out s)). now rewrite Ep.
    - destruct (room (net_of (out s))); exact IH. }
  cbn zeta. pose proof (Inv ls) as H. unfold writing.
  destruct (pcs (fexec size finit ls) g) as [|m|m|m|m|st|st|st|st|] eqn:Ep; cbn [pending] in H; rewrite ?app_nil_r in H;
    try (left; split; [exact H|]; intros m [E|[E|[E|E]]]; discriminate); right; exists m; auto.
Qed.
Print Assumptions C100_calls.

(* After a Write returned an error, none returns nil. *)
Theorem C100_broken : forall size ls g m new old, flog (fexec size finit ls) = new ++ ERet g m false :: old -> forall h n, ~ In (ERet h n true) new.
Proof.
  intros size ls.
  assert (Inv : (forall g m, In (ERet g m false) (flog (fexec size finit ls)) -> failed (out (fexec size finit ls)) = true) /\
    forall g m new old, flog (fexec size finit ls) = new ++ ERet g m false :: old -> forall h n, ~ In (ERet h n true) new).
  { induction ls as [|l ls IH] using rev_ind; [split; [intros g m []|]; intros g m [|? ?] old [=]|]. rewrite fexec_snoc. set (s := fexec size finit ls) in *. clearbody s. destruct IH as [I1 I2].
    assert (G : forall e hm hw p o, (failed (out s) = true -> failed o = true) -> (forall g m b, e = ERet g m b -> b = negb (failed o)) ->
      (forall g m, In (ERet g m false) (flog (FSt hm hw p o (e :: flog s))) -> failed o = true) /\
      forall g m new old, e :: flog s = new ++ ERet g m false :: old -> forall h n, ~ In (ERet h n true) new).
    { intros e hm hw p o Hf He. split.
      - intros g m [->|Hi]; [|eauto]. specialize (He _ _ _ eq_refl). destruct (failed o); auto.
      - intros g m [|x new] old E h n Hi; [destruct Hi|]. injection E as <- E. destruct Hi as [->|Hi]; [|exact (I2 _ _ _ _ E _ _ Hi)].
        specialize (He _ _ _ eq_refl). rewrite Hf in He; [discriminate|]. apply (I1 g m). rewrite E. apply in_or_app. right. now left. }
    assert (G0 : forall hm hw p o, (failed (out s) = true -> failed o = true) -> (forall g m, In (ERet g m false) (flog (FSt hm hw p o (flog s))) -> failed o = true) /\
      forall g m new old, flog s = new ++ ERet g m false :: old -> forall h n, ~ In (ERet h n true) new).
    { intros hm hw p o Hf. split; [|exact I2]. intros g m Hi. apply Hf. exact (I1 g m Hi). }
    assert (Fw : forall p, failed (out s) = true -> failed (bw_write size (out s) p) = true) by (intros p F; now rewrite write_failed).
    assert (Ff : failed (out s) = true -> failed (bw_flush (out s)) = true) by (intros F; now rewrite flush_failed).
    destruct l as [h m|h st|h|k]; cbn [fstep].
    - destruct (pcs s h); try exact (conj I1 I2). apply G; auto. discriminate.
    - destruct (pcs s h); try exact (conj I1 I2). apply G; auto. discriminate.
    - destruct (pcs s h) as [|m|m|m|m|st|st|st|st|]; try exact (conj I1 I2).
      + destruct (hold_m s); try exact (conj I1 I2). apply G; auto. discriminate.
      + exact (G0 _ _ _ _ (Fw _)).
      + exact (G0 _ _ _ _ (Fw _)).
      + apply G; auto. intros g' m' b [= _ _ <-]. reflexivity.
      + destruct (hold_wio s); try exact (conj I1 I2). apply G; auto. discriminate.
      + exact (G0 _ _ _ _ (Fw _)).
      + exact (G0 _ _ _ _ (Fw _)).
      + destruct (failed (bw_flush (out s))) eqn:F; (refine (G _ _ _ _ (bw_flush (out s)) _ _); [intros F0; rewrite (flush_failed _ F0); exact F0|intros; discriminate]).
      + apply G; auto. discriminate.
    - destruct (room (net_of (out s))); exact (conj I1 I2). }
  apply Inv.
Qed.
Print Assumptions C100_broken.

(* After Close returned nil, no Write that is called returns nil. *)
Lemma zero_net c p : room c = Some 0 -> room (fst (net_write c p)) = Some 0 /\ (p <> [] -> snd (net_write c p) = false).
Proof.
  intros H. unfold net_write. rewrite H. destruct p as [|x p]; cbn; auto. split; auto. intros []. reflexivity.
Qed.
Definition stuck (b : bw) : Prop := failed b = true \/ pend b <> [].
Lemma zero_flush b : room (net_of b) = Some 0 -> room (net_of (bw_flush b)) = Some 0 /\ (stuck b -> failed (bw_flush b) = true).
Proof.
  intros H. unfold bw_flush, stuck. destruct (failed b) eqn:F; [auto|]. destruct (pend b) as [|x p] eqn:Ep.
  - split; auto. intros [E|E]; congruence.
  - destruct (zero_net (net_of b) (x :: p) H) as [Z1 Z2]. destruct (net_write (net_of b) (x :: p)) as [c ok]. cbn [fst snd] in *. rewrite Z2 by discriminate. auto.
Qed.
Lemma zero_write size b p : room (net_of b) = Some 0 -> room (net_of (bw_write size b p)) = Some 0 /\ (stuck b \/ p <> [] -> stuck (bw_write size b p)).
Proof.
  intros H. unfold bw_write. destruct (failed b) eqn:F; [split; auto; intros _; left; auto|]. destruct (Nat.leb_spec (length p) (size - length (pend b))) as [L|L].
  - split; auto. unfold stuck. cbn [failed pend]. rewrite F. intros [[E|E]|E]; [discriminate|right..]; intros E'; apply app_eq_nil in E' as [? ?]; auto.
  - assert (Hp : p <> []) by (intros ->; cbn in L; lia). destruct (pend b) as [|x q] eqn:Ep.
    + destruct (zero_net (net_of b) p H) as [Z1 Z2]. destruct (net_write (net_of b) p) as [c ok]. cbn [fst snd] in *. rewrite Z2 by assumption. split; auto. intros _. left. reflexivity.
    + set (b0 := Bw ((x :: q) ++ firstn (size - length (x :: q)) p) false (net_of b)). destruct (zero_flush b0 H) as [Z1 Z2].
      assert (F1 : failed (bw_flush b0) = true) by (apply Z2; right; discriminate). rewrite F1. split; auto. intros _. now left.
Qed.
Theorem C100_closed : forall size ls ls' c g, let s := fexec size finit ls in let s' := fexec size s ls' in
  In (ECloseRet c true) (flog s) -> (forall m, ~ writing s g m) ->
  exists new, flog s' = new ++ flog s /\ forall m, ~ In (ERet g m true) new.
Proof.
  intros size ls ls' c g s s' Hc Hg.
  assert (Hroom : room (net_of (out s)) = Some 0).
  { clear s' Hg. revert Hc. unfold s. clear s. induction ls as [|l ls IH] using rev_ind; [intros []|]. rewrite fexec_snoc. set (s := fexec size finit ls) in *. clearbody s.
    assert (Zw : forall p, room (net_of (out s)) = Some 0 -> room (net_of (bw_write size (out s) p)) = Some 0) by (intros p Z; now apply zero_write).
    assert (Zf : room (net_of (out s)) = Some 0 -> room (net_of (bw_flush (out s))) = Some 0) by (intros Z; now apply zero_flush).
    destruct l as [h m|h st|h|k]; cbn [fstep].
    - destruct (pcs s h); auto. intros [E|Hi]; [discriminate|auto].
    - destruct (pcs s h); auto. intros [E|Hi]; [discriminate|auto].
    - destruct (pcs s h) as [|m|m|m|m|st|st|st|st|]; auto; cbn [out flog].
      + destruct (hold_m s); auto. intros [E|Hi]; [discriminate|auto].
      + intros Hi. apply Zw; auto.
      + intros Hi. apply Zw; auto.
      + intros [E|Hi]; [discriminate|auto].
      + destruct (hold_wio s); auto. intros [E|Hi]; [discriminate|auto].
      + intros Hi. apply Zw; auto.
      + intros Hi. apply Zw; auto.
      + destruct (failed (bw_flush (out s))); intros [E|Hi]; try discriminate; apply Zf; auto.
    - destruct (room (net_of (out s))) eqn:R; [rewrite R; exact IH|]. cbn [flog]. intros Hi. specialize (IH Hi). discriminate. }
  set (K := fun s : fst_ => room (net_of (out s)) = Some 0 /\ match pcs s g with WHeaded _ | WBodied _ => stuck (out s) | _ => True end).
  assert (HK : K s).
  { split; auto. unfold writing in Hg. destruct (pcs s g) as [|m|m|m|m|st|st|st|st|]; auto; exfalso; eapply Hg; eauto 6. }
  assert (Step : forall s l, K s -> K (fstep size s l) /\ exists new, flog (fstep size s l) = new ++ flog s /\ forall m, ~ In (ERet g m true) new).
  { clear s s' Hc Hg Hroom HK. intros s l [Z HK].
    assert (Upd : forall h p hm hw o e, room (net_of o) = Some 0 -> (stuck (out s) -> stuck o) ->
      (h = g -> match p with WHeaded _ | WBodied _ => stuck o | _ => True end) -> (forall m, ~ In (ERet g m true) e) ->
      K (FSt hm hw (fset (pcs s) h p) o (e ++ flog s)) /\ exists new, e ++ flog s = new ++ flog s /\ forall m, ~ In (ERet g m true) new).
    { intros h p hm hw o e Hz Hst Hp He. split; [|eauto]. split; [exact Hz|]. cbn [pcs out]. destruct (Nat.eq_dec g h) as [->|Hne]; [rewrite fset_eq; exact (Hp eq_refl)|rewrite fset_ne by assumption].
      destruct (pcs s g); auto. }
    assert (Idem : K s /\ exists new, flog s = new ++ flog s /\ forall m, ~ In (ERet g m true) new) by (split; [split; auto|exists []; split; auto]).
    assert (Zw : forall p, room (net_of (bw_write size (out s) p)) = Some 0) by (intros p; now apply zero_write).
    assert (Sw : forall p, stuck (out s) \/ p <> [] -> stuck (bw_write size (out s) p)) by (intros p; now apply zero_write).
    assert (Zf : room (net_of (bw_flush (out s))) = Some 0) by now apply zero_flush.
    assert (Sf : stuck (out s) -> failed (bw_flush (out s)) = true) by now apply zero_flush.
    assert (Sf' : stuck (out s) -> stuck (bw_flush (out s))) by (intros H; left; auto).
    destruct l as [h m|h st|h|k]; cbn [fstep].
    - destruct (pcs s h); auto. apply (Upd h (WWait m) _ _ _ [ECall h m]); auto. intros m' [E|[]]; discriminate.
    - destruct (pcs s h); auto. apply (Upd h (CWait st) _ _ _ [ECloseCall h]); auto. intros m' [E|[]]; discriminate.
    - destruct (pcs s h) as [|m|m|m|m|st|st|st|st|] eqn:Ep; auto.
      + destruct (hold_m s); auto. apply (Upd h (WLocked m) _ _ _ [EHold h m]); auto. intros m' [E|[]]; discriminate.
      + apply (Upd h (WHeaded m) _ _ _ []); auto. intros _. apply Sw. right. apply header_nonnil.
      + apply (Upd h (WBodied m) _ _ _ []); auto. intros ->. rewrite Ep in HK. auto.
      + apply (Upd h Idle _ _ _ [ERet h m (negb (failed (bw_flush (out s))))]); auto. intros m' [E|[]]. injection E as -> _ E. rewrite Ep in HK. rewrite (Sf HK) in E. discriminate.
      + destruct (hold_wio s); auto. apply (Upd h (CLocked st) _ _ _ [ECloseHold h st]); auto. intros m' [E|[]]; discriminate.
      + apply (Upd h (CHeaded st) _ _ _ []); auto.
      + apply (Upd h (CBodied st) _ _ _ []); auto.
      + destruct (failed (bw_flush (out s))); [apply (Upd h Idle _ _ _ [ECloseRet h false])|apply (Upd h CShut _ _ _ [ECloseSent h st])]; auto; intros m' [E|[]]; discriminate.
      + apply (Upd h Idle _ _ _ [ECloseRet h true]); auto. intros m' [E|[]]; discriminate.
    - rewrite Z. exact Idem. }
  unfold s'. clearbody s. clear - HK Step. revert s HK. induction ls' as [|l ls' IH]; intros s HK; cbn [FrModel.fexec fold_left].
  - exists []. split; auto.
  - destruct (Step s l HK) as [HK' (n1 & E1 & N1)]. destruct (IH _ HK') as (n2 & E2 & N2). exists (n2 ++ n1). unfold FrModel.fexec in E2. rewrite E2, E1, app_assoc. split; auto.
    intros m Hi. apply in_app_or in Hi as [Hi|Hi]; [exact (N2 m Hi)|exact (N1 m Hi)].
Qed.
Print Assumptions C100_closed.
