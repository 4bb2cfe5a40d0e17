(* Proofs about Conn.Loop of http/ws. *)
From Coq Require Import Bool Ascii String Arith NArith ZArith List Lia.
From Verif Require Import Prelude PreludeFacts Utf8Model DecModel DurModel EncModel JsonModel CtxModel ErrModel MarModel WsModel WsSpec.
Import ListNotations.

(* exec *)
Lemma exec_app {S} handle (s : st S) a : forall b, exec handle s (a ++ b) = rbind (exec handle s a) (fun s1 => exec handle s1 b).
Proof. revert s. induction a as [|l a IH]; intros s b; cbn [app exec]; [reflexivity|]. destruct (step handle s l); cbn [rbind]; auto. Qed.
Lemma exec_inv {S} handle (P : st S -> Prop) : (forall s l s', P s -> step handle s l = Ok s' -> P s') ->
  forall ls s s', P s -> exec handle s ls = Ok s' -> P s'.
Proof.
  intros Hstep. induction ls as [|l ls IH]; intros s s' Hs; cbn [exec]; [intros E; now injection E as <-|].
  destruct (step handle s l) eqn:E; cbn [rbind]; [|discriminate]. intros E'. eauto.
Qed.

Lemma called_snoc {S} (handle : S -> option node -> S * hres) l n : forall h h1 rs, called handle h l = (h1, rs) ->
  called handle h (l ++ [n]) = (fst (handle h1 n), rs ++ [snd (handle h1 n)]).
Proof.
  induction l as [|m l IH]; intros h h1 rs; cbn [called app].
  - intros E. injection E as <- <-. destruct (handle h n); reflexivity.
  - destruct (handle h m) as [h2 r]. destruct (called handle h2 l) as [h3 rs'] eqn:E. intros E'. injection E' as <- <-. rewrite (IH _ _ _ E). reflexivity.
Qed.

(* what the reader holds *)
Definition have (r : reader) : list (option node) := match r with Have n => [n] | _ => [] end.
(* what the handler is at *)
Definition busy (l : loop) : list (option node) := match l with Handling n => [n] | _ => [] end.
(* no call that is not done, none that failed, and not returned *)
Definition clean (l : list event) : Prop :=
  starts l = map fst (ends l) /\ (forall m r, In (m, r) (ends l) -> r = HNil) /\ ~ In EReturn l.

Section Loop.
  Context {S : Type} (handle : S -> option node -> S * hres) (i : list wframe) (h0 : S).
  Definition linv (s : st S) : Prop :=
    (exists rest, msgs i = starts (log s) ++ have (rdr s) ++ rest /\ (rdr s <> Ended -> rest = msgs (input s))) /\
    starts (log s) = map fst (ends (log s)) ++ busy (lp s) /\
    called handle h0 (map fst (ends (log s))) = (hs s, map snd (ends (log s))) /\
    (lp s <> Over -> (forall m r, In (m, r) (ends (log s)) -> r = HNil) /\ ~ In EReturn (log s)) /\
    (lp s = Over -> In EReturn (log s)) /\
    (forall l1 n l2, log s = l1 ++ EStart n :: l2 -> clean l2).

  Lemma linv_start : linv (start i h0).
  Proof.
    repeat apply conj; try reflexivity.
    - exists (msgs i). split; [reflexivity|intros _; reflexivity].
    - intros _. split; [intros m r []|intros []].
    - discriminate.
    - intros [|e l1] n l2; discriminate.
  Qed.
  (* the log of another state, if nothing is started *)
  Lemma split_cons (P : list event -> Prop) e l : (forall n, e <> EStart n) -> (forall l1 n l2, l = l1 ++ EStart n :: l2 -> P l2) ->
    forall l1 n l2, e :: l = l1 ++ EStart n :: l2 -> P l2.
  Proof. intros He Hl [|x l1] n l2 E; injection E as E1 E2; [destruct (He n E1)|eauto]. Qed.

  Lemma linv_step s l s' : linv s -> step handle s l = Ok s' -> linv s'.
  Proof.
    intros (Ho & Hb & Hc & Hn & Hr & Hs) Hst. destruct Ho as (rest & Ho & Hi). unfold linv. destruct l as [| | | |b| | | |]; cbn [step] in Hst.
    - (* LRead *) destruct (rdr s) eqn:Er; [|injection Hst as <-; rewrite Er; repeat apply conj; eauto..].
      destruct (input s) as [|w inp] eqn:Ei; [injection Hst as <-; rewrite Er, Ei; repeat apply conj; eauto|].
      specialize (Hi ltac:(discriminate)). subst rest. cbn [have app] in Ho.
      destruct (wsRead (cancelled s) w) as [n| |] eqn:Ew; [| |discriminate]; injection Hst as <-; cbn [rdr input log lp hs have app].
      + repeat apply conj; auto. exists (msgs inp). split; [|reflexivity]. rewrite Ho. cbn [msgs].
        unfold wsRead in Ew. destruct w; try (destruct (cancelled s); discriminate). destruct (cancelled s); [discriminate|]. destruct (Decode j); try discriminate. injection Ew as ->. reflexivity.
      + repeat apply conj; auto. eexists. split; [exact Ho|congruence].
    - (* LReadFail *) destruct (rdr s) eqn:Er; injection Hst as <-; cbn [rdr input log lp hs]; [|rewrite ?Er; repeat apply conj; eauto..].
      repeat apply conj; auto. eexists. split; [exact Ho|congruence].
    - (* LPass *) destruct (rdr s) eqn:Er; [injection Hst as <-; rewrite ?Er; repeat apply conj; eauto| |injection Hst as <-; rewrite ?Er; repeat apply conj; eauto].
      destruct (lp s) eqn:El; [|injection Hst as <-; rewrite ?Er, ?El; repeat apply conj; eauto..].
      injection Hst as <-; cbn [rdr input log lp hs have busy starts ends app] in *. rewrite app_nil_r in Hb. destruct (Hn ltac:(discriminate)) as [Hn1 Hn2]. repeat apply conj.
      + exists rest. rewrite <- app_assoc. split; [exact Ho|intros _; apply Hi; discriminate].
      + now rewrite Hb.
      + exact Hc.
      + intros _. split; [exact Hn1|]. intros [E|E]; [discriminate|auto].
      + discriminate.
      + intros [|e l1] m l2 E; injection E as E1 E2; [subst l2; repeat apply conj; assumption|subst; eauto].
    - (* LDrop *) destruct (rdr s) eqn:Er; [injection Hst as <-; rewrite ?Er; repeat apply conj; eauto| |injection Hst as <-; rewrite ?Er; repeat apply conj; eauto].
      destruct (cancelled s); injection Hst as <-; [|rewrite ?Er; repeat apply conj; eauto]. cbn [rdr input log lp hs]. repeat apply conj; auto.
      exists (have (Have n) ++ rest). split; [exact Ho|congruence].
    - (* LFinish *) destruct (lp s) eqn:El; [injection Hst as <-; rewrite ?El; repeat apply conj; eauto| |injection Hst as <-; rewrite ?El; repeat apply conj; eauto].
      pose proof (called_snoc handle _ n _ _ _ Hc) as Hc'. destruct (handle (hs s) n) as [h [| |]] eqn:Eh; cbn [fst snd] in Hc'.
      + injection Hst as <-. cbn [rdr input log lp hs have busy starts ends app] in *. destruct (Hn ltac:(discriminate)) as [Hn1 Hn2]. rewrite !map_app, app_nil_r. cbn [map fst snd]. repeat apply conj; eauto.
        * intros _. split; [|intros [E|E]; [discriminate|auto]]. intros m r Hin. apply in_app_or in Hin as [Hin|[E|[]]]; [eauto|congruence].
        * discriminate.
        * apply split_cons; [discriminate|assumption].
      + injection Hst as <-. cbn [rdr input log lp hs have busy starts ends app] in *. destruct b; cbn [starts ends app]; rewrite !map_app, app_nil_r; cbn [map fst snd]; repeat apply conj; eauto; try congruence.
        * now left.
        * do 4 (apply split_cons; [discriminate|]). assumption.
        * now left.
        * do 3 (apply split_cons; [discriminate|]). assumption.
      + injection Hst as <-. cbn [rdr input log lp hs have busy starts ends app] in *. rewrite !map_app, app_nil_r; cbn [map fst snd]; repeat apply conj; eauto; try congruence.
        * now left.
        * do 3 (apply split_cons; [discriminate|]). assumption.
    - injection Hst as <-. cbn [rdr input log lp hs]. repeat apply conj; eauto.
    - (* LDone *) destruct (lp s) eqn:El; [|injection Hst as <-; rewrite ?El; repeat apply conj; eauto..].
      destruct (cancelled s); injection Hst as <-; [|rewrite ?El; repeat apply conj; eauto]. cbn [rdr input log lp hs have busy starts ends app] in *. repeat apply conj; eauto; try congruence.
      + now left.
      + do 2 (apply split_cons; [discriminate|]). assumption.
    - (* LEof *) destruct (lp s) eqn:El; [|injection Hst as <-; rewrite ?El; repeat apply conj; eauto..].
      destruct (rdr s) eqn:Er; injection Hst as <-; [rewrite ?Er, ?El; repeat apply conj; eauto..|]. cbn [rdr input log lp hs have busy starts ends app] in *. repeat apply conj; eauto; try congruence.
      + now left.
      + do 2 (apply split_cons; [discriminate|]). assumption.
    - (* LClose *) injection Hst as <-. cbn [rdr input log lp hs starts ends] in *. repeat apply conj; eauto.
      + intros Hl. destruct (Hn Hl) as [H1 H2]. split; [exact H1|]. intros [E|E]; [discriminate|auto].
      + intros Hl. right. auto.
      + apply split_cons; [discriminate|assumption].
  Qed.
  Lemma linv_exec ls s : exec handle (start i h0) ls = Ok s -> linv s.
  Proof. intros E. eapply exec_inv with (P := linv); eauto using linv_step, linv_start. Qed.

  (* ---- without failures from outside ---- *)
  Definition cinv (s : st S) : Prop :=
    cancelled s = false /\ (rdr s = Ended -> msgs i = starts (log s)) /\
    (lp s = Over -> (exists m r, In (m, r) (ends (log s)) /\ r <> HNil) \/ rdr s = Ended).
  Definition calm (l : label) : Prop := l <> LReadFail /\ l <> LCancel.
  Lemma cinv_step s l s' : calm l -> linv s -> cinv s -> step handle s l = Ok s' -> cinv s'.
  Proof.
    intros [Hl1 Hl2] Hinv (Hc & He & Ho) Hst. unfold cinv. destruct l as [| | | |b| | | |]; try congruence; cbn [step] in Hst; rewrite ?Hc in Hst.
    - destruct (rdr s) eqn:Er; [|injection Hst as <-; repeat apply conj; rewrite ?Er; auto..].
      destruct (input s) as [|w inp] eqn:Ei; [injection Hst as <-; repeat apply conj; rewrite ?Er; auto|].
      destruct Hinv as ((rest & H1 & H2) & _). rewrite Er, Ei in *. specialize (H2 ltac:(discriminate)). subst rest. cbn [have app] in H1.
      destruct (wsRead false w) as [n| |] eqn:Ew; [| |discriminate]; injection Hst as <-; cbn [cancelled rdr lp log]; repeat apply conj; auto; try congruence.
      + intros Hp. destruct (Ho Hp) as [Hx|Hx]; [auto|discriminate].
      + intros _. rewrite H1. replace (msgs (w :: inp)) with (@nil (option node)); [now rewrite app_nil_r|].
        unfold wsRead in Ew. destruct w; try reflexivity. cbn [msgs]. destruct (Decode j); [discriminate|reflexivity..].
    - destruct (rdr s) eqn:Er; [injection Hst as <-; repeat apply conj; rewrite ?Er; auto| |injection Hst as <-; repeat apply conj; rewrite ?Er; auto].
      destruct (lp s) eqn:El; [|injection Hst as <-; repeat apply conj; rewrite ?Er, ?El; auto..].
      injection Hst as <-; cbn [cancelled rdr lp log]; repeat apply conj; auto; discriminate.
    - destruct (rdr s) eqn:Er; injection Hst as <-; repeat apply conj; rewrite ?Er; auto.
    - destruct (lp s) eqn:El; [injection Hst as <-; repeat apply conj; rewrite ?El; auto| |injection Hst as <-; repeat apply conj; rewrite ?El; auto].
      destruct (handle (hs s) n) as [h [| |]]; injection Hst as <-; cbn [cancelled rdr lp log]; repeat apply conj; auto; try discriminate; try (intros _; left).
      + destruct b; exact He.
      + exists n, HError. split; [|discriminate]. destruct b; cbn [ends app]; apply in_or_app; right; now left.
      + exists n, HPanic. split; [|discriminate]. cbn [ends]. apply in_or_app; right; now left.
    - destruct (lp s) eqn:El; injection Hst as <-; repeat apply conj; rewrite ?El; auto.
    - destruct (lp s) eqn:El; [|injection Hst as <-; repeat apply conj; rewrite ?El; auto..].
      destruct (rdr s) eqn:Er; injection Hst as <-; cbn [cancelled rdr lp log]; repeat apply conj; rewrite ?Er, ?El; auto; discriminate.
    - injection Hst as <-; cbn [cancelled rdr lp log]; repeat apply conj; auto.
  Qed.
  Lemma cinv_exec ls : Forall calm ls -> forall s s', linv s -> cinv s -> exec handle s ls = Ok s' -> linv s' /\ cinv s'.
  Proof.
    induction 1 as [|l ls Hl _ IH]; intros s s' H1 H2; cbn [exec]; [intros E; injection E as <-; auto|].
    destruct (step handle s l) as [s1|] eqn:E; cbn [rbind]; [|discriminate]. intros E'. apply (IH s1 s'); eauto using linv_step, cinv_step.
  Qed.
  Lemma loop_all ls s : Forall calm ls -> exec handle (start i h0) ls = Ok s -> In EReturn (log s) ->
    (exists m r, In (m, r) (ends (log s)) /\ r <> HNil) \/ starts (log s) = msgs i.
  Proof.
    intros Hls E Hr. destruct (cinv_exec ls Hls (start i h0) s) as [H1 (Hc & He & Ho)]; [apply linv_start| |exact E|].
    - repeat apply conj; [reflexivity|discriminate|discriminate].
    - destruct H1 as (_ & _ & _ & Hn & _). destruct (lp s) eqn:El; [destruct (Hn ltac:(discriminate)) as [_ Hx]; contradiction..|].
      destruct (Ho eq_refl) as [Hx|Hx]; [now left|right]. symmetry. auto.
  Qed.

  (* ---- panics ---- *)
  Lemma step_no_panic s l : (forall w, In w (input s) -> ~ unsupported w) -> step handle s l <> Panic.
  Proof.
    intros Hu. destruct l as [| | | |b| | | |]; cbn [step]; try discriminate.
    - destruct (rdr s); [|discriminate..]. destruct (input s) as [|w inp]; [discriminate|]. specialize (Hu w (or_introl eq_refl)).
      unfold wsRead. destruct w, (cancelled s); cbn in Hu; try tauto; try discriminate; destruct (Decode j); discriminate.
    - destruct (rdr s); discriminate.
    - destruct (rdr s), (lp s); discriminate.
    - destruct (rdr s), (cancelled s); discriminate.
    - destruct (lp s) as [|n|]; try discriminate. destruct (handle (hs s) n) as [h [| |]]; discriminate.
    - destruct (lp s), (cancelled s); discriminate.
    - destruct (lp s), (rdr s); discriminate.
  Qed.
  Lemma step_input s l s' w : step handle s l = Ok s' -> In w (input s') -> In w (input s).
  Proof.
    destruct l as [| | | |b| | | |]; cbn [step]; intros Hst Hin.
    - destruct (rdr s); [|injection Hst as <-; exact Hin..]. destruct (input s) as [|w' inp] eqn:Ei; [injection Hst as <-; now rewrite Ei in Hin|].
      destruct (wsRead _ _); [| |discriminate]; injection Hst as <-; now right.
    - destruct (rdr s); injection Hst as <-; exact Hin.
    - destruct (rdr s), (lp s); injection Hst as <-; exact Hin.
    - destruct (rdr s), (cancelled s); injection Hst as <-; exact Hin.
    - destruct (lp s) as [|n|]; [injection Hst as <-; exact Hin| |injection Hst as <-; exact Hin]. destruct (handle (hs s) n) as [h [| |]]; injection Hst as <-; exact Hin.
    - injection Hst as <-; exact Hin.
    - destruct (lp s), (cancelled s); injection Hst as <-; exact Hin.
    - destruct (lp s), (rdr s); injection Hst as <-; exact Hin.
    - injection Hst as <-; exact Hin.
  Qed.
  Lemma exec_no_panic ls : forall s, (forall w, In w (input s) -> ~ unsupported w) -> exec handle s ls <> Panic.
  Proof.
    induction ls as [|l ls IH]; intros s Hu; cbn [exec]; [discriminate|]. destruct (step handle s l) as [s1|] eqn:E; cbn [rbind].
    - apply IH. intros w Hw. apply Hu. eapply step_input; eauto.
    - destruct (step_no_panic s l Hu E).
  Qed.
  (* the other way round: such a frame after messages only kills the program, if it is read before anything else happens *)
  Lemma read_all : forall a b h, (forall w, In w a -> exists j n, w = WText j /\ Decode j = Good n) ->
    forall s, input s = a ++ b -> rdr s = InRead -> lp s = Waiting -> cancelled s = false -> hs s = h ->
    (forall h n, snd (handle h n) = HNil) ->
    exists ls s', exec handle s ls = Ok s' /\ input s' = b /\ rdr s' = InRead /\ lp s' = Waiting /\ cancelled s' = false.
  Proof.
    induction a as [|w a IH]; intros b h Ha s Hi Hr Hp Hc Hh Hn.
    - exists [], s. auto.
    - destruct (Ha w (or_introl eq_refl)) as (j & n & -> & Hd).
      set (s1 := St (a ++ b) InRead Waiting false (fst (handle h n)) (EEnd n HNil :: EStart n :: log s)).
      destruct (IH b (fst (handle h n)) (fun w Hw => Ha w (or_intror Hw)) s1 eq_refl eq_refl eq_refl eq_refl eq_refl Hn) as (ls & s' & E & Hs').
      exists (LRead :: LPass :: LFinish true :: ls), s'. split; [|exact Hs'].
      destruct s as [inp r l c h' lg]. cbn [input rdr lp cancelled hs] in *. subst. cbn [exec step rdr input app wsRead cancelled rbind lp hs log]. rewrite Hd. cbn [exec step rdr input app wsRead cancelled rbind lp hs log].
      specialize (Hn h n). destruct (handle h n) as [h1 r1]. cbn [snd fst] in *. subst r1. cbn [rbind]. exact E.
  Qed.

  (* ---- the reader ends ---- *)
  Lemma reader_ends s : cancelled s = true -> exists s', exec handle s [LDrop; LReadFail] = Ok s' /\ rdr s' = Ended.
  Proof.
    intros Hc. cbn [exec step]. destruct (rdr s) eqn:Er; cbn [rbind]; rewrite ?Hc, ?Er; cbn [rbind rdr]; eauto.
  Qed.
  Lemma reader_stuck n : forall ls s s', rdr s = Have n -> lp s = Over -> cancelled s = false -> ~ In LCancel ls -> exec handle s ls = Ok s' -> rdr s' = Have n.
  Proof.
    induction ls as [|l ls IH]; intros s s' Hr Hp Hc Hl; cbn [exec]; [intros E; now injection E as <-|].
    intros E. destruct (step handle s l) as [s1|] eqn:Es; cbn [rbind] in E; [|discriminate].
    assert (H1 : rdr s1 = Have n /\ lp s1 = Over /\ cancelled s1 = false).
    { destruct l as [| | | |b| | | |]; cbn [step] in Es; rewrite ?Hr, ?Hp, ?Hc in Es; injection Es as <-; auto. destruct Hl. now left. }
    destruct H1 as (H1 & H2 & H3). eapply (IH s1); eauto. intros Hin. apply Hl. now right.
  Qed.
End Loop.
