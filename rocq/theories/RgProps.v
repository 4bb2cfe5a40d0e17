(* C142: registering on a Server that is in use. *)
From Coq Require Import Bool Arith String List Lia.
From Verif Require Import Prelude PreludeFacts DurModel DurProofs RgModel RgSpec.
Import ListNotations.

Lemma mg_eq (m : list (bytes * nat)) k v : mget beqb (mset beqb m k v) k = Some v.
Proof. apply mget_mset_eq. exact beqb_eq. Qed.
Lemma mg_ne (m : list (bytes * nat)) k k' v : k <> k' -> mget beqb (mset beqb m k v) k' = mget beqb m k'.
Proof. apply mget_mset_ne. exact beqb_eq. Qed.
Lemma mg_case (m : list (bytes * nat)) k k' v : (k = k' /\ mget beqb (mset beqb m k v) k' = Some v) \/ (k <> k' /\ mget beqb (mset beqb m k v) k' = mget beqb m k').
Proof. destruct (list_eq_dec Ascii.ascii_dec k k') as [->|n]; [left; split; [reflexivity|apply mg_eq]|right; split; [exact n|now apply mg_ne]]. Qed.
Lemma goto_same l g p : goto l g p g = p.
Proof. unfold goto. now rewrite Nat.eqb_refl. Qed.
Lemma goto_cases l g p h : (h = g /\ goto l g p h = p) \/ (h <> g /\ goto l g p h = l h).
Proof. unfold goto. destruct (Nat.eqb h g) eqn:E; [apply Nat.eqb_eq in E; auto|apply Nat.eqb_neq in E; auto]. Qed.
Lemma free_none p m : taken p m = false -> mget beqb m p = None.
Proof. unfold taken. destruct p; [discriminate|]. destruct (mget beqb m (a :: p)); [discriminate|reflexivity]. Qed.

(* what a goroutine has done, given where it stands *)
Definition done (m pt : list (bytes * nat)) (c : pc) : Prop :=
  match c with
  | Idle => True
  | Muxing todo all d => forall p, In p all -> In p todo \/ mget beqb m p = Some d
  | Doc todo all d => (forall p, In p todo -> In p all) /\ forall p, In p all -> mget beqb m p = Some d /\ (In p todo \/ mget beqb pt p = Some d)
  | Writing q todo all d => In q all /\ (forall p, In p todo -> In p all) /\ forall p, In p all -> mget beqb m p = Some d /\ (p = q \/ In p todo \/ mget beqb pt p = Some d)
  | Getting acc => forall p d, mget beqb acc p = Some d -> mget beqb pt p = Some d
  end.
Record good (s : st) : Prop := {
  g_loc : forall g, done (mux s) (paths s) (loc s g);
  g_pm : forall p d, mget beqb (paths s) p = Some d -> mget beqb (mux s) p = Some d;
  g_pc : forall p d, mget beqb (paths s) p = Some d -> exists g ps, In (g, ECall ps d) (tr s) /\ In p ps;
  g_ret : forall g ps d p, In (g, ERet ps d) (tr s) -> In p ps -> mget beqb (mux s) p = Some d /\ mget beqb (paths s) p = Some d;
  g_doc : forall g acc p d, In (g, EDoc acc) (tr s) -> mget beqb acc p = Some d -> mget beqb (mux s) p = Some d;
  g_from : forall g, match loc s g with Muxing _ all d | Doc _ all d | Writing _ _ all d => In (g, ECall all d) (tr s) | _ => True end }.
Definition keeps (m m' : list (bytes * nat)) : Prop := forall p d, mget beqb m p = Some d -> mget beqb m' p = Some d.
Lemma done_keeps m m' pt pt' c : keeps m m' -> keeps pt pt' -> done m pt c -> done m' pt' c.
Proof.
  intros A B0. destruct c; cbn; auto.
  - intros H p Hp. destruct (H p Hp); auto.
  - intros [H0 H]. split; [exact H0|]. intros p Hp. destruct (H p Hp) as [X [Y|Y]]; auto.
  - intros [H0 [H1 H]]. split; [exact H0|split; [exact H1|]]. intros x Hx. destruct (H x Hx) as [X [Y|[Y|Y]]]; auto.
Qed.
Lemma good_start : good start.
Proof. constructor; cbn; try easy. Qed.
Lemma keeps_set (m : list (bytes * nat)) p d : mget beqb m p = None \/ mget beqb m p = Some d -> keeps m (mset beqb m p d).
Proof. intros H q e E. destruct (mg_case m p q d) as [[<- R]|[_ R]]; rewrite R; [|exact E]. destruct H as [H|H]; congruence. Qed.
Lemma keeps_refl m : keeps m m.
Proof. intros p d; auto. Qed.

(* everything, once it is clear that mux and paths only grow, and what the goroutine that moved has done *)
Lemma good_next s m' pt' f' g c' new fa : good s -> keeps (mux s) m' -> keeps (paths s) pt' -> done m' pt' c' ->
  (forall p d, mget beqb pt' p = Some d -> mget beqb m' p = Some d) ->
  (forall p d, mget beqb pt' p = Some d -> mget beqb (paths s) p = Some d \/ exists h ps, In (h, ECall ps d) (tr s) /\ In p ps) ->
  (forall h ps d p, In (h, ERet ps d) new -> In p ps -> mget beqb m' p = Some d /\ mget beqb pt' p = Some d) ->
  (forall h acc p d, In (h, EDoc acc) new -> mget beqb acc p = Some d -> mget beqb m' p = Some d) ->
  match c' with Muxing _ all d | Doc _ all d | Writing _ _ all d => In (g, ECall all d) (new ++ tr s) | _ => True end ->
  good (St m' pt' f' (goto (loc s) g c') (new ++ tr s) fa).
Proof.
  intros [L PM PC R D F] Km Kp Dn Pm Pc Rn Dc Fr. constructor; cbn.
  - intros h. destruct (goto_cases (loc s) g c' h) as [[_ ->]|[_ ->]]; [exact Dn|]. apply (done_keeps (mux s) m' (paths s) pt' (loc s h) Km Kp (L h)).
  - exact Pm.
  - intros p d E. destruct (Pc p d E) as [E'|(h & ps & I1 & I2)]; [destruct (PC p d E') as (h & ps & I1 & I2)|]; exists h, ps; (split; [apply in_or_app; now right|exact I2]).
  - intros h ps d p I1 I2. apply in_app_or in I1 as [I1|I1]; [now apply (Rn h ps)|]. destruct (R h ps d p I1 I2); auto.
  - intros h acc p d I1 E. apply in_app_or in I1 as [I1|I1]; [eapply Dc; eauto|apply Km; eapply D; eauto].
  - intros h. destruct (goto_cases (loc s) g c' h) as [[-> ->]|[_ ->]]; [exact Fr|]. specialize (F h). destruct (loc s h); auto; apply in_or_app; now right.
Qed.
Ltac trivialities := try (intros ? ? ? ? Hx; cbn in Hx; destruct Hx as [Hx|[]]; discriminate Hx); try solve [intros ? ? ? ? []].
Lemma good_step s s' : good s -> step s s' -> good s'.
Proof.
  intros G H. pose proof G as [L PM PC R D F].
  destruct H as [g ps d s Hf Hl|g p r all d s Hf Hl Ht|g p r all d s Hf Hl Ht|g all d s Hf Hl|g p r all d s Hf Hl Ht|g p r all d s Hf Hl Ht|g p r all d s Hf Hl|g all d s Hf Hl|g s Hf Hl|g acc p d s Hf Hl Ht Hp Ha|g acc s Hf Hl Ht|g acc s Hf Hl Ht Hp|g p s Hf Hl];
    pose proof (L g) as Lg; pose proof (F g) as Fg; rewrite Hl in Lg, Fg; cbn in Lg.
  - apply (good_next s _ _ _ g (Muxing ps ps d) [(g, ECall ps d)] false); auto using keeps_refl; trivialities; cbn; auto.
  - apply (good_next s _ _ _ g (Muxing r all d) [] false); auto using keeps_refl; trivialities.
    + apply keeps_set. left. now apply free_none.
    + cbn. intros q Hq. destruct (mg_case (mux s) p q d) as [[<- E]|[n E]]; rewrite E; auto. destruct (Lg q Hq) as [[Q|Q]|Q]; auto. congruence.
    + intros q e E. apply keeps_set; auto. left. now apply free_none.
  - apply (good_next s _ _ _ g Idle [(g, EPanic)] false); auto using keeps_refl; trivialities; cbn; auto.
  - apply (good_next s _ _ _ g (Doc all all d) [] false); auto using keeps_refl; trivialities.
    cbn. split; [auto|]. intros p Hp. destruct (Lg p Hp) as [[]|Q]; auto.
  - apply (good_next s _ _ _ g (Writing p r all d) [] false); auto using keeps_refl; trivialities.
    cbn. destruct Lg as [L0 Lg]. split; [apply L0; now left|split; [intros q Hq; apply L0; now right|]]. intros q Hq. destruct (Lg q Hq) as [X [[Y|Y]|Y]]; auto.
  - constructor; cbn; auto.
  - destruct Lg as (Hq & L0 & Lg). apply (good_next s _ _ _ g (Doc r all d) [] false); auto using keeps_refl; trivialities.
    + apply keeps_set. destruct (mget beqb (paths s) p) as [e|] eqn:E; [right|now left]. pose proof (PM _ _ E). destruct (Lg p Hq) as [X _]. congruence.
    + cbn. split; [exact L0|]. intros q Hq'. destruct (Lg q Hq') as [X Y]. split; [exact X|]. destruct (mg_case (paths s) p q d) as [[_ E]|[n E]]; rewrite E; auto. destruct Y as [->|[Y|Y]]; auto. now contradiction n.
    + intros q e. destruct (mg_case (paths s) p q d) as [[<- E]|[n E]]; rewrite E; auto. intros [= <-]. now apply Lg.
    + intros q e. destruct (mg_case (paths s) p q d) as [[<- E]|[n E]]; rewrite E; auto. intros [= <-]. right. exists g, all. auto.
  - apply (good_next s _ _ _ g Idle [(g, ERet all d)] false); auto using keeps_refl; trivialities; cbn; try exact Logic.I.
    intros h ps e p [[= _ <- <-]|[]] Hp. destruct Lg as [_ Lg]. destruct (Lg p Hp) as [X [[]|Y]]; auto.
  - apply (good_next s _ _ _ g (Getting []) [(g, EGet)] false); auto using keeps_refl; trivialities; cbn; auto. discriminate.
  - apply (good_next s _ _ _ g (Getting (mset beqb acc p d)) [] false); auto using keeps_refl; trivialities.
    cbn. intros q e. destruct (mg_case acc p q d) as [[<- E]|[n E]]; rewrite E; [congruence|apply Lg].
  - constructor; cbn; auto.
  - apply (good_next s _ _ _ g Idle [(g, EDoc acc)] false); auto using keeps_refl; trivialities; cbn; try exact Logic.I.
    intros h a q e [[= _ <-]|[]] E. auto.
  - pose proof (good_next s (mux s) (paths s) (flag s) g Idle [(g, EReq p (mget beqb (mux s) p))] false G) as X. cbn in X.
    constructor; cbn; auto.
    + intros q e E. destruct (PC q e E) as (h & ps & I1 & I2). eauto.
    + intros h ps d q [[=]|I1] I2. eauto.
    + intros h a q d [[=]|I1] E. eauto.
    + intros h. specialize (F h). destruct (loc s h); auto.
Qed.
Lemma good_all s : steps s -> good s.
Proof. induction 1; [apply good_start|eapply good_step; eauto]. Qed.
Lemma step_tr s s' : step s s' -> tr s' = tr s \/ exists e, tr s' = e :: tr s.
Proof. destruct 1; cbn; eauto. Qed.

(* what happened at a moment of an execution *)
Lemma at_event s : steps s -> forall new g e old, tr s = new ++ (g, e) :: old -> exists s0 s1, steps s0 /\ step s0 s1 /\ tr s0 = old /\ tr s1 = (g, e) :: old.
Proof.
  induction 1 as [|s s' H IH Hs]; intros new g e old E; [destruct new; discriminate|].
  destruct (step_tr _ _ Hs) as [Et|(x & Et)]; [rewrite Et in E; eauto|]. rewrite Et in E. destruct new as [|y new]; [|injection E as _ E; eauto].
  injection E as -> E. exists s, s'. rewrite Et, E. auto.
Qed.
Lemma doc_step s s' g acc old : step s s' -> tr s = old -> tr s' = (g, EDoc acc) :: old -> loc s g = Getting acc /\ (forall p d, mget beqb (paths s) p = Some d -> mget beqb acc p <> None).
Proof. intros H Et. destruct H; cbn; intros E; try (rewrite <- Et in E; apply (f_equal (@length _)) in E; cbn in E; lia); injection E; intros; subst; auto; try discriminate. Qed.
Lemma req_step s s' g p r old : step s s' -> tr s = old -> tr s' = (g, EReq p r) :: old -> r = mget beqb (mux s) p.
Proof. intros H Et. destruct H; cbn; intros E; try (rewrite <- Et in E; apply (f_equal (@length _)) in E; cbn in E; lia); injection E; intros; subst; auto; try discriminate. Qed.

(* the document that a GET answers has the paths of every registration that has returned, and only paths that were registered, each with the
   documentation given *)
Theorem C142_document : forall s g acc new old, steps s -> tr s = new ++ (g, EDoc acc) :: old ->
  (forall h ps d p, In (h, ERet ps d) old -> In p ps -> mget beqb acc p = Some d) /\
  (forall p d, mget beqb acc p = Some d -> exists h ps, In (h, ECall ps d) old /\ In p ps).
Proof.
  intros s g acc new old H E. destruct (at_event s H new g _ old E) as (s0 & s1 & H0 & Hs & T0 & T1).
  pose proof (good_all _ H0) as [L PM PC R D F]. destruct (doc_step _ _ _ _ _ Hs T0 T1) as [Hl Hp]. specialize (L g). rewrite Hl in L. cbn in L. rewrite T0 in *. split.
  - intros h ps d p I1 I2. destruct (R h ps d p I1 I2) as [_ X]. destruct (mget beqb acc p) as [e|] eqn:Ea; [apply L in Ea; congruence|]. now apply Hp in X.
  - intros p d Ea. apply L in Ea. apply PC in Ea. exact Ea.
Qed.
(* requests get to what is documented, and to what has been registered *)
Theorem C142_served : forall s g p r new old, steps s -> tr s = new ++ (g, EReq p r) :: old ->
  (forall h acc d, In (h, EDoc acc) old -> mget beqb acc p = Some d -> r = Some d) /\ (forall h ps d, In (h, ERet ps d) old -> In p ps -> r = Some d).
Proof.
  intros s g p r new old H E. destruct (at_event s H new g _ old E) as (s0 & s1 & H0 & Hs & T0 & T1).
  pose proof (good_all _ H0) as [L PM PC R D F]. rewrite (req_step _ _ _ _ _ _ Hs T0 T1), T0 in *. split.
  - intros h acc d I1 Ea. eapply D; eauto.
  - intros h ps d I1 I2. now apply (R h ps d p I1 I2).
Qed.

(* where a goroutine stands is what was last observed of it *)
Definition agrees (c : pc) (e : option event) : Prop :=
  match c with
  | Idle => match e with Some (ECall _ _) | Some EGet => False | _ => True end
  | Muxing _ all d | Doc _ all d | Writing _ _ all d => e = Some (ECall all d)
  | Getting _ => e = Some EGet
  end.
Lemma last_other h g e t : h <> g -> last h ((g, e) :: t) = last h t.
Proof. intros n. cbn. destruct e; auto; destruct (Nat.eqb g h) eqn:E; auto; apply Nat.eqb_eq in E; congruence. Qed.
Lemma agrees_all s : steps s -> forall g, agrees (loc s g) (last g (tr s)).
Proof.
  induction 1 as [|s s' H IH Hs]; [exact (fun _ => Logic.I)|]. intros h.
  destruct Hs as [g ps d s Hf Hl|g p r all d s Hf Hl Ht|g p r all d s Hf Hl Ht|g all d s Hf Hl|g p r all d s Hf Hl Ht|g p r all d s Hf Hl Ht|g p r all d s Hf Hl|g all d s Hf Hl|g s Hf Hl|g acc p d s Hf Hl Ht Hp Ha|g acc s Hf Hl Ht|g acc s Hf Hl Ht Hp|g p s Hf Hl];
    cbn [loc tr]; try exact (IH h); pose proof (IH g) as Ig; rewrite Hl in Ig; cbn [agrees] in Ig;
    match goal with |- agrees (goto ?l ?x ?c h) _ => destruct (goto_cases l x c h) as [[-> ->]|[n ->]] end;
    rewrite ?last_other by exact n; try exact (IH h); cbn; rewrite ?Nat.eqb_refl; auto.
Qed.
(* when registrations are alone: who registers is the only one; the flag is set only while it writes *)
Definition reg (c : pc) : Prop := match c with Muxing _ _ _ | Doc _ _ _ | Writing _ _ _ _ => True | _ => False end.
Definition busy (c : pc) : Prop := c <> Idle.
Record calm (s : st) : Prop := { c_one : forall g h, reg (loc s g) -> busy (loc s h) -> g = h; c_flag : flag s = true -> exists g p r all d, loc s g = Writing p r all d; c_ok : fatal s = false }.
Lemma alone_tail e tr : alone (e :: tr) -> alone tr.
Proof. intros H new g x old ->. exact (H (e :: new) g x old eq_refl). Qed.
Lemma reg_registers s g : steps s -> reg (loc s g) -> registers g (tr s).
Proof. intros H R. pose proof (agrees_all s H g) as A. destruct (loc s g); cbn in *; try contradiction; unfold registers; eauto. Qed.
Lemma busy_open s g : steps s -> busy (loc s g) -> registers g (tr s) \/ gets g (tr s).
Proof. intros H R. pose proof (agrees_all s H g) as A. unfold busy in R. destruct (loc s g); cbn in *; try congruence; unfold registers; eauto. Qed.

(* registrations that are alone never stop the program *)
Lemma calm_all s : steps s -> alone (tr s) -> calm s.
Proof.
  induction 1 as [|s s' H IH Hs]; [intros _; constructor; cbn; intros; try contradiction; try discriminate; reflexivity|]. intros Al.
  assert (C : calm s) by (apply IH; destruct (step_tr _ _ Hs) as [Et|(e & Et)]; rewrite Et in Al; [exact Al|now apply alone_tail in Al]).
  destruct C as [C1 C2 C3].
  destruct Hs as [g ps d s Hf Hl|g p r all d s Hf Hl Ht|g p r all d s Hf Hl Ht|g all d s Hf Hl|g p r all d s Hf Hl Ht|g p r all d s Hf Hl Ht|g p r all d s Hf Hl|g all d s Hf Hl|g s Hf Hl|g acc p d s Hf Hl Ht Hp Ha|g acc s Hf Hl Ht|g acc s Hf Hl Ht Hp|g p s Hf Hl]; cbn [tr] in Al.
  (* a registration begins *)
  - pose proof (Al [] _ _ _ eq_refl) as A. cbn in A.
    assert (N : forall h, loc s h = Idle) by (intros h; destruct (loc s h) eqn:Eh; auto; exfalso; destruct (A h) as [A1 A2]; (destruct (busy_open s h H) as [B1|B1]; [unfold busy; congruence| |]; auto)).
    constructor; cbn; [|intros Hx; destruct (C2 Hx) as (x & ? & ? & ? & ? & E); rewrite N in E; discriminate|reflexivity].
    intros x y. destruct (goto_cases (loc s) g (Muxing ps ps d) x) as [[-> ->]|[n ->]]; [|rewrite N; contradiction]. intros _. destruct (goto_cases (loc s) g (Muxing ps ps d) y) as [[-> ->]|[n ->]]; [auto|unfold busy; rewrite N; congruence].
  (* it goes on, in the mux *)
  - constructor; cbn; [|intros Hx; destruct (C2 Hx) as (x & q & r' & a' & d' & E); exists x, q, r', a', d'; destruct (goto_cases (loc s) g (Muxing r all d) x) as [[-> _]|[_ ->]]; [congruence|exact E]|reflexivity].
    intros x y Rx Bx. apply C1; [destruct (goto_cases (loc s) g (Muxing r all d) x) as [[-> _]|[_ Q]]; [now rewrite Hl|now rewrite Q in Rx]|destruct (goto_cases (loc s) g (Muxing r all d) y) as [[-> _]|[_ Q]]; [unfold busy; congruence|now rewrite Q in Bx]].
  - constructor; cbn; [|intros Hx; destruct (C2 Hx) as (x & q & r' & a' & d' & E); exists x, q, r', a', d'; destruct (goto_cases (loc s) g Idle x) as [[-> _]|[_ ->]]; [congruence|exact E]|reflexivity].
    intros x y Rx Bx. apply C1; [destruct (goto_cases (loc s) g Idle x) as [[-> Q]|[_ Q]]; [now rewrite Hl|now rewrite Q in Rx]|destruct (goto_cases (loc s) g Idle y) as [[-> Q]|[_ Q]]; [unfold busy; congruence|now rewrite Q in Bx]].
  - constructor; cbn; [|intros Hx; destruct (C2 Hx) as (x & q & r' & a' & d' & E); exists x, q, r', a', d'; destruct (goto_cases (loc s) g (Doc all all d) x) as [[-> _]|[_ ->]]; [congruence|exact E]|reflexivity].
    intros x y Rx Bx. apply C1; [destruct (goto_cases (loc s) g (Doc all all d) x) as [[-> _]|[_ Q]]; [now rewrite Hl|now rewrite Q in Rx]|destruct (goto_cases (loc s) g (Doc all all d) y) as [[-> _]|[_ Q]]; [unfold busy; congruence|now rewrite Q in Bx]].
  (* it writes *)
  - constructor; cbn; [|intros _; exists g, p, r, all, d; apply goto_same|reflexivity].
    intros x y Rx Bx. apply C1; [destruct (goto_cases (loc s) g (Writing p r all d) x) as [[-> _]|[_ Q]]; [now rewrite Hl|now rewrite Q in Rx]|destruct (goto_cases (loc s) g (Writing p r all d) y) as [[-> _]|[_ Q]]; [unfold busy; congruence|now rewrite Q in Bx]].
  - exfalso. destruct (C2 Ht) as (x & q & r' & a' & d' & E). assert (g = x) by (apply C1; [now rewrite Hl|unfold busy; congruence]). subst. congruence.
  - constructor; cbn; [|discriminate|reflexivity].
    intros x y Rx Bx. apply C1; [destruct (goto_cases (loc s) g (Doc r all d) x) as [[-> _]|[_ Q]]; [now rewrite Hl|now rewrite Q in Rx]|destruct (goto_cases (loc s) g (Doc r all d) y) as [[-> _]|[_ Q]]; [unfold busy; congruence|now rewrite Q in Bx]].
  - constructor; cbn; [|intros Hx; destruct (C2 Hx) as (x & q & r' & a' & d' & E); exists x, q, r', a', d'; destruct (goto_cases (loc s) g Idle x) as [[-> _]|[_ ->]]; [congruence|exact E]|reflexivity].
    intros x y Rx Bx. apply C1; [destruct (goto_cases (loc s) g Idle x) as [[-> Q]|[_ Q]]; [now rewrite Hl|now rewrite Q in Rx]|destruct (goto_cases (loc s) g Idle y) as [[-> Q]|[_ Q]]; [unfold busy; congruence|now rewrite Q in Bx]].
  (* a GET begins *)
  - pose proof (Al [] _ _ _ eq_refl) as A. cbn in A.
    assert (N : forall h, ~ reg (loc s h)) by (intros h Rh; apply (A h), reg_registers; auto).
    constructor; cbn; [|intros Hx; exfalso; destruct (C2 Hx) as (x & ? & ? & ? & ? & E); apply (N x); rewrite E; exact Logic.I|reflexivity].
    intros x y Rx _. destruct (goto_cases (loc s) g (Getting []) x) as [[_ Q]|[_ Q]]; rewrite Q in Rx; [contradiction|now apply N in Rx].
  - constructor; cbn; [|congruence|reflexivity].
    intros x y Rx Bx. apply C1; [destruct (goto_cases (loc s) g (Getting (mset beqb acc p d)) x) as [[-> Q]|[_ Q]]; rewrite Q in Rx; [contradiction|exact Rx]|destruct (goto_cases (loc s) g (Getting (mset beqb acc p d)) y) as [[-> _]|[_ Q]]; [unfold busy; congruence|now rewrite Q in Bx]].
  - exfalso. destruct (C2 Ht) as (x & q & r' & a' & d' & E). assert (x = g) by (apply C1; [now rewrite E|unfold busy; congruence]). subst. congruence.
  - constructor; cbn; [|congruence|reflexivity].
    intros x y Rx Bx. apply C1; [destruct (goto_cases (loc s) g Idle x) as [[-> Q]|[_ Q]]; rewrite Q in Rx; [contradiction|exact Rx]|destruct (goto_cases (loc s) g Idle y) as [[-> Q]|[_ Q]]; [unfold busy; congruence|now rewrite Q in Bx]].
  - constructor; cbn; auto.
Qed.
(* Full statement: registrations never stop the program.  Missing: only when each has the map to itself *)
Theorem C142_partial : forall s, steps s -> alone (tr s) -> fatal s = false.
Proof. intros s H A. now apply calm_all. Qed.

Lemma more s s' : steps s -> step s s' -> steps s'.
Proof. apply st_more. Qed.
(* two goroutines that register different paths *)
Theorem C142_register_refuted : exists s, steps s /\ fatal s = true /\ forall g e, In (g, e) (tr s) -> e = ECall [B "/a"] 1 \/ e = ECall [B "/b"] 2.
Proof.
  pose proof st_start as H. unfold start in H.
  match type of H with steps ?s => pose proof (more _ _ H (s_call 1 [B "/a"] 1 s eq_refl eq_refl)) as H1 end. cbn [mux paths flag loc tr] in H1. clear H.
  match type of H1 with steps ?s => pose proof (more _ _ H1 (s_call 2 [B "/b"] 2 s eq_refl eq_refl)) as H2 end. cbn [mux paths flag loc tr] in H2. clear H1.
  match type of H2 with steps ?s => pose proof (more _ _ H2 (s_mux 1 (B "/a") [] [B "/a"] 1 s eq_refl eq_refl eq_refl)) as H3 end. cbn [mux paths flag loc tr] in H3. clear H2.
  match type of H3 with steps ?s => pose proof (more _ _ H3 (s_mux 2 (B "/b") [] [B "/b"] 2 s eq_refl eq_refl eq_refl)) as H4 end. cbn [mux paths flag loc tr] in H4. clear H3.
  match type of H4 with steps ?s => pose proof (more _ _ H4 (s_doc 1 [B "/a"] 1 s eq_refl eq_refl)) as H5 end. cbn [mux paths flag loc tr] in H5. clear H4.
  match type of H5 with steps ?s => pose proof (more _ _ H5 (s_doc 2 [B "/b"] 2 s eq_refl eq_refl)) as H6 end. cbn [mux paths flag loc tr] in H6. clear H5.
  match type of H6 with steps ?s => pose proof (more _ _ H6 (s_begin 1 (B "/a") [] [B "/a"] 1 s eq_refl eq_refl eq_refl)) as H7 end. cbn [mux paths flag loc tr] in H7. clear H6.
  match type of H7 with steps ?s => pose proof (more _ _ H7 (s_fatal 2 (B "/b") [] [B "/b"] 2 s eq_refl eq_refl eq_refl)) as H8 end. cbn [mux paths flag loc tr] in H8. clear H7.
  eexists. split; [exact H8|]. split; [reflexivity|]. cbn [tr]. intros g e [[= _ <-]|[[= _ <-]|[]]]; auto.
Qed.
(* a GET of the document while a path is registered *)
Theorem C142_get_refuted : exists s, steps s /\ fatal s = true /\ forall g e, In (g, e) (tr s) -> e = ECall [B "/a"] 1 \/ e = EGet.
Proof.
  pose proof st_start as H. unfold start in H.
  match type of H with steps ?s => pose proof (more _ _ H (s_call 1 [B "/a"] 1 s eq_refl eq_refl)) as H1 end. cbn [mux paths flag loc tr] in H1. clear H.
  match type of H1 with steps ?s => pose proof (more _ _ H1 (s_mux 1 (B "/a") [] [B "/a"] 1 s eq_refl eq_refl eq_refl)) as H3 end. cbn [mux paths flag loc tr] in H3. clear H1.
  match type of H3 with steps ?s => pose proof (more _ _ H3 (s_doc 1 [B "/a"] 1 s eq_refl eq_refl)) as H5 end. cbn [mux paths flag loc tr] in H5. clear H3.
  match type of H5 with steps ?s => pose proof (more _ _ H5 (s_begin 1 (B "/a") [] [B "/a"] 1 s eq_refl eq_refl eq_refl)) as H7 end. cbn [mux paths flag loc tr] in H7. clear H5.
  match type of H7 with steps ?s => pose proof (more _ _ H7 (g_call 2 s eq_refl eq_refl)) as H8 end. cbn [mux paths flag loc tr] in H8. clear H7.
  match type of H8 with steps ?s => pose proof (more _ _ H8 (g_fatal 2 [] s eq_refl eq_refl eq_refl)) as H9 end. cbn [mux paths flag loc tr] in H9. clear H8.
  eexists. split; [exact H9|]. split; [reflexivity|]. cbn [tr]. intros g e [[= _ <-]|[[= _ <-]|[]]]; auto.
Qed.
(* one registration, then a GET, a request and a registration that panics: the hypotheses of the theorems above *)
Example C142_ex : exists s, steps s /\ alone (tr s) /\
  tr s = [(1, EPanic); (1, ECall [B "/a"] 2); (3, EReq (B "/a") (Some 1)); (2, EDoc [(B "/a", 1)]); (2, EGet); (1, ERet [B "/a"] 1); (1, ECall [B "/a"] 1)].
Proof.
  pose proof st_start as H. unfold start in H.
  match type of H with steps ?s => pose proof (more _ _ H (s_call 1 [B "/a"] 1 s eq_refl eq_refl)) as H1 end. cbn [mux paths flag loc tr] in H1. clear H.
  match type of H1 with steps ?s => pose proof (more _ _ H1 (s_mux 1 (B "/a") [] [B "/a"] 1 s eq_refl eq_refl eq_refl)) as H3 end. cbn [mux paths flag loc tr] in H3. clear H1.
  match type of H3 with steps ?s => pose proof (more _ _ H3 (s_doc 1 [B "/a"] 1 s eq_refl eq_refl)) as H5 end. cbn [mux paths flag loc tr] in H5. clear H3.
  match type of H5 with steps ?s => pose proof (more _ _ H5 (s_begin 1 (B "/a") [] [B "/a"] 1 s eq_refl eq_refl eq_refl)) as H7 end. cbn [mux paths flag loc tr] in H7. clear H5.
  match type of H7 with steps ?s => pose proof (more _ _ H7 (s_end 1 (B "/a") [] [B "/a"] 1 s eq_refl eq_refl)) as H8 end. cbn [mux paths flag loc tr] in H8. clear H7.
  match type of H8 with steps ?s => pose proof (more _ _ H8 (s_ret 1 [B "/a"] 1 s eq_refl eq_refl)) as H9 end. cbn [mux paths flag loc tr] in H9. clear H8.
  match type of H9 with steps ?s => pose proof (more _ _ H9 (g_call 2 s eq_refl eq_refl)) as Ha end. cbn [mux paths flag loc tr] in Ha. clear H9.
  match type of Ha with steps ?s => pose proof (more _ _ Ha (g_visit 2 [] (B "/a") 1 s eq_refl eq_refl eq_refl eq_refl eq_refl)) as Hb end. cbn [mux paths flag loc tr] in Hb. clear Ha.
  assert (Q : forall p d, mget beqb (mset beqb [] (B "/a") 1) p = Some d -> mget beqb [(B "/a", 1)] p <> None) by (intros p d E; cbn [mset] in E; congruence).
  match type of Hb with steps ?s => pose proof (more _ _ Hb (RgModel.g_ret 2 [(B "/a", 1)] s eq_refl eq_refl eq_refl Q)) as Hc end. cbn [mux paths flag loc tr] in Hc. clear Hb.
  match type of Hc with steps ?s => pose proof (more _ _ Hc (r_req 3 (B "/a") s eq_refl eq_refl)) as Hd end. cbn [mux paths flag loc tr] in Hd. clear Hc.
  match type of Hd with steps ?s => pose proof (more _ _ Hd (s_call 1 [B "/a"] 2 s eq_refl eq_refl)) as He end. cbn [mux paths flag loc tr] in He. clear Hd.
  match type of He with steps ?s => pose proof (more _ _ He (s_panic 1 (B "/a") [] [B "/a"] 2 s eq_refl eq_refl eq_refl)) as Hf end. cbn [mux paths flag loc tr] in Hf. clear He.
  eexists. split; [exact Hf|]. cbn [tr]. split; [|reflexivity].
  intros new g e old E.
  repeat (destruct new as [|? new]; [injection E as <- <- <-; try exact Logic.I; intros h; unfold registers, gets; cbn [last Nat.eqb];
    repeat match goal with |- context [Nat.eqb ?x h] => destruct (Nat.eqb x h) | |- context [match h with _ => _ end] => destruct h as [|h] end; repeat split; intros X; try destruct X as (? & ? & X); discriminate|injection E as _ E]).
  destruct new; discriminate.
Qed.
Print Assumptions C142_document.
Print Assumptions C142_served.
Print Assumptions C142_partial.
Print Assumptions C142_register_refuted.
Print Assumptions C142_get_refuted.
