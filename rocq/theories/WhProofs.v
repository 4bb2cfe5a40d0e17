(* Invariants of websocket connections over the machine of shutdown. *)
From Coq Require Import Bool Arith ZArith Lia List.
From Verif Require Import Prelude ReqModel ShutModel ShutSpec ShutProofs WhModel WhSpec.
From Verif Require LsModel LsProofs.
Import ListNotations.
Notation hid := LsModel.hid.
Notation rid := LsModel.rid.
Notation other := LsModel.other.
Notation outside := LsModel.outside.
Notation kept := LsProofs.kept.
Ltac ok_inj H := match type of H with Ok ?a = Ok ?b => let E := fresh in assert (E : b = a) by congruence; clear H; subst b end.

Opaque LsModel.other.
(* the processes of the connections only hold and release *)
Definition calm (p : pc) : Prop := match p with PIdle | PHeld | PRel _ | PEnd => True | _ => False end.
Definition quiet (t : st) : Prop := forall r, other r = false -> calm (pcs t r).
Lemma quiet_outside s l s' : quiet s -> outside l = true -> step s l = Ok s' -> quiet s'.
Proof.
  intros Q Ho H r Hr. specialize (Q r Hr).
  destruct l; cbn [LsModel.outside] in Ho; try (apply andb_true_iff in Ho; destruct Ho as [Ho Ho2]);
    inv_step H;
    repeat match goal with X : other ?q = true |- _ => pose proof (LsProofs.other_ne r q Hr X); clear X end;
    unfold fset in *; repeat match goal with |- context [Nat.eqb ?a ?b] => destruct (Nat.eqb_spec a b) end; try congruence; try exact Q; try exact Logic.I.
Qed.
Lemma quiet_hold s h s' : quiet s -> step s (LHold h false) = Ok s' -> quiet s'.
Proof.
  intros Q H r Hr. specialize (Q r Hr). inv_step H; unfold fset in *; destruct (Nat.eqb r h); cbn; auto.
Qed.
Lemma quiet_release s q h s' : quiet s -> step s (LRelease q h) = Ok s' -> quiet s'.
Proof.
  intros Q H r Hr. specialize (Q r Hr). inv_step H; unfold fset in *; destruct (Nat.eqb r q); cbn; auto.
Qed.

Definition vinv (t : st) (i : nat) (o : option conn) : Prop :=
  match o with
  | None => pcs t (hid i) = PIdle /\ pcs t (rid i) = PIdle /\ ~ In (EHold (hid i)) (log t) /\ ~ In (ERelease (hid i)) (log t)
  | Some v =>
      match c_go v with
      | CStart => pcs t (hid i) = PIdle /\ pcs t (rid i) = PIdle /\ ~ In (EHold (hid i)) (log t) /\ ~ In (ERelease (hid i)) (log t)
      | CHeld | CWait | CData | CEnd =>
          pcs t (hid i) = PHeld /\ pcs t (rid i) = PIdle /\ In (EHold (hid i)) (log t) /\ ~ In (ERelease (hid i)) (log t)
      | COver => In (EHold (hid i)) (log t) /\ In (ERelease (hid i)) (log t)
      end /\
      match c_go v with CWait | CData => c_rd v <> RNone | _ => True end
  end.
Definition winv (s : wst) : Prop := quiet (sh s) /\ forall i, vinv (sh s) i (conns s i).
Lemma winv_init w : winv (winit w).
Proof. split; [intros r _; exact Logic.I|]. intros i. cbn. auto. Qed.
Lemma vinv_kept t t' i o : vinv t i o -> kept t t' (hid i) -> kept t t' (rid i) -> vinv t' i o.
Proof.
  intros Hv (K1 & K2 & K3) (K4 & _ & _). destruct o as [v|]; cbn [vinv] in *.
  - destruct Hv as (A & B). split; [|exact B]. clear B.
    destruct (c_go v); rewrite ?K2, ?K3; try tauto; destruct K1 as [K1|(w & K1)], K4 as [K4|(w' & K4)]; destruct A as (A1 & A2 & A3);
      try congruence; rewrite ?K1, ?K4; tauto.
  - rewrite K2, K3. destruct Hv as (A1 & A2 & A3). destruct K1 as [K1|(w & K1)], K4 as [K4|(w' & K4)]; try congruence; rewrite ?K1, ?K4; tauto.
Qed.
Lemma set_inv s i v t : winv s -> quiet t -> (forall j, j <> i -> kept (sh s) t (hid j) /\ kept (sh s) t (rid j)) ->
  vinv t i (Some v) -> winv (set_conn (Wst t (conns s) (cut s) (wired s)) i v).
Proof.
  intros [_ Hp] Q Hk Hv. split; [exact Q|]. intros j. cbn [sh conns set_conn]. unfold fset. destruct (Nat.eqb_spec j i) as [->|Hj]; [exact Hv|].
  destruct (Hk j Hj). eapply vinv_kept; eauto.
Qed.
Lemma set_inv0 s i v : winv s -> vinv (sh s) i (Some v) -> winv (set_conn s i v).
Proof. intros Hp Hv. change (set_conn s i v) with (set_conn (Wst (sh s) (conns s) (cut s) (wired s)) i v). apply set_inv; auto using LsProofs.kept_refl. apply Hp. Qed.
Lemma vinv_cstep t d i v l : vinv t i (Some v) -> vinv t i (Some (cstep d v l)).
Proof.
  intros N. pose proof N as (A & B). destruct l; cbn [cstep].
  - destruct (c_left v); exact N.
  - exact N.
  - destruct (c_go v) eqn:G, o; try exact N; (split; cbn; [exact A|first [discriminate|exact Logic.I]]).
  - destruct (c_rd v) eqn:R; try exact N. destruct (shut v); [|destruct (c_buf v) as [|[] b]; [destruct (c_left v)| |]]; try exact N;
      (split; cbn; [exact A|destruct (c_go v); first [discriminate|exact Logic.I]]).
  - destruct (c_go v) eqn:G, (c_rd v) eqn:R; try exact N; (split; cbn; [exact A|discriminate]).
  - destruct (c_rd v) eqn:R, d; try exact N; (split; cbn; [exact A|destruct (c_go v); first [discriminate|exact Logic.I]]).
  - destruct (c_go v) eqn:G; try exact N. destruct o; (split; cbn; [exact A|first [exact B|exact Logic.I]]).
  - destruct (c_go v) eqn:G, d; try exact N; (split; cbn; [exact A|exact Logic.I]).
  - destruct (c_go v) eqn:G, (c_rd v) eqn:R; try exact N; (split; cbn; [exact A|exact Logic.I]).
Qed.
Lemma winv_step s l s' : winv s -> wstep s l = Ok s' -> winv s'.
Proof.
  intros Hp H. unfold wstep in H. destruct (exited (sh s)) eqn:He; [ok_inj H; exact Hp|]. pose proof Hp as [Q Hv0].
  destruct l as [l| |i|i|i|i l].
  - destruct (outside l) eqn:Ho; [|ok_inj H; exact Hp]. destruct (step (sh s) l) as [t|] eqn:E; cbn in H; [|discriminate]. ok_inj H.
    split; [cbn; exact (quiet_outside _ _ _ Q Ho E)|].
    intros i. cbn. eapply vinv_kept; [apply Hv0| |]; eapply LsProofs.outside_kept; eauto using LsProofs.other_hid, LsProofs.other_rid.
  - ok_inj H. exact Hp.
  - destruct (conns s i) as [v|] eqn:E; ok_inj H; [exact Hp|]. apply set_inv0; [exact Hp|]. specialize (Hv0 i). rewrite E in Hv0. cbn in *. tauto.
  - destruct (conns s i) as [v|] eqn:E; [|ok_inj H; exact Hp]. pose proof (Hv0 i) as Hv. rewrite E in Hv. cbn [vinv] in Hv.
    destruct (c_go v) eqn:G; try (ok_inj H; exact Hp).
    destruct (step (sh s) (LHold (hid i) false)) as [t|] eqn:Es; cbn [rbind] in H; [|discriminate]. ok_inj H.
    destruct Hv as ((A1 & A2 & A3 & A4) & B). destruct (LsProofs.hold_step _ _ _ He A1 Es) as (C1 & C2 & C3 & C4 & C5 & C6).
    apply set_inv; [exact Hp|exact (quiet_hold _ _ _ Q Es)| |].
    + intros j Hj. split; apply C6; [intros X; apply LsProofs.hid_inj in X; contradiction|intros X; symmetry in X; now apply LsProofs.hid_rid in X].
    + cbn [vinv go_to c_go]. rewrite C3. destruct (C6 (rid i)) as ([K|(w & K)] & _); [intros X; symmetry in X; now apply LsProofs.hid_rid in X| |congruence].
      rewrite K. tauto.
  - destruct (conns s i) as [v|] eqn:E; [|ok_inj H; exact Hp]. pose proof (Hv0 i) as Hv. rewrite E in Hv. cbn [vinv] in Hv.
    destruct (c_go v) eqn:G; try (ok_inj H; exact Hp).
    destruct (step (sh s) (LRelease (rid i) (hid i))) as [t|] eqn:Es; cbn [rbind] in H; [|discriminate]. ok_inj H.
    destruct Hv as ((A1 & A2 & A3 & A4) & B). destruct (LsProofs.release_step _ _ _ _ He A2 A1 Es) as (C1 & C2 & C3 & C4 & C5).
    apply set_inv; [exact Hp|exact (quiet_release _ _ _ _ Q Es)| |].
    + intros j Hj. split; apply C5; try (apply LsProofs.hid_rid); try (intros X; apply LsProofs.hid_inj in X; contradiction); try (intros X; apply LsProofs.rid_inj in X; contradiction).
      intros X. symmetry in X. now apply LsProofs.hid_rid in X.
    + cbn [vinv go_to c_go]. tauto.
  - destruct (conns s i) as [v|] eqn:E; ok_inj H; [|exact Hp]. apply set_inv0; [exact Hp|]. apply vinv_cstep. rewrite <- E. apply Hv0.
Qed.
Lemma winv_exec ls : forall s s', winv s -> wexec s ls = Ok s' -> winv s'.
Proof.
  induction ls as [|l ls IH]; intros s s' Hp H; cbn in H; [ok_inj H; exact Hp|].
  destruct (wstep s l) as [s1|] eqn:E; cbn in H; [|discriminate]. eapply IH; [|exact H]. eapply winv_step; eauto.
Qed.
Lemma winv_run w ls s : wexec (winit w) ls = Ok s -> winv s.
Proof. intros H. eapply winv_exec; [apply winv_init|exact H]. Qed.
(* the machine of shutdown in a run of the program *)
Lemma sh_step s l s' : wstep s l = Ok s' -> sh s' = sh s \/ exists l', step (sh s) l' = Ok (sh s').
Proof.
  unfold wstep. destruct (exited (sh s)); [intros H; ok_inj H; auto|].
  destruct l as [l| |i|i|i|i l]; try (destruct (conns s i) as [v|]; [|intros H; ok_inj H; auto]).
  - destruct (outside l); [|intros H; ok_inj H; auto]. destruct (step (sh s) l) eqn:E; cbn; intros H; [|discriminate]. ok_inj H. right. eauto.
  - intros H. ok_inj H. auto.
  - intros H. ok_inj H. auto.
  - destruct (c_go v); try (intros H; ok_inj H; auto; fail). destruct (step (sh s) (LHold (hid i) false)) eqn:E; cbn [rbind]; intros H; [|discriminate].
    ok_inj H. right. eauto.
  - destruct (c_go v); try (intros H; ok_inj H; auto; fail). destruct (step (sh s) (LRelease (rid i) (hid i))) eqn:E; cbn [rbind]; intros H; [|discriminate].
    ok_inj H. right. eauto.
  - intros H. ok_inj H. auto.
Qed.
Lemma sh_exec ls : forall s s', wexec s ls = Ok s' -> exists ls', exec (sh s) ls' = Ok (sh s').
Proof.
  induction ls as [|l ls IH]; intros s s' H; cbn in H; [exists []; cbn; congruence|].
  destruct (wstep s l) as [s1|] eqn:E; cbn in H; [|discriminate]. destruct (IH _ _ H) as (ls' & E').
  destruct (sh_step _ _ _ E) as [Eq|(l' & El)]; [exists ls'; congruence|]. exists (l' :: ls'). cbn. rewrite El. exact E'.
Qed.
Lemma sh_run w ls s : wexec (winit w) ls = Ok s -> exists ls', exec init ls' = Ok (sh s).
Proof. intros H. exact (sh_exec _ _ _ H). Qed.
Lemma wexec_app a : forall b s, wexec s (a ++ b) = rbind (wexec s a) (fun s1 => wexec s1 b).
Proof. induction a as [|l a IH]; intros b s; cbn; [reflexivity|]. destruct (wstep s l); cbn; auto. Qed.
(* what becomes of a connection in a step *)
Lemma next_step s l s' i v : wstep s l = Ok s' -> conns s i = Some v ->
  exists v', conns s' i = Some v' /\
    (v' = v \/ (exists k, l = K i k /\ v' = cstep (done s) v k) \/ (l = KHold i /\ c_go v = CStart /\ v' = go_to v CHeld) \/
     (l = KRel i /\ c_go v = CEnd /\ v' = go_to v COver)).
Proof.
  unfold wstep. intros H E. destruct (exited (sh s)); [ok_inj H; eauto|].
  destruct l as [l| |j|j|j|j l].
  - destruct (outside l); [|ok_inj H; eauto]. destruct (step (sh s) l); cbn in H; [|discriminate]. ok_inj H. eauto.
  - ok_inj H. eauto.
  - destruct (conns s j) as [w|] eqn:Ej; ok_inj H; [eauto|]. exists v. split; [|auto]. cbn. rewrite fset_ne by congruence. exact E.
  - destruct (conns s j) as [w|] eqn:Ej; [|ok_inj H; eauto]. destruct (c_go w) eqn:G; try (ok_inj H; eauto; fail).
    destruct (step (sh s) (LHold (hid j) false)); cbn [rbind] in H; [|discriminate]. ok_inj H. cbn. unfold fset. destruct (Nat.eqb_spec i j) as [->|Hn]; [|eauto].
    rewrite E in Ej. injection Ej as <-. eauto 10.
  - destruct (conns s j) as [w|] eqn:Ej; [|ok_inj H; eauto]. destruct (c_go w) eqn:G; try (ok_inj H; eauto; fail).
    destruct (step (sh s) (LRelease (rid j) (hid j))); cbn [rbind] in H; [|discriminate]. ok_inj H. cbn. unfold fset. destruct (Nat.eqb_spec i j) as [->|Hn]; [|eauto].
    rewrite E in Ej. injection Ej as <-. eauto 10.
  - destruct (conns s j) as [w|] eqn:Ej; ok_inj H; [|eauto]. cbn. unfold fset. destruct (Nat.eqb_spec i j) as [->|Hn]; [|eauto].
    rewrite E in Ej. injection Ej as <-. eexists. split; [reflexivity|]. right. left. eauto.
Qed.
(* once done, the context stays so *)
Lemma wired_step s l s' : wstep s l = Ok s' -> wired s' = wired s /\ (cut s = true -> cut s' = true).
Proof.
  unfold wstep. intros H. destruct (exited (sh s)); [ok_inj H; auto|].
  destruct l as [l| |i|i|i|i l]; try (destruct (conns s i) as [v|]; [|ok_inj H; auto]); try (ok_inj H; auto; fail).
  - destruct (outside l); [|ok_inj H; auto]. destruct (step (sh s) l); cbn in H; [|discriminate]. ok_inj H. auto.
  - destruct (c_go v); try (ok_inj H; auto; fail). destruct (step (sh s) _); cbn [rbind] in H; [|discriminate]. ok_inj H. auto.
  - destruct (c_go v); try (ok_inj H; auto; fail). destruct (step (sh s) _); cbn [rbind] in H; [|discriminate]. ok_inj H. auto.
Qed.
Lemma done_step s l s' : wstep s l = Ok s' -> done s = true -> done s' = true.
Proof.
  intros H D. destruct (wired_step _ _ _ H) as [W C]. unfold done in *. rewrite W. apply orb_true_iff in D. apply orb_true_iff.
  destruct D as [D|D]; [left; auto|right]. apply andb_true_iff in D. destruct D as [D1 D2]. rewrite D1. cbn [andb]. unfold sig_cancelled in *.
  apply existsb_exists in D2. destruct D2 as (e & I1 & E). apply existsb_exists. exists e. split; [|exact E].
  destruct (sh_step _ _ _ H) as [->|(l' & El)]; [exact I1|]. assert (X : exec (sh s) [l'] = Ok (sh s')) by (cbn; rewrite El; reflexivity).
  destruct (log_exec _ _ _ X) as (ev & ->). apply in_app_iff. right. exact I1.
Qed.
Lemma done_exec ls : forall s s', wexec s ls = Ok s' -> done s = true -> done s' = true.
Proof.
  induction ls as [|l ls IH]; intros s s' H D; cbn in H; [ok_inj H; exact D|]. destruct (wstep s l) as [s1|] eqn:E; cbn in H; [|discriminate].
  eapply IH; [exact H|]. eapply done_step; eauto.
Qed.
(* a client that does nothing *)
Lemma idle_exec i ls : forall s s', wexec s ls = Ok s' -> silent i ls -> done s' = false -> idle_client s i -> idle_client s' i.
Proof.
  induction ls as [|l ls IH]; intros s s' H Hs D Hi; cbn in H; [ok_inj H; exact Hi|]. destruct (wstep s l) as [s1|] eqn:E; cbn in H; [|discriminate].
  apply (IH s1 s' H); [intros k I1; apply Hs; right; exact I1|exact D|]. destruct Hi as (v & Ev & G & R & Bf & L).
  assert (D0 : done s = false) by (destruct (done s) eqn:Q; [|reflexivity]; rewrite <- D; symmetry; eapply done_exec; [exact H|]; eapply done_step; eauto).
  destruct (next_step _ _ _ _ _ E Ev) as (v' & Ev' & C). exists v'. split; [exact Ev'|].
  destruct C as [->|[(k & -> & ->)|[(-> & X & _)|(-> & X & _)]]]; [auto| |congruence|congruence].
  specialize (Hs k (or_introl eq_refl)). rewrite D0.
  destruct k; try contradiction; cbn [cstep]; unfold shut; rewrite ?G, ?R, ?Bf, ?L; auto.
Qed.
(* the order in which a connection whose client has left ends *)
Definition rank (v : conn) : nat :=
  match c_go v with CStart => 4 | CHeld => 3 | CData => 3 | CWait => 2 | CEnd => 1 | COver => 0 end +
  match c_rd v with RNone => 1 | RRead => 1 | RGot => 3 | ROver => 0 end + 4 * length (c_buf v).
Lemma rank_cstep d v k : c_left v = true -> (c_go v = CHeld -> c_rd v = RNone) -> c_left (cstep d v k) = true /\
  (cstep d v k = v \/ rank (cstep d v k) < rank v).
Proof.
  intros L N. unfold rank. destruct v as [g r b lf]. cbn [c_left c_go c_rd] in *. subst lf.
  assert (Q : g <> CHeld \/ r = RNone) by (destruct g; try (left; discriminate); right; auto). clear N.
  destruct k; cbn [cstep c_left c_go c_rd c_buf go_to rd_to shut].
  - split; [reflexivity|left; reflexivity].
  - split; [reflexivity|left; reflexivity].
  - destruct g, o; split; try reflexivity; try (left; reflexivity); right; destruct Q as [Q|Q]; try congruence; rewrite ?Q; cbn; lia.
  - destruct r; try (split; [reflexivity|left; reflexivity]). destruct (shut _); [split; [reflexivity|right; cbn; lia]|].
    destruct b as [|[] b]; (split; [reflexivity|right; cbn; lia]).
  - destruct g; try (split; [reflexivity|left; reflexivity]). destruct r; (split; [reflexivity|first [left; reflexivity|right; cbn; lia]]).
  - destruct r, d; (split; [reflexivity|first [left; reflexivity|right; cbn; lia]]).
  - destruct g, o; (split; [reflexivity|first [left; reflexivity|right; cbn; lia]]).
  - destruct g, d; (split; [reflexivity|first [left; reflexivity|right; cbn; lia]]).
  - destruct g; try (split; [reflexivity|left; reflexivity]). destruct r; (split; [reflexivity|first [left; reflexivity|right; cbn; lia]]).
Qed.
Definition calm_start (v : conn) : Prop := match c_go v with CStart | CHeld => c_rd v = RNone | _ => True end.
Lemma start_step s l s' : (forall i v, conns s i = Some v -> calm_start v) -> wstep s l = Ok s' -> forall i v, conns s' i = Some v -> calm_start v.
Proof.
  intros C H i v Ev. destruct (conns s i) as [v0|] eqn:E0.
  - destruct (next_step _ _ _ _ _ H E0) as (v' & Ev' & D). assert (v' = v) by congruence. subst v'. specialize (C i v0 E0). unfold calm_start in *.
    destruct D as [->|[(k & -> & ->)|[(-> & G & ->)|(-> & G & ->)]]]; [exact C| | |].
    + destruct v0 as [g r b lf]. cbn [c_go c_rd] in C. clear - C. destruct g, r; try discriminate C; destruct k as [| |o| | | |o| |], (done s), lf, b as [|[] b]; try destruct o; cbn; try exact Logic.I; reflexivity.
    + cbn. rewrite G in C. exact C.
    + exact Logic.I.
  - unfold wstep in H. destruct (exited (sh s)); [ok_inj H; congruence|]. destruct l as [l| |j|j|j|j l].
    + destruct (outside l); [|ok_inj H; congruence]. destruct (step (sh s) l); cbn in H; [|discriminate]. ok_inj H. cbn in Ev. congruence.
    + ok_inj H. cbn in Ev. congruence.
    + destruct (conns s j) eqn:Ej; ok_inj H; [congruence|]. cbn in Ev. unfold fset in Ev. destruct (Nat.eqb i j); [|congruence].
      injection Ev as <-. reflexivity.
    + destruct (conns s j) as [w|] eqn:Ej; [|ok_inj H; congruence]. destruct (c_go w); try (ok_inj H; congruence).
      destruct (step (sh s) _); cbn [rbind] in H; [|discriminate]. ok_inj H. cbn in Ev. unfold fset in Ev. destruct (Nat.eqb_spec i j); congruence.
    + destruct (conns s j) as [w|] eqn:Ej; [|ok_inj H; congruence]. destruct (c_go w); try (ok_inj H; congruence).
      destruct (step (sh s) _); cbn [rbind] in H; [|discriminate]. ok_inj H. cbn in Ev. unfold fset in Ev. destruct (Nat.eqb_spec i j); congruence.
    + destruct (conns s j) as [w|] eqn:Ej; ok_inj H; [|congruence]. cbn in Ev. unfold fset in Ev. destruct (Nat.eqb_spec i j); congruence.
Qed.
Lemma start_exec ls : forall s s', (forall i v, conns s i = Some v -> calm_start v) -> wexec s ls = Ok s' -> forall i v, conns s' i = Some v -> calm_start v.
Proof.
  induction ls as [|l ls IH]; intros s s' C H; cbn in H; [ok_inj H; exact C|]. destruct (wstep s l) as [s1|] eqn:E; cbn in H; [|discriminate].
  apply (IH s1 s'); [exact (start_step _ _ _ C E)|exact H].
Qed.
Lemma start_run w ls s : wexec (winit w) ls = Ok s -> forall i v, conns s i = Some v -> calm_start v.
Proof. intros H. apply (start_exec ls (winit w)); [|exact H]. intros i v E. discriminate E. Qed.
