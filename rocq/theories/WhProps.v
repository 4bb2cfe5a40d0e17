(* C134: websocket connections and the shutdown. *)
From Coq Require Import Bool Arith ZArith Lia List.
From Verif Require Import Prelude ReqModel ShutModel ShutSpec ShutProofs WhModel WhSpec WhProofs.
From Verif Require LsModel LsProofs.
Import ListNotations.

(* C134 as stated: once the shutdown has begun, every connection can end without its client.  It does not: a client that says nothing
   stays connected, unless the context is cancelled. *)
Theorem C134_idle : forall w ls s i, wexec (winit w) ls = Ok s -> idle_client s i ->
  forall ls' s', wexec s ls' = Ok s' -> silent i ls' -> ~ cancelled s' ->
  idle_client s' i /\
  forall d, ~ In (EDone d) (log (sh s)) -> released_once (log (sh s')) -> ~ In (EDoneClosed d) (log (sh s')).
Proof.
  intros w ls s i H Hi ls' s' H' Hs Hc. assert (D : done s' = false) by (destruct (done s') eqn:E; [destruct (Hc E)|reflexivity]).
  pose proof (idle_exec i ls' s s' H' Hs D Hi) as Hi'. split; [exact Hi'|]. intros d Hd Ho Hcl.
  assert (HH : wexec (winit w) (ls ++ ls') = Ok s') by (rewrite wexec_app, H; exact H').
  destruct (winv_run _ _ _ H) as [_ I1]. destruct (winv_run _ _ _ HH) as [_ I2]. specialize (I1 i). specialize (I2 i).
  destruct Hi as (v & Ev & G & _). destruct Hi' as (v' & Ev' & G' & _). rewrite Ev in I1. rewrite Ev' in I2. cbn [vinv] in I1, I2. rewrite G in I1. rewrite G' in I2.
  destruct (sh_run _ _ _ HH) as (l0 & E0). destruct (sh_exec _ _ _ H') as (l2 & E2). destruct (log_exec _ _ _ E2) as (ev & El).
  apply in_split in Hcl as (x & y & Ec). destruct (done_waits _ _ _ _ _ E0 Ho Ec) as (p & q & Ey & Hq & _).
  assert (Hin : In (EDone d) (ev ++ log (sh s))).
  { rewrite <- El, Ec, Ey. apply in_or_app. right. right. apply in_or_app. right. exact Hq. }
  apply in_app_or in Hin as [Hin|Hin]; [|contradiction]. apply in_split in Hin as (a & b & Ea).
  apply (done_blocked _ _ a d (b ++ log (sh s)) (LsModel.hid i) E0 Ho).
  - rewrite El, Ea, <- app_assoc. reflexivity.
  - apply in_or_app. right. tauto.
  - tauto.
  - rewrite Ec. apply in_or_app. right. left. reflexivity.
Qed.
Print Assumptions C134_idle.
(* a program with a client that is connected and silent when the shutdown begins *)
Definition beginning : list wlabel :=
  [KUp 0; KHold 0; K 0 (KConnect Fine); K 0 (KSend true); K 0 KRead; K 0 KGive; K 0 (KData Fine); Sh (LBegin 2); Sh (LBeginStep 2); Sh (LBeginStep 2);
   Sh (LBeginStep 2); Sh (LBeginStep 2)].
Example C134_idle_ex : exists s, wexec (winit true) beginning = Ok s /\ begun s /\ idle_client s 0 /\ ~ cancelled s.
Proof. eexists. split; [vm_compute; reflexivity|]. split; [reflexivity|]. split; [eexists; cbn; auto 6|discriminate]. Qed.
Theorem C134_refuted : ~ (forall w ls s i, wexec (winit w) ls = Ok s -> begun s -> open s i ->
  exists ls' s', wexec s ls' = Ok s' /\ silent i ls' /\ ~ cancelled s' /\ over s' i).
Proof.
  intros P. destruct C134_idle_ex as (s & H & Hb & Hi & _).
  assert (Ho : open s 0) by (destruct Hi as (v & E & G & _); exists v; rewrite G; repeat split; [exact E|discriminate|discriminate]).
  destruct (P true beginning s 0 H Hb Ho) as (ls' & s' & H' & Hs & Hc & (v' & E' & G')).
  destruct (C134_idle true beginning s 0 H Hi ls' s' H' Hs Hc) as ((v2 & E2 & G2 & _) & _). congruence.
Qed.
Print Assumptions C134_refuted.

(* What holds.  A connection holds the shutdown from its start to its end. *)
Theorem C134_holds_partial : forall w ls s i, wexec (winit w) ls = Ok s ->
  (open s i <-> In (EHold (LsModel.hid i)) (log (sh s)) /\ ~ In (ERelease (LsModel.hid i)) (log (sh s))) /\
  (over s i <-> In (ERelease (LsModel.hid i)) (log (sh s))).
Proof.
  intros w ls s i H. destruct (winv_run _ _ _ H) as [_ I1]. specialize (I1 i). unfold open, over. destruct (conns s i) as [v|] eqn:E; cbn [vinv] in I1.
  - destruct I1 as [A _]. split; split.
    + intros (v' & E' & N1 & N2). assert (v' = v) by congruence. subst v'. destruct (c_go v); try congruence; tauto.
    + intros [P Q]. exists v. split; [reflexivity|]. split; intros G; rewrite G in A; tauto.
    + intros (v' & E' & G). assert (v' = v) by congruence. subst v'. rewrite G in A. tauto.
    + intros P. exists v. split; [reflexivity|]. destruct (c_go v); tauto.
  - split; split; try (intros (v & E' & _); discriminate E'); tauto.
Qed.
Print Assumptions C134_holds_partial.
(* When a channel from Done, asked for while the connection was open, is closed, the handler of the connection has ended. *)
Theorem C134_waits : forall w ls s i d, wexec (winit w) ls = Ok s -> open s i ->
  forall ls' s', wexec s ls' = Ok s' -> ~ In (EDone d) (log (sh s)) -> released_once (log (sh s')) -> In (EDoneClosed d) (log (sh s')) -> over s' i.
Proof.
  intros w ls s i d H Hi ls' s' H' Hd Ho Hcl.
  assert (HH : wexec (winit w) (ls ++ ls') = Ok s') by (rewrite wexec_app, H; exact H').
  apply (C134_holds_partial _ _ _ i H) in Hi. destruct Hi as [P _]. apply (C134_holds_partial _ _ _ i HH).
  destruct (sh_run _ _ _ HH) as (l0 & E0). destruct (sh_exec _ _ _ H') as (l2 & E2). destruct (log_exec _ _ _ E2) as (ev & El).
  destruct (in_dec Nat.eq_dec (LsModel.hid i) (releases (log (sh s')))) as [Hx|Hx]; [apply in_releases; exact Hx|]. exfalso.
  apply in_split in Hcl as (x & y & Ec). destruct (done_waits _ _ _ _ _ E0 Ho Ec) as (p & q & Ey & Hq & _).
  assert (Hin : In (EDone d) (ev ++ log (sh s))).
  { rewrite <- El, Ec, Ey. apply in_or_app. right. right. apply in_or_app. right. exact Hq. }
  apply in_app_or in Hin as [Hin|Hin]; [|contradiction]. apply in_split in Hin as (a & b & Ea).
  apply (done_blocked _ _ a d (b ++ log (sh s)) (LsModel.hid i) E0 Ho).
  - rewrite El, Ea, <- app_assoc. reflexivity.
  - apply in_or_app. right. exact P.
  - intros Q. apply Hx, in_releases, Q.
  - rewrite Ec. apply in_or_app. right. left. reflexivity.
Qed.
Print Assumptions C134_waits.

(* one step of a connection *)
Lemma k_step s i v k : exited (sh s) = false -> conns s i = Some v -> wstep s (K i k) = Ok (set_conn s i (cstep (done s) v k)).
Proof. intros He E. unfold wstep. rewrite He, E. reflexivity. Qed.
Lemma rel_step s i v l0 : exec init l0 = Ok (sh s) -> winv s -> exited (sh s) = false -> released_once (log (sh s)) -> conns s i = Some v -> c_go v = CEnd ->
  exists t, wstep s (KRel i) = Ok (set_conn (Wst t (conns s) (cut s) (wired s)) i (go_to v COver)) /\ step (sh s) (LRelease (LsModel.rid i) (LsModel.hid i)) = Ok t /\
    log t = ERelease (LsModel.hid i) :: log (sh s) /\ exited t = false /\ released_once (log t).
Proof.
  intros E0 [_ I1] He Ho E G. specialize (I1 i). rewrite E in I1. cbn [vinv] in I1. rewrite G in I1. destruct I1 as [(A1 & A2 & A3 & A4) _].
  destruct (first_release _ _ (LsModel.rid i) (LsModel.hid i) E0 Ho A4) as (t & Et & Ht & _). exists t. split; [|split; [exact Et|]].
  - unfold wstep. rewrite He, E, G. rewrite Et. reflexivity.
  - clear - Et He A1 A2 Ht. unfold step in Et. rewrite He, A1, A2 in Et. cbv zeta in Et. destruct (cnt (sh s) - 1 <? 0)%Z; [discriminate Et|].
    match type of Et with Ok ?a = Ok ?b => assert (X : b = a) by congruence end. split; [|split; [|exact Ht]]; rewrite X; [reflexivity|exact He].
Qed.
(* the next step of a connection that is to end *)
Lemma next_own s i v l0 : exec init l0 = Ok (sh s) -> winv s -> (forall i v, conns s i = Some v -> calm_start v) -> exited (sh s) = false -> released_once (log (sh s)) ->
  conns s i = Some v -> c_go v <> CStart -> c_go v <> COver -> c_left v = true ->
  exists l s', own i l /\ polite l /\ wstep s l = Ok s' /\ effective s i [l] = 1.
Proof.
  intros E0 Hw Hc He Ho E N1 N2 L. destruct v as [g r b lf]. cbn [c_go c_left] in *. subst lf. destruct g; try congruence.
  - exists (K i (KConnect Fine)). eexists. split; [split; [reflexivity|exact Logic.I]|]. split; [exact Logic.I|]. split; [apply (k_step _ _ _ _ He E)|].
    cbn [effective]. rewrite (k_step _ _ _ _ He E). cbn [cstep set_conn conns c_go c_rd]. rewrite E, fset_eq. reflexivity.
  - pose proof (proj2 Hw i) as I1. rewrite E in I1. destruct I1 as [_ I1]. cbn [c_go c_rd] in I1.
    destruct r; try congruence.
    + exists (K i KRead). eexists. split; [split; [reflexivity|exact Logic.I]|]. split; [exact Logic.I|]. split; [apply (k_step _ _ _ _ He E)|].
      cbn [effective]. rewrite (k_step _ _ _ _ He E). cbn [set_conn conns]. rewrite E, fset_eq. destruct b as [|[] b]; reflexivity.
    + exists (K i KGive). eexists. split; [split; [reflexivity|exact Logic.I]|]. split; [exact Logic.I|]. split; [apply (k_step _ _ _ _ He E)|].
      cbn [effective]. rewrite (k_step _ _ _ _ He E). cbn [set_conn conns]. rewrite E, fset_eq. reflexivity.
    + exists (K i KInboxClosed). eexists. split; [split; [reflexivity|exact Logic.I]|]. split; [exact Logic.I|]. split; [apply (k_step _ _ _ _ He E)|].
      cbn [effective]. rewrite (k_step _ _ _ _ He E). cbn [set_conn conns]. rewrite E, fset_eq. reflexivity.
  - exists (K i (KData Fine)). eexists. split; [split; [reflexivity|exact Logic.I]|]. split; [exact Logic.I|]. split; [apply (k_step _ _ _ _ He E)|].
    cbn [effective]. rewrite (k_step _ _ _ _ He E). cbn [set_conn conns]. rewrite E, fset_eq. reflexivity.
  - destruct (rel_step _ _ _ _ E0 Hw He Ho E eq_refl) as (t & Es & _). exists (KRel i). eexists. split; [reflexivity|]. split; [exact Logic.I|]. split; [exact Es|].
    cbn [effective]. rewrite Es. cbn [set_conn conns]. rewrite E, fset_eq. reflexivity.
Qed.
Lemma left_step s l s' i v : wstep s l = Ok s' -> (forall i v, conns s i = Some v -> calm_start v) -> conns s i = Some v -> c_left v = true ->
  exists v', conns s' i = Some v' /\ c_left v' = true /\ effective s i [l] + rank v' <= rank v.
Proof.
  intros H C E L. destruct (next_step _ _ _ _ _ H E) as (v' & E' & D). exists v'. split; [exact E'|]. specialize (C i v E). cbn [effective]. rewrite H, E, E', Nat.add_0_r.
  assert (R : c_left v' = true /\ (v' = v \/ rank v' < rank v)).
  { destruct D as [->|[(k & -> & ->)|[(-> & G & ->)|(-> & G & ->)]]]; [auto| | |].
    - apply rank_cstep; [exact L|]. intros G. unfold calm_start in C. rewrite G in C. exact C.
    - split; [exact L|]. right. unfold rank. cbn [go_to c_go c_rd c_buf]. rewrite G. lia.
    - split; [exact L|]. right. unfold rank. cbn [go_to c_go c_rd c_buf]. rewrite G. lia. }
  destruct R as [R1 R2]. split; [exact R1|]. destruct R2 as [->|R2].
  - replace (_ && _) with true; [lia|]. destruct (c_go v), (c_rd v); reflexivity.
  - destruct (_ && _); lia.
Qed.
Lemma left_exec ls : forall s s' i v, wexec s ls = Ok s' -> (forall i v, conns s i = Some v -> calm_start v) -> conns s i = Some v -> c_left v = true ->
  exists v', conns s' i = Some v' /\ c_left v' = true /\ effective s i ls + rank v' <= rank v.
Proof.
  induction ls as [|l ls IH]; intros s s' i v H C E L; cbn [wexec] in H; [ok_inj H; exists v; cbn; auto|].
  destruct (wstep s l) as [s1|] eqn:Es; cbn in H; [|discriminate].
  destruct (left_step _ _ _ _ _ Es C E L) as (v1 & E1 & L1 & R1). destruct (IH s1 s' i v1 H (start_step _ _ _ C Es) E1 L1) as (v' & E' & L' & R').
  exists v'. split; [exact E'|]. split; [exact L'|]. cbn [effective] in *. rewrite Es in *. lia.
Qed.
(* When its client has left, a connection ends: however the steps come, only so many of them do something to it, and until it is over its
   goroutines always have one to take. *)
Theorem C134_ends : forall w ls s i, wexec (winit w) ls = Ok s -> open s i -> left_client s i ->
  exists n, forall ls' s', wexec s ls' = Ok s' -> released_once (log (sh s')) -> exited (sh s') = false ->
    effective s i ls' <= n /\ (over s' i \/ exists l s2, own i l /\ polite l /\ wstep s' l = Ok s2 /\ effective s' i [l] = 1).
Proof.
  intros w ls s i H (v & E & N1 & N2) (v0 & E1 & L). assert (v0 = v) by congruence. subst v0. exists (rank v). intros ls' s' H' Ho He.
  assert (C := start_run _ _ _ H). destruct (left_exec ls' s s' i v H' C E L) as (v' & E' & L' & R). split; [lia|].
  assert (HH : wexec (winit w) (ls ++ ls') = Ok s') by (rewrite wexec_app, H; exact H'). destruct (sh_run _ _ _ HH) as (l0 & E0).
  assert (N : c_go v' <> CStart).
  { pose proof (proj2 (winv_run _ _ _ HH) i) as I2. rewrite E' in I2. intros G. cbn [vinv] in I2. rewrite G in I2.
    pose proof (proj2 (winv_run _ _ _ H) i) as I1. rewrite E in I1. cbn [vinv] in I1. destruct (sh_exec _ _ _ H') as (l2 & E2). destruct (log_exec _ _ _ E2) as (ev & El).
    destruct I2 as [(_ & _ & I2 & _) _]. apply I2. rewrite El. apply in_app_iff. right. destruct (c_go v); try congruence; tauto. }
  assert (D : c_go v' = COver \/ c_go v' <> COver) by (destruct (c_go v'); auto; right; discriminate).
  destruct D as [D|D]; [left; exists v'; auto|right]. exact (next_own _ _ _ _ E0 (winv_run _ _ _ HH) (start_run _ _ _ HH) He Ho E' N D L').
Qed.
Print Assumptions C134_ends.

(* a connection that ends, and nothing else *)
Lemma end_one : forall n s i v l0, rank v <= n -> exec init l0 = Ok (sh s) -> winv s -> (forall i v, conns s i = Some v -> calm_start v) -> exited (sh s) = false ->
  released_once (log (sh s)) -> conns s i = Some v -> c_go v <> CStart -> c_go v <> COver -> c_left v = true \/ done s = true ->
  exists ls s', Forall (own i) ls /\ Forall polite ls /\ wexec s ls = Ok s' /\ over s' i /\ log (sh s') = ERelease (LsModel.hid i) :: log (sh s) /\
    exited (sh s') = false /\ released_once (log (sh s')) /\ forall j, j <> i -> conns s' j = conns s j.
Proof.
  induction n as [|n IH]; intros s i v l0 R E0 Hw Hc He Ho E N1 N2 L; [unfold rank in R; destruct (c_go v); try congruence; lia|].
  assert (Step : forall k, own i (K i k) -> polite (K i k) -> rank (cstep (done s) v k) <= n -> c_go (cstep (done s) v k) <> CStart -> c_go (cstep (done s) v k) <> COver ->
    (c_left v = true -> c_left (cstep (done s) v k) = true) ->
    exists ls s', Forall (own i) ls /\ Forall polite ls /\ wexec s ls = Ok s' /\ over s' i /\ log (sh s') = ERelease (LsModel.hid i) :: log (sh s) /\
    exited (sh s') = false /\ released_once (log (sh s')) /\ forall j, j <> i -> conns s' j = conns s j).
  { intros k O1 P1 R1 M1 M2 LL. pose proof (k_step s i v k He E) as Es. set (s1 := set_conn s i (cstep (done s) v k)) in *.
    destruct (IH s1 i (cstep (done s) v k) l0 R1 E0) as (ls & s' & A1 & A2 & A3 & A4 & A5 & A6 & A7 & A8); auto.
    - exact (winv_step _ _ _ Hw Es).
    - exact (start_step _ _ _ Hc Es).
    - unfold s1. cbn. apply fset_eq.
    - destruct L as [L|L]; [left; auto|right; exact L].
    - exists (K i k :: ls), s'. split; [constructor; assumption|]. split; [constructor; assumption|]. split; [cbn [wexec]; rewrite Es; exact A3|].
      split; [exact A4|]. split; [exact A5|]. split; [exact A6|]. split; [exact A7|]. intros j Hj. rewrite A8 by exact Hj. unfold s1. cbn. apply fset_ne. exact Hj. }
  assert (Fin : c_go v = CEnd -> exists ls s', Forall (own i) ls /\ Forall polite ls /\ wexec s ls = Ok s' /\ over s' i /\ log (sh s') = ERelease (LsModel.hid i) :: log (sh s) /\
    exited (sh s') = false /\ released_once (log (sh s')) /\ forall j, j <> i -> conns s' j = conns s j).
  { intros G. destruct (rel_step _ _ _ _ E0 Hw He Ho E G) as (t & Es & _ & Lg & Ex & Or). exists [KRel i]. eexists. split; [constructor; [reflexivity|constructor]|].
    split; [constructor; [exact Logic.I|constructor]|]. split; [cbn [wexec]; rewrite Es; reflexivity|]. split; [eexists; split; [cbn; apply fset_eq|reflexivity]|].
    split; [exact Lg|]. split; [exact Ex|]. split; [exact Or|]. intros j Hj. cbn. apply fset_ne. exact Hj. }
  destruct v as [g r b lf]. cbn [c_go c_left] in *. unfold rank in R. cbn [c_go c_rd c_buf] in R. destruct g; try congruence.
  - specialize (Hc i _ E). cbn in Hc. subst r. apply (Step (KConnect Fine)); cbn; auto; try discriminate; lia.
  - pose proof (proj2 Hw i) as I1. rewrite E in I1. destruct I1 as [_ I1]. cbn [c_go c_rd] in I1. destruct (done s) eqn:D.
    + apply (Step KCancelled); cbn; auto; try discriminate; lia.
    + destruct L as [L|L]; [|discriminate L]. subst lf. destruct r; try congruence.
      * apply (Step KRead); cbn [polite own]; auto; destruct b as [|[] b]; cbn; auto; try discriminate; cbn in R; lia.
      * apply (Step KGive); cbn; auto; try discriminate; lia.
      * apply (Step KInboxClosed); cbn; auto; try discriminate; lia.
  - apply (Step (KData Fine)); cbn; auto; try discriminate; lia.
  - auto.
Qed.
(* When the context is cancelled, a connection can end whatever its client does. *)
Theorem C134_cancelled : forall w ls s i, wexec (winit w) ls = Ok s -> exited (sh s) = false -> released_once (log (sh s)) -> open s i -> cancelled s ->
  exists ls' s', Forall (own i) ls' /\ Forall polite ls' /\ wexec s ls' = Ok s' /\ over s' i.
Proof.
  intros w ls s i H He Ho (v & E & N1 & N2) D. destruct (sh_run _ _ _ H) as (l0 & E0).
  destruct (end_one (rank v) s i v l0 (le_n _) E0 (winv_run _ _ _ H) (start_run _ _ _ H) He Ho E N1 N2 (or_intror D)) as (ls' & s' & A1 & A2 & A3 & A4 & _).
  eauto 10.
Qed.
Print Assumptions C134_cancelled.
(* the second signal cancels it, when the server listens with the context of WaitForSignal *)
Theorem C134_second_signal : forall ls s r, wexec (winit true) ls = Ok s -> In (ECancel r) (log (sh s)) -> cancelled s.
Proof.
  intros ls s r H I1. assert (W : forall ls s s', wexec s ls = Ok s' -> wired s' = wired s).
  { clear. induction ls as [|l ls IH]; intros s s' H; cbn in H; [ok_inj H; reflexivity|]. destruct (wstep s l) as [s1|] eqn:E; cbn in H; [|discriminate].
    rewrite (IH _ _ H). apply (wired_step _ _ _ E). }
  unfold cancelled, done. rewrite (W _ _ _ H). apply orb_true_iff. right. cbn [andb]. apply existsb_exists. exists (ECancel r). auto.
Qed.
Print Assumptions C134_second_signal.

(* the steps of the package shutdown by itself *)
Lemma internal_noop t l : quiet t -> internal l -> LsModel.outside l = false -> step t l = Ok t.
Proof.
  intros Q Hi Ho. destruct l; try contradiction; cbn [LsModel.outside] in Ho; try discriminate Ho;
    match type of Ho with LsModel.other ?r = false => specialize (Q r Ho); unfold step; destruct (exited t); [reflexivity|]; destruct (pcs t r); try contradiction; reflexivity end.
Qed.
Lemma internal_lift ls : forall s t, winv s -> exited (sh s) = false -> Forall internal ls -> exec (sh s) ls = Ok t ->
  exists s', wexec s (map Sh ls) = Ok s' /\ sh s' = t.
Proof.
  induction ls as [|l ls IH]; intros s t Hw He F H; cbn in H; [exists s; split; [reflexivity|congruence]|].
  inversion F as [|? ? F1 F2]. subst. destruct (step (sh s) l) as [t1|] eqn:Es; cbn in H; [|discriminate].
  assert (He1 : exited t1 = false) by (clear - Es He F1; destruct l; try contradiction; inv_step Es).
  assert (W : exists s1, wstep s (Sh l) = Ok s1 /\ sh s1 = t1).
  { unfold wstep. rewrite He. destruct (LsModel.outside l) eqn:Ho; [rewrite Es; eexists; split; reflexivity|].
    pose proof (internal_noop _ _ (proj1 Hw) F1 Ho) as N. exists s. split; [reflexivity|congruence]. }
  destruct W as (s1 & W1 & W2). destruct (IH s1 t (winv_step _ _ _ Hw W1)) as (s' & A & B'); [congruence|exact F2|congruence|].
  exists s'. split; [|exact B']. cbn [map wexec]. rewrite W1. exact A.
Qed.
Lemma all_end : forall L s l0, exec init l0 = Ok (sh s) -> winv s -> (forall i v, conns s i = Some v -> calm_start v) -> exited (sh s) = false ->
  released_once (log (sh s)) ->
  (forall h, In (EHold h) (log (sh s)) -> ~ In (ERelease h) (log (sh s)) -> exists i, In i L /\ h = LsModel.hid i /\ left_client s i) ->
  exists ls s' l1, Forall (fun l => exists i, own i l) ls /\ wexec s ls = Ok s' /\ exec init l1 = Ok (sh s') /\ winv s' /\ exited (sh s') = false /\
    released_once (log (sh s')) /\ idle (log (sh s')) /\ exists ev, log (sh s') = ev ++ log (sh s).
Proof.
  induction L as [|i L IH]; intros s l0 E0 Hw Hc He Ho Hh.
  - exists [], s, l0. repeat (split; [first [assumption|reflexivity|constructor; fail]|]). split; [|exists []; reflexivity].
    intros h Hin. destruct (in_dec Nat.eq_dec h (releases (log (sh s)))) as [X|X]; [apply in_releases; exact X|].
    exfalso. assert (Z : ~ In (ERelease h) (log (sh s))) by (intros Y; apply X, in_releases, Y). destruct (Hh h Hin Z) as (i & [] & _).
  - destruct (in_dec Nat.eq_dec (LsModel.hid i) (releases (log (sh s)))) as [X|X].
    + apply in_releases in X. apply (IH s l0 E0 Hw Hc He Ho). intros h H1 H2. destruct (Hh h H1 H2) as (j & [<-|J] & Eh & Lf); [congruence|eauto].
    + destruct (in_dec Nat.eq_dec (LsModel.hid i) (holds (log (sh s)))) as [Y|Y].
      * apply in_holds in Y. assert (X' : ~ In (ERelease (LsModel.hid i)) (log (sh s))) by (intros Z; apply X, in_releases, Z).
        destruct (Hh _ Y X') as (j & _ & Eh & (v & Ev & Lv)). apply LsProofs.hid_inj in Eh. subst j.
        pose proof (proj2 Hw i) as I1. rewrite Ev in I1. cbn [vinv] in I1.
        assert (N1 : c_go v <> CStart) by (intros G; rewrite G in I1; tauto). assert (N2 : c_go v <> COver) by (intros G; rewrite G in I1; tauto).
        destruct (end_one (rank v) s i v l0 (le_n _) E0 Hw Hc He Ho Ev N1 N2 (or_introl Lv)) as (ls & s1 & A1 & A2 & A3 & A4 & A5 & A6 & A7 & A8).
        destruct (sh_exec _ _ _ A3) as (l2 & E2).
        assert (E1 : exec init (l0 ++ l2) = Ok (sh s1)) by (rewrite exec_app, E0; exact E2).
        destruct (IH s1 (l0 ++ l2) E1 (winv_exec _ _ _ Hw A3) (start_exec _ _ _ Hc A3) A6 A7) as (ls' & s' & l1 & B1 & B2 & B3 & B4 & B5 & B6 & B7 & (ev & B8)).
        { intros h H1 H2. rewrite A5 in H1, H2. cbn in H1, H2. destruct H1 as [H1|H1]; [discriminate H1|].
          destruct (Hh h H1 (fun Z => H2 (or_intror Z))) as (j & [<-|J] & Eh & (vj & Ej & Lj)); [exfalso; apply H2; left; rewrite Eh; reflexivity|].
          exists j. split; [exact J|]. split; [exact Eh|]. exists vj. split; [|exact Lj]. rewrite A8; [exact Ej|]. intros ->. apply H2. left. rewrite Eh. reflexivity. }
        exists (ls ++ ls'), s', l1. split; [apply Forall_app; split; [eapply Forall_impl; [|exact A1]; intros l Hl; exists i; exact Hl|exact B1]|].
        split; [rewrite wexec_app, A3; exact B2|]. repeat (split; [assumption|]). exists (ev ++ [ERelease (LsModel.hid i)]). rewrite B8, A5, <- app_assoc. reflexivity.
      * apply (IH s l0 E0 Hw Hc He Ho). intros h H1 H2. destruct (Hh h H1 H2) as (j & [<-|J] & Eh & Lf); [|eauto].
        exfalso. apply Y, in_holds. congruence.
Qed.
(* When the holds that are left are those of connections whose clients have left, the shutdown completes: by steps of these connections
   and of the package alone, every channel from Done closes. *)
Theorem C134_completes : forall w ls s d, wexec (winit w) ls = Ok s -> exited (sh s) = false -> released_once (log (sh s)) -> In (EDone d) (log (sh s)) ->
  (forall h, In (EHold h) (log (sh s)) -> ~ In (ERelease h) (log (sh s)) -> exists i, h = LsModel.hid i /\ left_client s i) ->
  exists ls' s', Forall (fun l => (exists i, own i l) \/ exists l', l = Sh l' /\ internal l') ls' /\ wexec s ls' = Ok s' /\ In (EDoneClosed d) (log (sh s')).
Proof.
  intros w ls s d H He Ho Hd Hh. destruct (sh_run _ _ _ H) as (l0 & E0).
  assert (HL : exists L, forall h, In (EHold h) (log (sh s)) -> ~ In (ERelease h) (log (sh s)) -> exists i, In i L /\ h = LsModel.hid i /\ left_client s i).
  { exists (map (fun h => h / 3) (holds (log (sh s)))). intros h H1 H2. destruct (Hh h H1 H2) as (i & E & Lf). exists i. split; [|auto].
    apply in_map_iff. exists h. split; [|apply in_holds; exact H1]. rewrite E. unfold LsModel.hid. rewrite Nat.mul_comm. apply Nat.div_mul. discriminate. }
  destruct HL as (L & HL). destruct (all_end L s l0 E0 (winv_run _ _ _ H) (start_run _ _ _ H) He Ho HL) as (ls1 & s1 & l1 & B1 & B2 & B3 & B4 & B5 & B6 & B7 & (ev & B8)).
  assert (Hd1 : In (EDone d) (log (sh s1))) by (rewrite B8; apply in_app_iff; right; exact Hd).
  destruct (done_live _ _ _ B3 B6 B7 B5 Hd1) as (ls2 & t & F2 & X2 & C2). destruct (internal_lift ls2 s1 t B4 B5 F2 X2) as (s' & Y1 & Y2).
  exists (ls1 ++ map Sh ls2), s'. split; [|split; [rewrite wexec_app, B2; exact Y1|rewrite Y2; exact C2]].
  apply Forall_app. split; [eapply Forall_impl; [|exact B1]; auto|]. apply Forall_forall. intros l Hl. apply in_map_iff in Hl. destruct Hl as (l' & <- & Hl').
  right. exists l'. split; [reflexivity|]. rewrite Forall_forall in F2. auto.
Qed.
Print Assumptions C134_completes.

(* a client that has left while its message waits, and Done *)
Example C134_ex : exists s, wexec (winit false) (beginning ++ [Sh (LDone 5); K 0 (KSend true); K 0 KLeave]) = Ok s /\ open s 0 /\ left_client s 0 /\
  ~ cancelled s /\ In (EDone 5) (log (sh s)) /\ released_once (log (sh s)) /\ exited (sh s) = false /\
  forall h, In (EHold h) (log (sh s)) -> ~ In (ERelease h) (log (sh s)) -> exists i, h = LsModel.hid i /\ left_client s i.
Proof.
  eexists. split; [vm_compute; reflexivity|]. split; [eexists; split; [reflexivity|split; discriminate]|]. split; [eexists; split; reflexivity|].
  split; [discriminate|]. split; [cbn; auto|]. split; [constructor|]. split; [reflexivity|]. intros h H _. exists 0. split; [|eexists; split; reflexivity].
  cbn in H. repeat (destruct H as [H|H]; [try discriminate H; injection H as <-; reflexivity|]). destruct H.
Qed.
(* three signals, the second of which ends a connection whose client still sends *)
Example C134_signal_ex : exists s, wexec (winit true) [KUp 0; KHold 0; K 0 (KConnect Fine); Sh (LSigWait 2); Sh (LSigLoop 2 5); Sh LSignal; Sh (LSigTake 2);
    Sh (LBeginStep 2); Sh (LBeginStep 2); Sh (LBeginStep 2); Sh (LBeginStep 2); Sh (LSigLoop 2 8); Sh LSignal; Sh (LSigTake 2); K 0 (KSend true)] = Ok s /\
  wired s = true /\ In (ECancel 2) (log (sh s)) /\ open s 0 /\ released_once (log (sh s)) /\ exited (sh s) = false.
Proof.
  eexists. split; [vm_compute; reflexivity|]. split; [reflexivity|]. split; [cbn; auto|]. split; [eexists; split; [reflexivity|split; discriminate]|].
  split; [constructor|reflexivity].
Qed.
