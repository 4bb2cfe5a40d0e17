(* Theorems about Server.Listen: C109, C110. *)
From Coq Require Import Bool Arith ZArith Lia List.
From Verif Require Import Prelude ReqModel ShutModel ShutSpec ShutProofs LsModel LsSpec LsProofs.
Import ListNotations.

Lemma own_runs i xs : forall s v, running s -> srvs s i = Some v ->
  exists s', pexec s (map (V i) xs) = Ok s' /\ sh s' = sh s /\ srvs s' i = Some (fold_left (vstep (ch (sh s))) xs v).
Proof.
  induction xs as [|x xs IH]; intros s v Hr Hv; cbn [map pexec fold_left]; [eauto|].
  assert (E : pstep s (V i x) = Ok (set_srv s i (vstep (ch (sh s)) v x))) by (unfold pstep; rewrite Hr, Hv; reflexivity).
  rewrite E. cbn [rbind].
  destruct (IH (set_srv s i (vstep (ch (sh s)) v x)) (vstep (ch (sh s)) v x)) as (s' & H1 & H2 & H3); [exact Hr|cbn; now rewrite fset_eq|].
  exists s'. rewrite H1, H2, H3. auto.
Qed.
Lemma own_map i xs : Forall (fun x => In x [VServe; VFirst; VClosedL; VReturn; VStarted; VCloseLn]) xs -> Forall (own i) (map (V i) xs).
Proof. induction 1; cbn; constructor; auto. right. right. eauto. Qed.

Ltac owns := apply own_map; repeat (apply Forall_cons; [cbn [In]; tauto|]); apply Forall_nil.

(* C109: a call of Listen in a program that is not shutting down returns, by steps of its own; Hold must not panic, see C69. *)
Theorem C109_returns : forall ls s i, pexec pinit ls = Ok s -> called s i -> running s -> ~ begun s -> released_once (log (sh s)) ->
  (holding s i \/ may_hold s) ->
  exists ls' s', Forall (own i) ls' /\ pexec s ls' = Ok s' /\ returned s' i.
Proof.
  intros ls s i H (v & Hv) Hr Hb Ho Hm. pose proof (pinv_run _ _ H i) as Hi. rewrite Hv in Hi. cbn [vinv] in Hi.
  pose proof (agree_run _ _ _ _ H Hv) as Ha. unfold agree in Ha.
  assert (Hin : v_in v = false) by (destruct (v_in v) eqn:E; [exfalso; apply Hb, Hi; reflexivity|reflexivity]).
  assert (Hch : ch (sh s) = false) by (destruct (ch (sh s)) eqn:E; [exfalso; apply Hb; exact E|reflexivity]).
  assert (Go : forall s v, running s -> srvs s i = Some v -> v_in v = false ->
     (match v_go v with GStart => False | GRet | GOver => v_ch v = true | GAccept => v_ch v = true | _ => True end) ->
     exists s', pexec s (map (V i) [VServe; VFirst; VReturn]) = Ok s' /\ returned s' i).
  { clear. intros s v Hr Hv Hin Hg. destruct (own_runs i [VServe; VFirst; VReturn] s v Hr Hv) as (s' & H1 & _ & H3).
    exists s'. split; [exact H1|]. eexists. split; [exact H3|]. destruct v as [go0 sd0 ch0 ret0 in0 op0 cs0]. cbn in Hg, Hin. subst in0.
    destruct go0; try contradiction; try subst ch0; reflexivity. }
  destruct (v_go v) eqn:G.
  - destruct (sh_run _ _ H) as (ls0 & H0). pose proof (inv_run _ _ H0) as Iv.
    destruct Hi as ((A1 & A2 & A3) & _).
    assert (Hok : step (sh s) (LHold (hid i) false) <> Panic).
    { unfold step. rewrite Hr, A1. destruct (negb (waiters (sh s) =? 0) && (cnt (sh s) =? 0)%Z) eqn:E; [|discriminate].
      apply andb_true_iff in E as [E1 E2]. apply negb_true_iff, Nat.eqb_neq in E1. apply Z.eqb_eq in E2.
      assert (Hm' : may_hold s) by (destruct Hm as [Hh|Hm]; [left; exists (hid i); auto|exact Hm]).
      destruct Hm' as [Hm'|Hm'].
      - pose proof (busy_pos _ (iA _ Iv) Ho Hm'). lia.
      - destruct (none_pending_clear _ Iv Hm'). lia. }
    destruct (step (sh s) (LHold (hid i) false)) as [t|] eqn:Es; [|congruence].
    destruct (hold_step _ _ _ Hr A1 Es) as (_ & _ & _ & _ & Et & _).
    assert (E : pstep s (VHold i) = Ok (set_srv (Pst t (srvs s)) i (go_to v GHeld))).
    { unfold pstep. rewrite Hr, Hv, G, Es. reflexivity. }
    destruct (Go (set_srv (Pst t (srvs s)) i (go_to v GHeld)) (go_to v GHeld)) as (s' & H1 & H2); [exact Et|cbn; now rewrite fset_eq|exact Hin|exact I|].
    exists (VHold i :: map (V i) [VServe; VFirst; VReturn]), s'. split; [constructor; [left; reflexivity|owns]|].
    split; [|exact H2]. cbn [pexec]. rewrite E. exact H1.
  - destruct (Go s v Hr Hv Hin) as (s' & H1 & H2); [rewrite G; exact I|].
    exists (map (V i) [VServe; VFirst; VReturn]), s'. split; [owns|auto].
  - destruct (Go s v Hr Hv Hin) as (s' & H1 & H2); [rewrite G; exact I|].
    exists (map (V i) [VServe; VFirst; VReturn]), s'. split; [owns|auto].
  - destruct (Go s v Hr Hv Hin) as (s' & H1 & H2); [rewrite G; tauto|].
    exists (map (V i) [VServe; VFirst; VReturn]), s'. split; [owns|auto].
  - destruct (Go s v Hr Hv Hin) as (s' & H1 & H2); [rewrite G; intuition congruence|].
    exists (map (V i) [VServe; VFirst; VReturn]), s'. split; [owns|auto].
  - destruct (Go s v Hr Hv Hin) as (s' & H1 & H2); [rewrite G; intuition congruence|].
    exists (map (V i) [VServe; VFirst; VReturn]), s'. split; [owns|auto].
Qed.
Print Assumptions C109_returns.

(* C109: when it has returned and the shutdown has not begun, clients can connect and are served, and the program is held; unless
   Accept has failed for reasons of its own. *)
Theorem C109_accepting : forall ls s i, pexec pinit ls = Ok s -> sound_listener ls -> returned s i -> ~ begun s ->
  accepting s i /\ holding s i /\ ~ In (ERelease (hid i)) (log (sh s)).
Proof.
  intros ls s i H Hs (v & Hv & Hr) Hb. pose proof (pinv_run _ _ H i) as Hi. rewrite Hv in Hi. cbn [vinv] in Hi.
  pose proof (healthy_run _ _ _ _ H Hs Hv) as Hh. unfold healthy in Hh. unfold accepting, holding.
  assert (Hin : v_in v = false) by (destruct (v_in v) eqn:E; [exfalso; apply Hb, Hi; reflexivity|reflexivity]).
  destruct Hi as (A & H1 & H2 & _). specialize (H1 Hr). apply H2 in H1 as H2'. destruct Hh as (B1 & B2 & B3).
  destruct (v_go v) eqn:G; try contradiction; try congruence. split; [|tauto]. exists v.
  split; [exact Hv|]. split; [|exact G]. destruct (v_open v); [reflexivity|]. rewrite B1 in Hin by reflexivity. discriminate.
Qed.
Print Assumptions C109_accepting.

(* C109 is false of the code: a call of Listen whose Shutdown comes before its Serve never returns. *)
Theorem C109_hangs_refuted : exists ls s, pexec pinit ls = Ok s /\ sound_listener ls /\ called s 0 /\ running s /\ released_once (log (sh s)) /\
  forall ls' s', pexec s ls' = Ok s' -> ~ returned s' 0.
Proof.
  exists [Sh (LBegin 2); Sh (LBeginStep 2); Sh (LBeginStep 2); VListen 0; V 0 VStarted; VHold 0; V 0 VServe]. eexists.
  split; [vm_compute; reflexivity|]. split; [intros i; cbn; intuition discriminate|]. split; [eexists; cbn; reflexivity|].
  split; [reflexivity|]. split; [repeat constructor|].
  intros ls' s' H (v' & Hv & Hr).
  destruct (stuck_exec _ _ _ 0 _ H eq_refl (conj eq_refl (conj eq_refl (conj eq_refl I)))) as (v & Hv' & Hp). rewrite Hv in Hv'. inversion Hv'; subst. destruct Hp as (_ & Hp & _). congruence.
Qed.
Print Assumptions C109_hangs_refuted.

(* Listen is called, a signal comes, and so on *)
Example C109_ex : exists s, pexec pinit [VListen 0; VListen 1; VHold 1; V 1 VServe] = Ok s /\
  called s 0 /\ called s 1 /\ running s /\ ~ begun s /\ released_once (log (sh s)) /\ holding s 1 /\ ~ holding s 0 /\ may_hold s.
Proof.
  eexists. split; [vm_compute; reflexivity|]. unfold called, running, begun, holding, may_hold. cbn. repeat split; eauto; try discriminate.
  - constructor.
  - intuition discriminate.
  - left. exists 3. cbn. intuition discriminate.
Qed.
Example C109_ex2 : exists ls s, pexec pinit ls = Ok s /\ sound_listener ls /\ returned s 0 /\ ~ begun s /\ accepted s 0 2.
Proof.
  exists [VListen 0; VHold 0; V 0 VServe; V 0 VFirst; V 0 VConn; V 0 VReturn; V 0 VConn]. eexists. split; [vm_compute; reflexivity|].
  split; [intros i; cbn; intuition discriminate|]. split; [eexists; cbn; auto|]. split; [discriminate|]. eexists. cbn. auto.
Qed.

(* C110: when a channel from Done, asked for after Listen has returned, is closed, the server is closed for new connections. *)
Theorem C110_stops : forall ls1 s1 ls2 s2 i d, pexec pinit ls1 = Ok s1 -> returned s1 i -> pexec s1 ls2 = Ok s2 ->
  ~ In (EDone d) (log (sh s1)) -> In (EDoneClosed d) (log (sh s2)) -> released_once (log (sh s2)) -> closed s2 i.
Proof.
  intros ls1 s1 ls2 s2 i d H1 (v & Hv & Hr) H2 Hd Hc Ho.
  assert (H : pexec pinit (ls1 ++ ls2) = Ok s2) by (rewrite pexec_app, H1; exact H2).
  pose proof (pinv_run _ _ H1 i) as I1. rewrite Hv in I1. cbn [vinv] in I1.
  destruct (ret_exec _ _ _ _ _ H2 Hv Hr) as (v2 & Hv2 & Hr2).
  pose proof (pinv_run _ _ H i) as I2. rewrite Hv2 in I2. cbn [vinv] in I2.
  assert (Hh : In (EHold (hid i)) (log (sh s1))).
  { destruct I1 as (A & B & C & _). specialize (B Hr). apply C in B. destruct (v_go v); tauto. }
  destruct (sh_exec _ _ _ H2) as (l2 & E2). destruct (log_exec _ _ _ E2) as (ev & El).
  destruct (sh_run _ _ H) as (l0 & E0).
  assert (Hrel : In (ERelease (hid i)) (log (sh s2))).
  { destruct (in_dec Nat.eq_dec (hid i) (releases (log (sh s2)))) as [Hx|Hx]; [apply in_releases; exact Hx|]. exfalso.
    apply in_split in Hc as (x & y & Ec). destruct (done_waits _ _ _ _ _ E0 Ho Ec) as (p & q & Ey & Hq & _).
    assert (Hin : In (EDone d) (ev ++ log (sh s1))).
    { rewrite <- El, Ec, Ey. apply in_or_app. right. right. apply in_or_app. right. exact Hq. }
    apply in_app_or in Hin as [Hin|Hin]; [|contradiction]. apply in_split in Hin as (a & b & Ea).
    apply (done_blocked _ _ a d (b ++ log (sh s1)) (hid i) E0 Ho); auto.
    - rewrite El, Ea, <- app_assoc. reflexivity.
    - apply in_or_app. right. exact Hh.
    - intros Q. apply Hx, in_releases, Q.
    - rewrite Ec. apply in_or_app. right. left. reflexivity. }
  exists v2. split; [exact Hv2|]. destruct I2 as (A & B & C & D & F & G). destruct (v_go v2); tauto.
Qed.
Print Assumptions C110_stops.

(* C110: and the shutdown has begun, unless Accept failed for reasons of its own. *)
Theorem C110_holds : forall ls1 s1 ls2 s2 i d, pexec pinit ls1 = Ok s1 -> returned s1 i -> pexec s1 ls2 = Ok s2 -> sound_listener (ls1 ++ ls2) ->
  ~ In (EDone d) (log (sh s1)) -> In (EDoneClosed d) (log (sh s2)) -> released_once (log (sh s2)) -> begun s2.
Proof.
  intros ls1 s1 ls2 s2 i d H1 Hr H2 Hs Hd Hc Ho. destruct (C110_stops _ _ _ _ _ _ H1 Hr H2 Hd Hc Ho) as (v & Hv & Hop).
  assert (H : pexec pinit (ls1 ++ ls2) = Ok s2) by (rewrite pexec_app, H1; exact H2).
  pose proof (pinv_run _ _ H i) as Hi. rewrite Hv in Hi. cbn [vinv] in Hi.
  pose proof (healthy_run _ _ _ _ H Hs Hv) as (B1 & _). apply Hi, B1, Hop.
Qed.
Print Assumptions C110_holds.

(* C110: a server that is closed for new connections stays so, and accepts none. *)
Theorem C110_closed : forall s i n ls s', closed s i -> accepted s i n -> pexec s ls = Ok s' -> closed s' i /\ accepted s' i n.
Proof.
  intros s i n ls s' (v & Hv & Ho) (w & Hw & Hn) H. rewrite Hv in Hw. inversion Hw; subst w.
  destruct (open_exec _ _ _ _ _ n H Hv (conj Ho Hn)) as (v' & Hv' & A & B). split; exists v'; auto.
Qed.
Print Assumptions C110_closed.

(* C110: a request in progress goes on until its handler returns. *)
Theorem C110_requests : forall s i c ls s', working s i c -> pexec s ls = Ok s' -> ~ In (V i (VAnswer c)) ls -> working s' i c.
Proof.
  intros s i c ls s' (v & Hv & Hc) H Hn. destruct (active_exec _ _ _ _ _ _ H Hn Hv Hc) as (v' & A & B). exists v'. auto.
Qed.
Print Assumptions C110_requests.

(* C110 is false of the code: whenever the shutdown has begun, the server can release its hold by steps of its own, with every request
   still in progress. *)
Theorem C110_waits_refuted : forall ls s i, pexec pinit ls = Ok s -> holding s i -> called s i -> running s -> begun s -> released_once (log (sh s)) ->
  exists ls' s', Forall (own i) ls' /\ pexec s ls' = Ok s' /\ In (ERelease (hid i)) (log (sh s')) /\
    forall c, working s i c -> working s' i c.
Proof.
  intros ls s i H Hh (v & Hv) Hr Hb Ho. pose proof (pinv_run _ _ H i) as Hi. rewrite Hv in Hi. cbn [vinv] in Hi.
  pose proof (agree_run _ _ _ _ H Hv) as Ha. unfold agree in Ha.
  assert (Hw : forall ls' s', Forall (own i) ls' -> pexec s ls' = Ok s' -> forall c, working s i c -> working s' i c).
  { intros ls' s' F E c Hc. eapply C110_requests; eauto. intros Hin. rewrite Forall_forall in F. apply F in Hin.
    destruct Hin as [Hin|[Hin|(x & Hx & Hin)]]; [discriminate|discriminate|]. inversion Hin; subst x. cbn in Hx. intuition discriminate. }
  assert (Go : match v_go v with GStart => False | GOver => False | _ => True end ->
            exists s', pexec s (map (V i) [VStarted; VCloseLn; VServe; VFirst; VClosedL]) = Ok s' /\ sh s' = sh s /\
              exists v', srvs s' i = Some v' /\ v_go v' = GRet).
  { intros Hg. destruct (own_runs i [VStarted; VCloseLn; VServe; VFirst; VClosedL] s v Hr Hv) as (s' & H1 & H2 & H3).
    exists s'. split; [exact H1|]. split; [exact H2|]. eexists. split; [exact H3|]. unfold begun in Hb. rewrite Hb. clear -Hg Ha.
    destruct v as [go0 sd0 ch0 ret0 in0 op0 cs0]. cbn in Hg, Ha.
    destruct go0; try contradiction; destruct sd0; cbn in Ha |- *; try reflexivity; destruct in0; cbn in Ha |- *; try reflexivity;
      try (destruct Ha as (_ & -> & _); reflexivity); exfalso; intuition congruence. }
  assert (Rel : match v_go v with GStart => False | GOver => False | _ => True end ->
            exists ls' s', Forall (own i) ls' /\ pexec s ls' = Ok s' /\ In (ERelease (hid i)) (log (sh s'))).
  { intros Hg. destruct (Go Hg) as (s1 & H1 & H2 & v1 & Hv1 & G1). destruct (sh_run _ _ H) as (ls0 & H0). pose proof (inv_run _ _ H0) as Iv.
    assert (A : pcs (sh s) (hid i) = PHeld /\ pcs (sh s) (rid i) = PIdle /\ ~ In (ERelease (hid i)) (log (sh s))) by (destruct (v_go v); tauto).
    destruct A as (A1 & A2 & A3). pose proof (release_pos _ _ Iv Ho Hh A3) as Hp.
    destruct (step (sh s) (LRelease (rid i) (hid i))) as [t|] eqn:Es.
    - destruct (release_step _ _ _ _ Hr A2 A1 Es) as (C1 & _).
      exists (map (V i) [VStarted; VCloseLn; VServe; VFirst; VClosedL] ++ [VRel i]). eexists. split; [|split].
      + apply Forall_app. split; [owns|]. constructor; [right; left; reflexivity|constructor].
      + rewrite pexec_app, H1. cbn [rbind pexec]. unfold pstep. rewrite H2, Hr, Hv1, G1, Es. cbn [rbind]. reflexivity.
      + exact C1.
    - exfalso. unfold step in Es. rewrite Hr, A1, A2 in Es. cbv zeta in Es. destruct (cnt (sh s) - 1 <? 0)%Z eqn:E; [|discriminate].
      apply Z.ltb_lt in E. lia. }
  destruct (v_go v) eqn:G.
  - exfalso. destruct (sh_run _ _ H) as (ls0 & H0). destruct Hi as ((A1 & _) & _).
    apply in_holds, (a_held _ (iA _ (inv_run _ _ H0))) in Hh. intuition congruence.
  - destruct (Rel I) as (ls' & s' & H1 & H2 & H3). exists ls', s'. eauto 8.
  - destruct (Rel I) as (ls' & s' & H1 & H2 & H3). exists ls', s'. eauto 8.
  - destruct (Rel I) as (ls' & s' & H1 & H2 & H3). exists ls', s'. eauto 8.
  - destruct (Rel I) as (ls' & s' & H1 & H2 & H3). exists ls', s'. eauto 8.
  - exists [], s. split; [constructor|]. split; [reflexivity|]. split; [tauto|auto].
Qed.
Print Assumptions C110_waits_refuted.

(* C110: so WaitForSignal returns, and with it main, while a request is in progress. *)
Theorem C110_refuted : exists ls s, pexec pinit ls = Ok s /\ sound_listener ls /\ released_once (log (sh s)) /\
  In (EReturn 2) (log (sh s)) /\ working s 0 0 /\ exists ls1 s1 ls2, ls = ls1 ++ ls2 /\ pexec pinit ls1 = Ok s1 /\ working s1 0 0 /\ ~ begun s1.
Proof.
  exists ([VListen 0; VHold 0; V 0 VServe; V 0 VFirst; V 0 VReturn; V 0 VConn; V 0 (VRequest 0); Sh (LSigWait 2)] ++
          [Sh LSignal; Sh (LSigLoop 2 5); Sh (LSigTake 2); Sh (LBeginStep 2); Sh (LBeginStep 2); Sh (LBeginStep 2); Sh (LBeginStep 2);
           V 0 VStarted; V 0 VCloseLn; V 0 VClosedL; VRel 0; Sh (LSigLoop 2 8); Sh (LWait 8); Sh (LCloseD 8); Sh (LSigDone 2)]).
  eexists. split; [vm_compute; reflexivity|]. split; [intros i; cbn; intuition discriminate|]. split; [repeat constructor; cbn; tauto|].
  split; [cbn; tauto|]. split; [eexists; cbn; auto|].
  eexists. eexists. eexists. split; [reflexivity|]. split; [vm_compute; reflexivity|]. split; [eexists; cbn; auto|discriminate].
Qed.
Print Assumptions C110_refuted.

(* two servers, the second with a request that ends and one that does not *)
Example C110_ex : exists ls1 s1 ls2 s2, pexec pinit ls1 = Ok s1 /\ returned s1 0 /\ returned s1 1 /\ pexec s1 ls2 = Ok s2 /\ sound_listener (ls1 ++ ls2) /\
  ~ In (EDone 2) (log (sh s1)) /\ In (EDoneClosed 2) (log (sh s2)) /\ released_once (log (sh s2)) /\ working s2 1 1 /\ accepted s2 1 2 /\ closed s2 0.
Proof.
  exists [VListen 0; VListen 1; VHold 1; V 1 VServe; VHold 0; V 0 VServe; V 0 VFirst; V 1 VFirst; V 1 VReturn; V 0 VReturn].
  eexists.
  exists [V 1 VConn; V 1 VConn; V 1 (VRequest 1); V 1 (VRequest 0); Sh (LDone 2); Sh (LWait 2); V 1 (VAnswer 0); Sh (LBegin 5); Sh (LBeginStep 5);
          Sh (LBeginStep 5); V 1 VStarted; V 0 VStarted; V 0 VCloseLn; V 1 VCloseLn; V 0 VClosedL; VRel 0; V 1 VClosedL; VRel 1; V 1 VGroup;
          V 1 (VPoll (fun _ => true)); Sh (LRelEnd 4); Sh (LAcquire 2); Sh (LCloseD 2)].
  eexists. split; [vm_compute; reflexivity|]. split; [eexists; cbn; auto|]. split; [eexists; cbn; auto|]. split; [vm_compute; reflexivity|].
  split; [intros i; cbn; intuition discriminate|]. split; [cbn; intuition discriminate|]. split; [cbn; tauto|].
  split; [repeat constructor; cbn; intuition discriminate|]. split; [eexists; cbn; auto|]. split; eexists; cbn; auto.
Qed.
Example C110_ex2 : exists ls s, pexec pinit ls = Ok s /\ holding s 0 /\ called s 0 /\ running s /\ begun s /\ released_once (log (sh s)) /\ working s 0 0.
Proof.
  exists [VListen 0; VHold 0; V 0 VServe; V 0 VFirst; V 0 VConn; V 0 (VRequest 0); Sh (LBegin 2); Sh (LBeginStep 2); Sh (LBeginStep 2)].
  eexists. split; [vm_compute; reflexivity|]. unfold holding, running, begun. cbn. split; [auto|]. split; [eexists; cbn; eauto|].
  split; [reflexivity|]. split; [reflexivity|]. split; [constructor|]. eexists. cbn. auto.
Qed.

(* C110: when Shutdown has returned, Serve is not running; unless 30 seconds have passed, every connection is closed, whatever was in
   progress has been answered, and nothing follows. *)
Theorem C110_over : forall ls s i, pexec pinit ls = Ok s -> over s i ->
  ~ serving s i /\ (in_time i ls -> forall n c, accepted s i n -> c < n -> gone s i c).
Proof.
  intros ls s i H (v & Hv & Ho). split.
  - intros (w & Hw & Hg). pose proof (ended_run _ _ _ _ H Hv) as (_ & He). rewrite Hv in Hw. inversion Hw; subst w. rewrite Ho in He.
    destruct Hg as [Hg|Hg]; rewrite Hg in He; exact He.
  - intros Ht n c (w & Hw & Hn) Hc. rewrite Hv in Hw. inversion Hw; subst w. exists v. split; [exact Hv|].
    destruct (swept_run _ _ _ _ H Ht Hv) as (_ & Hs). specialize (Hs Ho). destruct (nth_error (v_conns v) c) as [x|] eqn:E.
    + f_equal. eapply all_closed_nth; eauto.
    + apply nth_error_None in E. lia.
Qed.
Print Assumptions C110_over.

(* C110: a closed connection stays closed: no handler starts on it. *)
Theorem C110_gone : forall s i c ls s', gone s i c -> pexec s ls = Ok s' -> gone s' i c /\ ~ working s' i c.
Proof.
  intros s i c ls s' (v & Hv & Hc) H. destruct (gone_exec _ _ _ _ _ _ H Hv Hc) as (v' & Hv' & Hc'). split; [exists v'; auto|].
  intros (w & Hw & Hx). congruence.
Qed.
Print Assumptions C110_gone.

(* C110: an answer is the last one on its connection if Shutdown was called before it, and only then. *)
Theorem C110_last : forall s i c s', running s -> working s i c -> pstep s (V i (VAnswer c)) = Ok s' ->
  (noticed s i -> gone s' i c) /\ (~ noticed s i -> idling s' i c).
Proof.
  intros s i c s' Hr (v & Hv & Hc) H. unfold pstep in H. rewrite Hr, Hv in H. cbn [vstep] in H. rewrite Hc in H. ok_inj H.
  unfold noticed, gone, idling. cbn [set_srv srvs]. rewrite fset_eq. split.
  - intros (w & Hw & Hi). assert (w = v) by congruence. subst w. rewrite Hi. eexists. split; [reflexivity|]. cbn. eapply upd_nth; eauto.
  - intros Hn. destruct (v_in v) eqn:Hi; [exfalso; apply Hn; eauto|]. eexists. split; [reflexivity|]. cbn. eapply upd_nth; eauto.
Qed.
Print Assumptions C110_last.

(* C110: a connection that waits for its first request is kept, also by Shutdown, unless it has done so for five seconds. *)
Theorem C110_fresh : forall s i c ls s', waiting s i c -> pexec s ls = Ok s' -> ~ In (V i (VRequest c)) ls ->
  (forall old, In (V i (VPoll old)) ls -> old c = false) -> waiting s' i c.
Proof.
  intros s i c ls s' (v & Hv & Hc) H Hn Hp. assert (Hk : forall x, In (V i x) ls -> x <> VRequest c /\ forall old, x = VPoll old -> old c = false).
  2:{ destruct (new_exec _ _ _ _ _ c H Hk Hv Hc) as (v' & A & B). exists v'. auto. }
  intros x Hx. split; [congruence|]. intros old ->. apply Hp, Hx.
Qed.
Print Assumptions C110_fresh.

(* C110: Shutdown can return, by steps of the server, once it has been called and no handler is at work: nothing else keeps it. *)
Theorem C110_quiet : forall ls s i, pexec pinit ls = Ok s -> running s -> noticed s i -> ~ serving s i ->
  (forall c, ~ working s i c) -> exists s', pexec s (map (V i) [VCloseLn; VGroup; VPoll (fun _ => true); VQuiet]) = Ok s' /\ over s' i.
Proof.
  intros ls s i H Hr (v & Hv & Hi) Hs Hw. pose proof (ended_run _ _ _ _ H Hv) as He.
  destruct (own_runs i [VCloseLn; VGroup; VPoll (fun _ => true); VQuiet] s v Hr Hv) as (s' & H1 & _ & H3).
  exists s'. split; [exact H1|]. eexists. split; [exact H3|].
  pose proof (agree_run _ _ _ _ H Hv) as (Hn & _).
  assert (Hc : forall k l, (forall c, nth_error l c <> Some CActive) ->
    forallb (fun x => match x with CClosed => true | _ => false end) (close_idle k (fun _ => true) l) = true).
  { clear. intros k l. revert k. induction l as [|x l IH]; intros k Hl; cbn [close_idle forallb]; [reflexivity|].
    rewrite IH by (intros c; exact (Hl (S c))). specialize (Hl 0). cbn in Hl. destruct x; try reflexivity. congruence. }
  specialize (Hc 0 (v_conns v)). assert (Ha : forall c, nth_error (v_conns v) c <> Some CActive) by (intros c E; apply (Hw c); exists v; auto).
  specialize (Hc Ha). assert (Hg : v_go v <> GLoop /\ v_go v <> GAccept) by (split; intros E; apply Hs; exists v; auto).
  clear - Hc Hi Hn Hg. destruct v as [go0 sd0 ch0 ret0 in0 op0 cs0]. cbn in Hc, Hi, Hn, Hg. subst in0.
  destruct sd0; [exfalso; apply Hn; [reflexivity|reflexivity]| | | |];
    destruct go0; try (exfalso; destruct Hg; congruence); cbn; try rewrite Hc; reflexivity.
Qed.
Print Assumptions C110_quiet.

(* a server with four connections is shut down: one that answers, one between requests, one fresh, one old *)
Definition bye1 : list plabel :=
  [VListen 0; VHold 0; V 0 VServe; V 0 VFirst; V 0 VReturn; V 0 VConn; V 0 VConn; V 0 VConn; V 0 VConn; V 0 (VRequest 0); V 0 (VRequest 1);
   V 0 (VAnswer 1); Sh (LBegin 2); Sh (LBeginStep 2); Sh (LBeginStep 2); V 0 VStarted; V 0 VCloseLn; V 0 VClosedL; V 0 VGroup;
   V 0 (VPoll (fun c => c =? 3))].
Definition bye2 : list plabel := [V 0 (VAnswer 0); V 0 (VPoll (fun _ => true)); V 0 VQuiet].
Example C110_over_ex : exists s1 s2, pexec pinit bye1 = Ok s1 /\ running s1 /\ noticed s1 0 /\ working s1 0 0 /\ gone s1 0 1 /\ waiting s1 0 2 /\ gone s1 0 3 /\
  pexec s1 bye2 = Ok s2 /\ over s2 0 /\ accepted s2 0 4 /\ in_time 0 (bye1 ++ bye2) /\ gone s2 0 2.
Proof.
  eexists. eexists. split; [vm_compute; reflexivity|]. split; [reflexivity|]. split; [eexists; cbn; auto|]. split; [eexists; cbn; auto|].
  split; [eexists; cbn; auto|]. split; [eexists; cbn; auto|]. split; [eexists; cbn; auto|]. split; [vm_compute; reflexivity|].
  split; [eexists; cbn; auto|]. split; [eexists; cbn; auto|]. split; [unfold in_time; cbn; intuition discriminate|]. eexists; cbn; auto.
Qed.
(* without a shutdown the connection of an answer is kept *)
Example C110_last_ex : exists s1 s2, pexec pinit (firstn 11 bye1) = Ok s1 /\ running s1 /\ working s1 0 1 /\ ~ noticed s1 0 /\
  pstep s1 (V 0 (VAnswer 1)) = Ok s2 /\ idling s2 0 1.
Proof.
  eexists. eexists. split; [vm_compute; reflexivity|]. split; [reflexivity|]. split; [eexists; cbn; auto|].
  split; [intros (v & Hv & Hi); cbn in Hv; injection Hv as <-; discriminate|]. split; [vm_compute; reflexivity|]. eexists; cbn; auto.
Qed.
