(* Properties of the shutdown package. *)
From Coq Require Import Bool Arith ZArith Lia List.
From Verif Require Import Prelude ShutModel ShutSpec ShutProofs.
Import ListNotations.

(* C17: in every run, Started is closed at most once and stays closed, and so is the five-second channel;
   what Started shows is what happened. *)
Theorem C17_once : forall ls s, exec init ls = Ok s ->
  length (closes (log s)) <= 1 /\ length (closes5 (log s)) <= 1 /\
  (ch s = true <-> closes (log s) <> []) /\ (ch5 s = true <-> closes5 (log s) <> []).
Proof. exact (fun ls s H => at_most s (inv_run ls s H)). Qed.
Print Assumptions C17_once.

(* C17: nothing is forgotten, so a closed channel never reopens. *)
Theorem C17_permanent : forall ls s ls' s', exec init ls = Ok s -> exec s ls' = Ok s' ->
  (exists ev, log s' = ev ++ log s) /\ (ch s = true -> ch s' = true) /\ (ch5 s = true -> ch5 s' = true).
Proof.
  intros ls s ls' s' H H'. destruct (log_exec _ _ _ H') as [ev Hl]. split; [eauto|].
  pose proof (inv_run _ _ H) as I. pose proof (inv_exec _ _ _ I H') as I'.
  destruct (at_most s I) as (_ & _ & A1 & A2). destruct (at_most s' I') as (_ & _ & B1 & B2).
  rewrite A1, A2, B1, B2, Hl. unfold closes, closes5. rewrite !flat_map_app.
  split; intros Hn E; apply app_eq_nil in E; tauto.
Qed.
Print Assumptions C17_permanent.

(* C17: Started is closed only after someone called begin (which WaitForSignal does at the first signal); when a call
   of begin returns, Started is closed; the five-second channel is closed at least five seconds after it. *)
Theorem C17_order : forall ls s a e b, exec init ls = Ok s -> log s = a ++ e :: b ->
  (forall t, e = EClosed t -> exists r, In (EBegin r) b) /\
  (forall r, e = EBeginRet r -> exists t, In (EClosed t) b) /\
  (forall t, e = EClosed5 t -> exists t0, In (EClosed t0) b /\ (t0 + 5000000000 <= t)%Z).
Proof.
  intros ls s a e b H E. pose proof (laws _ _ _ _ (inv_run _ _ H) E) as [_ L].
  split; [|split]; intros x ->; cbn in L; destruct L as [x' L]; eauto.
Qed.
Print Assumptions C17_order.

(* C17: once begin was called, steps the runtime takes by itself close Started. *)
Theorem C17_closes : forall ls s r, exec init ls = Ok s -> exited s = false -> In (EBegin r) (log s) ->
  exists ls' s', Forall internal ls' /\ exec s ls' = Ok s' /\ exists t, In (EClosed t) (log s').
Proof. exact started_live. Qed.
Print Assumptions C17_closes.

(* C17: no call of begin and no timer ever panics. *)
Theorem C17_no_panic : forall ls s l, exec init ls = Ok s ->
  match l with LBegin _ | LBeginStep _ | LTimer _ => True | _ => False end -> step s l <> Panic.
Proof. exact (fun ls s l H => begin_safe s l (inv_run ls s H)). Qed.
Print Assumptions C17_no_panic.

(* two callers of begin and a signal, interleaved *)
Example C17_ex : exists s,
  exec init [LSigWait 9; LBegin 1; LSigLoop 9 8; LBegin 2; LBeginStep 2; LSignal; LSigTake 9; LBeginStep 1; LBeginStep 2;
             LBeginStep 9; LBeginStep 2; LTick five; LBeginStep 2; LBeginStep 1; LTimer 0; LBeginStep 9] = Ok s /\
  log s = [EBeginRet 9; EClosed5 five; EBeginRet 1; EBeginRet 2; EClosed 0; EBegin 9; ESig 9; EBegin 2; EDone 8; EBegin 1; EWait 9].
Proof. eexists. split; [vm_compute; reflexivity|reflexivity]. Qed.

(* C18: if no hold is released twice, a channel from Done is closed only after a moment, since the call of Done, at which
   no hold was outstanding. *)
Theorem C18_done_waits : forall ls s a d b, exec init ls = Ok s -> released_once (log s) ->
  log s = a ++ EDoneClosed d :: b -> exists p q, b = p ++ q /\ In (EDone d) q /\ idle q.
Proof. exact done_waits. Qed.
Print Assumptions C18_done_waits.

(* C18: a hold taken before the call of Done and not released keeps the channel open. *)
Theorem C18_hold_blocks : forall ls s a d b h, exec init ls = Ok s -> released_once (log s) ->
  log s = a ++ EDone d :: b -> In (EHold h) b -> ~ In (ERelease h) (log s) -> ~ In (EDoneClosed d) (log s).
Proof. exact done_blocked. Qed.
Print Assumptions C18_hold_blocks.

(* C18: when no hold is outstanding, steps the runtime takes by itself close the channel. *)
Theorem C18_closes : forall ls s d, exec init ls = Ok s -> released_once (log s) -> idle (log s) -> exited s = false ->
  In (EDone d) (log s) -> exists ls' s', Forall internal ls' /\ exec s ls' = Ok s' /\ In (EDoneClosed d) (log s').
Proof. exact done_live. Qed.
Print Assumptions C18_closes.

(* two holds, two waiters, one of them caught between the two *)
Example C18_ex : exists s,
  exec init [LHold 1 false; LHold 2 true; LDone 5; LWait 5; LBegin 3; LBeginStep 3; LBeginStep 3; LHoldGo 2; LRelease 6 1;
             LDone 7; LWait 7; LRelease 8 2; LRelEnd 8; LAcquire 7; LCloseD 7; LAcquire 5; LCloseD 5] = Ok s /\
  released_once (log s) /\ idle (log s) /\
  log s = [EDoneClosed 5; EDoneClosed 7; ERelease 2; EDone 7; ERelease 1; EClosed 0; EBegin 3; EDone 5; EHold 2; EHoldWait 2; EHold 1].
Proof.
  eexists. split; [vm_compute; reflexivity|]. split; [|split; [|reflexivity]].
  - cbn. repeat constructor; cbn; intuition congruence.
  - intros h. cbn. intuition congruence.
Qed.

(* C19: what a call of WaitForSignal does, in order: at the first signal it begins the shutdown, at the second it cancels
   its context, at the third it exits the process; between those it may return, and then it does nothing more. *)
Theorem C19_escalates : forall ls s w, exec init ls = Ok s -> In (EWait w) (log s) ->
  (exists n, story w (log s) = firstn n [ESig w; EBegin w; EBeginRet w; ESig w; ECancel w; ESig w; EExit w]) \/
  story w (log s) = [EReturn w] \/
  story w (log s) = [ESig w; EBegin w; EBeginRet w; EReturn w] \/
  story w (log s) = [ESig w; EBegin w; EBeginRet w; ESig w; ECancel w; EReturn w].
Proof.
  intros ls s w H Hw. destruct (wait_story _ _ _ H Hw) as [Hn|(n & [->|[->| ->]] & Hn)]; cbn in Hn; auto.
Qed.
Print Assumptions C19_escalates.

(* C19: it returns only after a moment, since it was called, at which no hold was outstanding. *)
Theorem C19_return_idle : forall ls s a w b, exec init ls = Ok s -> released_once (log s) ->
  log s = a ++ EReturn w :: b -> exists p q, b = p ++ q /\ In (EWait w) q /\ idle q.
Proof. exact wait_return. Qed.
Print Assumptions C19_return_idle.

(* C19: nothing happens after the exit of the process. *)
Theorem C19_exit_last : forall ls s a w b, exec init ls = Ok s -> log s = a ++ EExit w :: b -> a = [].
Proof. exact exit_last. Qed.
Print Assumptions C19_exit_last.

(* C19: a waiting call with a signal in its channel can take it, at whatever point it waits. *)
Theorem C19_takes_signal : forall s w i d n, exited s = false -> pcs s w = PSelect i d -> sigs s w = S n ->
  exists s', step s (LSigTake w) = Ok s' /\ sigs s' w = n /\
    log s' = (match i with 0 => EBegin w | 1 => ECancel w | _ => EExit w end) :: ESig w :: log s.
Proof. exact take_enabled. Qed.
Print Assumptions C19_takes_signal.

Example C19_ex : exists s s2,
  exec init [LHold 1 false; LSigWait 9; LSignal; LSigLoop 9 10; LSigTake 9; LBeginStep 9; LBeginStep 9; LBeginStep 9; LBeginStep 9;
             LSignal; LSigLoop 9 11; LSigTake 9; LSigLoop 9 12; LWait 12] = Ok s /\
  story 9 (log s) = [ESig 9; EBegin 9; EBeginRet 9; ESig 9; ECancel 9] /\
  exec s [LSignal; LSigTake 9] = Ok s2 /\ In (EExit 9) (log s2) /\
  exists s3, exec s [LRelease 2 1; LRelEnd 2; LAcquire 12; LCloseD 12; LSigDone 9] = Ok s3 /\
  story 9 (log s3) = [ESig 9; EBegin 9; EBeginRet 9; ESig 9; ECancel 9; EReturn 9].
Proof.
  eexists. eexists. split; [vm_compute; reflexivity|]. split; [reflexivity|]. split; [vm_compute; reflexivity|].
  split; [left; reflexivity|]. eexists. split; [vm_compute; reflexivity|reflexivity].
Qed.

(* C71: the ReleaseFn of HoldAndWait is only had once Started is closed. *)
Theorem C71_after_start : forall ls s a h b, exec init ls = Ok s -> log s = a ++ ERelease h :: b -> In (EHoldWait h) b ->
  exists t, In (EClosed t) b.
Proof. exact hold_and_wait. Qed.
Print Assumptions C71_after_start.

(* C71: the hold of HoldAndWait counts from the call, also while it waits for the shutdown to begin. *)
Theorem C71_holds_while_waiting : forall ls s a d b h, exec init ls = Ok s -> released_once (log s) ->
  log s = a ++ EDone d :: b -> In (EHold h) b -> In (EHoldWait h) (log s) -> closes (log s) = [] ->
  ~ In (EDoneClosed d) (log s).
Proof. exact holdwait_blocks. Qed.
Print Assumptions C71_holds_while_waiting.

Example C71_ex : exists s s', exec init [LHold 1 true; LDone 2; LWait 2; LHoldGo 1; LRelease 3 1; LBegin 4; LBeginStep 4] = Ok s /\
  log s = [EBegin 4; EDone 2; EHold 1; EHoldWait 1] /\
  exec s [LBeginStep 4; LHoldGo 1; LRelease 3 1; LRelEnd 3; LAcquire 2; LCloseD 2] = Ok s' /\
  log s' = [EDoneClosed 2; ERelease 1; EClosed 0] ++ log s.
Proof.
  eexists. eexists. split; [vm_compute; reflexivity|]. split; [reflexivity|]. split; [vm_compute; reflexivity|reflexivity].
Qed.

(* C69 is false of the code: the program below releases its hold once, and then takes another while the goroutine of Done is
   being woken up; sync.WaitGroup panics. *)
Theorem C69_no_panic_refuted :
  ~ (forall ls, (forall k s, exec init (firstn k ls) = Ok s -> released_once (log s)) -> exec init ls <> Panic).
Proof.
  intros H. apply (H [LHold 1 false; LDone 2; LWait 2; LRelease 3 1; LHold 4 false]); [|vm_compute; reflexivity].
  intros k s Hk. destruct k as [|[|[|[|[|k]]]]]; vm_compute in Hk; try discriminate; inversion Hk; subst; cbn;
    repeat constructor; cbn; auto.
Qed.
Print Assumptions C69_no_panic_refuted.

(* the same after the counter was cleared: the woken goroutine itself panics *)
Theorem C69_reuse_refuted :
  exec init [LHold 1 false; LDone 2; LWait 2; LRelease 3 1; LRelEnd 3; LHold 4 false; LAcquire 2] = Panic.
Proof. vm_compute. reflexivity. Qed.
Print Assumptions C69_reuse_refuted.

(* What holds: a program that releases each hold once, and takes a hold only while it has another one or while no
   channel of Done is still to be closed, never panics. *)
Theorem C69_no_panic_partial : forall ls, careful_run init ls -> exec init ls <> Panic.
Proof. exact careful_init. Qed.
Print Assumptions C69_no_panic_partial.

Example C69_ex : 
  let ls := [LHold 1 false; LDone 2; LHold 4 false; LWait 2; LRelease 3 1; LRelease 5 4; LRelEnd 5; LAcquire 2; LCloseD 2; LHold 6 false] in
  careful_run init ls /\ exists s, exec init ls = Ok s.
Proof.
  split; [|eexists; vm_compute; reflexivity].
  repeat (cbn [careful_run]; split; [cbn [careful log init]; try exact I|intros ? H; vm_compute in H; injection H as <-]);
    cbn [careful_run]; try exact I.
  - right. intros d [].
  - left. exists 1. cbn. intuition discriminate.
  - cbn. intuition discriminate.
  - cbn. intuition discriminate.
  - right. intros d. cbn. intuition congruence.
Qed.

(* C70 is false of the code: the ReleaseFn of hold 1, called twice, lets Done through while hold 2 is outstanding. *)
Theorem C70_release_twice_refuted :
  ~ (forall ls s a d b, exec init ls = Ok s -> log s = a ++ EDoneClosed d :: b ->
     exists p q, b = p ++ q /\ In (EDone d) q /\ idle q).
Proof.
  intros H.
  assert (W : exists s, exec init [LHold 1 false; LHold 2 false; LRelease 3 1; LRelease 4 1; LDone 5; LWait 5; LCloseD 5] = Ok s /\
    log s = [] ++ EDoneClosed 5 :: [EDone 5; ERelease 1; ERelease 1; EHold 2; EHold 1])
    by (eexists; split; [vm_compute; reflexivity|reflexivity]).
  destruct W as (s & E1 & E2). destruct (H _ _ _ _ _ E1 E2) as (p & q & E & Hd & Hi).
  assert (Hx : In (EHold 2) q -> False).
  { intros Hq. apply Hi in Hq. assert (Hy : In (ERelease 2) (p ++ q)) by (apply in_or_app; auto).
    rewrite <- E in Hy. cbn in Hy. intuition discriminate. }
  apply Hx. destruct p as [|x p].
  - cbn in E. rewrite <- E. cbn. auto.
  - exfalso. cbn in E. injection E as _ E. assert (Hy : In (EDone 5) (p ++ q)) by (apply in_or_app; auto).
    rewrite <- E in Hy. cbn in Hy. intuition discriminate.
Qed.
Print Assumptions C70_release_twice_refuted.

(* and with no other hold it panics *)
Theorem C70_release_twice_panics_refuted : exec init [LHold 1 false; LRelease 2 1; LRelease 3 1] = Panic.
Proof. vm_compute. reflexivity. Qed.
Print Assumptions C70_release_twice_panics_refuted.

(* What holds: the first call of each ReleaseFn never panics; see C18 for what it then means. *)
Theorem C70_first_release_partial : forall ls s r h, exec init ls = Ok s -> released_once (log s) -> ~ In (ERelease h) (log s) ->
  exists s', step s (LRelease r h) = Ok s' /\ released_once (log s').
Proof.
  intros ls s r h H Hr Hn. destruct (first_release ls s r h H Hr Hn) as (s' & E & Hr' & _). eauto.
Qed.
Print Assumptions C70_first_release_partial.

Example C70_ex : exists s s', exec init [LHold 1 false; LHold 2 false; LRelease 3 2] = Ok s /\ released_once (log s) /\
  step s (LRelease 4 1) = Ok s' /\ log s' = [ERelease 1; ERelease 2; EHold 2; EHold 1].
Proof.
  eexists. eexists. split; [vm_compute; reflexivity|]. split; [cbn; repeat constructor; cbn; auto|].
  split; [vm_compute; reflexivity|reflexivity].
Qed.
