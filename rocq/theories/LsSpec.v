(* Vocabulary of the statements about Server.Listen. *)
From Coq Require Import Bool Arith ZArith List.
From Verif Require Import Prelude ReqModel ShutModel ShutSpec LsModel.
Import ListNotations.

(* Listen i was called and net.Listen succeeded *)
Definition called (s : pst) (i : nat) : Prop := exists v, srvs s i = Some v.
(* it has returned *)
Definition returned (s : pst) (i : nat) : Prop := exists v, srvs s i = Some v /\ v_ret v = true.
(* clients can connect, and are served *)
Definition accepting (s : pst) (i : nat) : Prop := exists v, srvs s i = Some v /\ v_open v = true /\ v_go v = GAccept.
(* clients can no longer connect *)
Definition closed (s : pst) (i : nat) : Prop := exists v, srvs s i = Some v /\ v_open v = false.
(* a handler is at work for connection c *)
Definition working (s : pst) (i c : nat) : Prop := exists v, srvs s i = Some v /\ nth_error (v_conns v) c = Some CActive.
(* Accept did not fail for reasons of its own *)
Definition sound_listener (ls : list plabel) : Prop := forall i, ~ In (V i VFailL) ls.
(* the steps of the goroutines of Listen i and its caller; not its connections *)
Definition own (i : nat) (l : plabel) : Prop :=
  l = VHold i \/ l = VRel i \/ exists x, In x [VServe; VFirst; VClosedL; VReturn; VStarted; VCloseLn] /\ l = V i x.
(* the shutdown has begun *)
Definition begun (s : pst) : Prop := ch (sh s) = true.
(* the program has not ended *)
Definition running (s : pst) : Prop := exited (sh s) = false.
(* no hold is outstanding while a channel of Done is to be closed: Hold would panic then (C69) *)
Definition may_hold (s : pst) : Prop := busy (log (sh s)) \/ none_pending (log (sh s)).
(* how many connections it has accepted *)
Definition accepted (s : pst) (i n : nat) : Prop := exists v, srvs s i = Some v /\ length (v_conns v) = n.
(* the hold of the server is taken *)
Definition holding (s : pst) (i : nat) : Prop := In (EHold (hid i)) (log (sh s)).
(* the goroutine of Listen i that shuts the server down has called Shutdown *)
Definition noticed (s : pst) (i : nat) : Prop := exists v, srvs s i = Some v /\ v_in v = true.
(* its Shutdown has returned *)
Definition over (s : pst) (i : nat) : Prop := exists v, srvs s i = Some v /\ v_sd v = WOver.
(* Serve of Listen i has been called and has not returned *)
Definition serving (s : pst) (i : nat) : Prop := exists v, srvs s i = Some v /\ (v_go v = GLoop \/ v_go v = GAccept).
(* connection c is closed *)
Definition gone (s : pst) (i c : nat) : Prop := exists v, srvs s i = Some v /\ nth_error (v_conns v) c = Some CClosed.
(* connection c is open and no request has come on it *)
Definition waiting (s : pst) (i c : nat) : Prop := exists v, srvs s i = Some v /\ nth_error (v_conns v) c = Some CNew.
(* connection c is open between two requests *)
Definition idling (s : pst) (i c : nat) : Prop := exists v, srvs s i = Some v /\ nth_error (v_conns v) c = Some CIdle.
(* Shutdown of Listen i did not run out of time *)
Definition in_time (i : nat) (ls : list plabel) : Prop := ~ In (V i VTimeout) ls.
