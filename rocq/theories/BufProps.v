(* Properties C55, C72, C73: BufferedRWC of /repo/test/io.go. *)
From Coq Require Import Bool Arith Ascii String List.
From Verif Require Import Prelude ReqModel BufModel BufSpec BufProofs.
Import ListNotations.
Open Scope string_scope.

Definition arrays : nat -> bytes := fun i => match i with 0 => B "hello" | 1 => B "world!" | _ => [] end.

(* C55, first half in full: forall m ls, prefix (delivered (log (exec (init m) ls))) (appended (log (exec (init m) ls))). *)
(* False: Append keeps the slice of the caller, so a caller that uses its array again changes what is read. *)
Theorem C55_prefix_refuted :
  ~ forall m ls, prefix (delivered (log (exec (init m) ls))) (appended (log (exec (init m) ls))).
Proof.
  intros H. destruct (H arrays [LAppend (Sl 0 0 5); LPoke 0 (B "HELLO"); LRead 7 5 5]) as [c E]. vm_compute in E. discriminate E.
Qed.
Print Assumptions C55_prefix_refuted.

(* As long as nobody does that: any number of readers with any len and cap. *)
Theorem C55_prefix_partial : forall m ls, Forall no_poke ls ->
  prefix (delivered (log (exec (init m) ls))) (appended (log (exec (init m) ls))).
Proof. exact prefix_ok. Qed.
Print Assumptions C55_prefix_partial.

(* Nothing is lost: whoever sees the end of the stream sees it after a close, and everything appended was delivered. *)
Theorem C55_eof_partial : forall m ls r, Forall no_poke ls -> In (EEOF r) (log (exec (init m) ls)) ->
  shut (log (exec (init m) ls)) /\ delivered (log (exec (init m) ls)) = appended (log (exec (init m) ls)).
Proof. exact eof_ok. Qed.
Print Assumptions C55_eof_partial.

(* Reading again and again, with whatever size, gets everything appended so far. *)
Theorem C55_drains_partial : forall m ls r n, Forall no_poke ls -> 1 <= n -> busy (exec (init m) ls) r = false ->
  exists j, let s := exec (init m) (ls ++ repeat (LRead r n n) j) in
    delivered (log s) = appended (log (exec (init m) ls)) /\ toRead s = [].
Proof. exact drains. Qed.
Print Assumptions C55_drains_partial.

(* C55, second half is false: a reader waiting at Close waits for ever, whatever follows, unless SetReadClosed is called. *)
Theorem C55_close_wakes_refuted : exists m ls r, let s := exec (init m) ls in
  In EClose (log s) /\ forall ls', Forall no_set ls' -> reader_waits (exec s ls') r.
Proof.
  exists arrays, [LRead 3 10 10; LClose], 3. split; [cbn; auto|]. intros ls' F.
  exists 10. refine (proj2 (stuck_exec 3 10 ls' _ F _)). split; cbn; auto.
Qed.
Print Assumptions C55_close_wakes_refuted.

(* SetReadClosed does wake all: from then on nobody waits, and each woken reader returns at its next step. *)
Theorem C55_set_closed_wakes_partial : forall m ls ls', let s := exec (init m) (ls ++ LSetClosed :: ls') in
  (forall r, ~ reader_waits s r) /\ (forall r n, In (r, n) (woken s) -> returned s (step s (LWake r)) r).
Proof. exact set_closed_wakes. Qed.
Print Assumptions C55_set_closed_wakes_partial.

(* A Read called after Close or SetReadClosed returns at once. *)
Theorem C55_read_after_close_partial : forall m ls r len cap, let s := exec (init m) ls in
  shut (log s) -> busy s r = false -> len <= cap -> returned s (step s (LRead r len cap)) r.
Proof. exact read_closed. Qed.
Print Assumptions C55_read_after_close_partial.

(* C72 in full: forall m ls r, let s := exec (init m) ls in reader_waits s r -> toRead s <> [] -> woken s <> []. *)
(* False: Append wakes one reader; if its buffer is small, the others sleep though there is data. *)
Theorem C72_no_sleep_refuted :
  ~ forall m ls r, reader_waits (exec (init m) ls) r -> toRead (exec (init m) ls) <> [] -> woken (exec (init m) ls) <> [].
Proof.
  intros H. refine (H arrays [LRead 1 2 2; LRead 2 2 2; LAppend (Sl 0 0 5); LWake 1] 2 _ _ _); vm_compute; try discriminate; auto.
  exists 2. left. reflexivity.
Qed.
Print Assumptions C72_no_sleep_refuted.

(* It holds when every reader has room for every appended slice. *)
Theorem C72_no_sleep_partial : forall m n ls r, Forall (fits n) ls -> reader_waits (exec (init m) ls) r ->
  toRead (exec (init m) ls) <> [] -> woken (exec (init m) ls) <> [].
Proof. exact no_sleep. Qed.
Print Assumptions C72_no_sleep_partial.

(* C73 in full: the statement below without no_poke.  False: Write keeps the slice of the caller. *)
Theorem C73_written_refuted :
  ~ forall m ls, map (content (mem (exec (init m) ls))) (written (exec (init m) ls)) = accepted (log (exec (init m) ls)).
Proof.
  intros H. specialize (H arrays [LWrite (Sl 0 0 5); LPoke 0 (B "HELLO")]). vm_compute in H. discriminate H.
Qed.
Print Assumptions C73_written_refuted.

(* Without a second use of the arrays Written is the list of what was given to the successful writes. *)
Theorem C73_written_partial : forall m ls, Forall no_poke ls ->
  map (content (mem (exec (init m) ls))) (written (exec (init m) ls)) = accepted (log (exec (init m) ls)).
Proof. exact written_ok. Qed.
Print Assumptions C73_written_partial.

(* After a close nothing more gets in, and a write of something is told so. *)
Theorem C73_write_after_close : forall m ls x, let s := exec (init m) ls in shut (log s) ->
  written (step s (LWrite x)) = written s /\
  (content (mem s) x <> [] -> log (step s (LWrite x)) = EWriteClosed :: log s).
Proof. exact write_closed. Qed.
Print Assumptions C73_write_after_close.

(* two readers, a slice read in two pieces, an end of stream *)
Definition run1 : list label :=
  [LRead 1 3 4; LRead 2 6 6; LAppend (Sl 0 0 5); LAppend (Sl 1 0 6); LWake 1; LWake 2; LWrite (Sl 1 0 5); LSetClosed;
   LWrite (Sl 0 0 5); LRead 1 9 9; LRead 2 1 1].
Example C55_ex : Forall no_poke run1 /\ rev (log (exec (init arrays) run1)) =
  [EAppend (B "hello"); EAppend (B "world!"); ERead 1 (B "hel"); ERead 2 (B "lo"); EWrite (B "world"); ESetClosed;
   EWriteClosed; ERead 1 (B "world!"); EEOF 2] /\ shut (log (exec (init arrays) run1)) /\
  busy (exec (init arrays) (firstn 3 run1)) 5 = false /\ toRead (exec (init arrays) (firstn 3 run1)) <> [] /\
  woken (exec (init arrays) [LRead 1 3 4; LRead 2 6 6; LSetClosed]) = [(1, 3); (2, 6)].
Proof.
  split; [repeat constructor|]. split; [vm_compute; reflexivity|]. split; [right; vm_compute; tauto|].
  split; [reflexivity|]. split; [vm_compute; discriminate|reflexivity].
Qed.
(* two readers wait with room for 5; one slice comes *)
Example C72_ex : let ls := [LRead 1 5 5; LRead 2 6 6; LAppend (Sl 0 0 5)] in
  Forall (fits 5) ls /\ reader_waits (exec (init arrays) ls) 2 /\ toRead (exec (init arrays) ls) <> [].
Proof.
  split; [repeat constructor|]. split; [exists 6; vm_compute; tauto|vm_compute; discriminate].
Qed.
Example C73_ex : Forall no_poke run1 /\ accepted (log (exec (init arrays) run1)) = [B "world"] /\
  shut (log (exec (init arrays) run1)) /\ content arrays (Sl 1 2 2) = B "rl".
Proof. split; [repeat constructor|]. split; [vm_compute; reflexivity|]. split; [right; vm_compute; tauto|reflexivity]. Qed.
