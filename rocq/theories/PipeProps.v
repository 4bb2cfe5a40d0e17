(* Property C35: Pipe of /repo/enc/util.go. *)
From Coq Require Import Bool Arith List.
From Verif Require Import Prelude ReqModel PipeModel PipeSpec PipeProofs.
Import ListNotations.

(* What was read, followed by what is buffered, is what was written, in order; the buffer keeps to its capacity. *)
Theorem C35_fifo : forall (V : Type) n (ls : list (label V)), let s := exec (init n) ls in
  received (log s) ++ buf s = sent (log s) /\ length (buf s) <= n.
Proof. intros V n ls s. exact (conj (i_fifo n s (reach n ls)) (i_len n s (reach n ls))). Qed.
Print Assumptions C35_fifo.

(* The end of the stream is seen only after Close, and once everything written was read. *)
Theorem C35_eof : forall (V : Type) n (ls : list (label V)) r, In (EEof r) (log (exec (init n) ls)) ->
  In EClose (log (exec (init n) ls)) /\ received (log (exec (init n) ls)) = sent (log (exec (init n) ls)).
Proof. intros V. exact eof_ok. Qed.
Print Assumptions C35_eof.

(* No Write succeeds after Close; one that is under way then, or comes later, gets the error (no panic). *)
Theorem C35_closed : forall (V : Type) n (ls : list (label V)), let s := exec (init n) ls in
  (forall l1 l2 w v, log s = l1 ++ EClose :: l2 -> ~ In (EOk w v) l1) /\
  (forall w, In EClose (log s) -> writing s w <> None -> log (step s (LBroken w)) = EClosed w :: log s).
Proof. intros V n ls s. exact (conj (i_after n s (reach n ls)) (broken n ls)). Qed.
Print Assumptions C35_closed.

(* What a Write sends is what it was given; a Write that fails sends nothing. *)
Theorem C35_matched : forall (V : Type) n (ls : list (label V)), matched (log (exec (init n) ls)).
Proof. intros V n ls. exact (i_match n _ (reach n ls)). Qed.
Print Assumptions C35_matched.

(* After Close a reader can get all that is left and then sees the end. *)
Theorem C35_drains : forall (V : Type) n (ls : list (label V)) r,
  In EClose (log (exec (init n) ls)) -> reading (exec (init n) ls) r = false ->
  exists ls', let s := exec (init n) (ls ++ ls') in
    received (log s) = sent (log (exec (init n) ls)) /\ hd_error (log s) = Some (EEof r).
Proof. intros V. exact drains. Qed.
Print Assumptions C35_drains.

(* A reader does not wait while a writer does. *)
Theorem C35_meet : forall (V : Type) n (ls : list (label V)) w r v,
  writing (exec (init n) ls) w = Some v -> reading (exec (init n) ls) r = true ->
  exists l x, (l = LXfer w r \/ l = LRecv r \/ l = LEof r) /\
    hd_error (log (step (exec (init n) ls) l)) = Some x /\ log (step (exec (init n) ls) l) <> log (exec (init n) ls)
    /\ (x = EEof r \/ exists u, x = ERead r u).
Proof. intros V. exact meet. Qed.
Print Assumptions C35_meet.

(* The two directions of NewPipe do not touch each other: each behaves as one channel under its own part of the schedule, so
   that all of the above holds for both. *)
Theorem C35_directions : forall (V : Type) n (ls : list (bool * label V)), pexec (NewPipe n) ls =
  (exec (init n) (map snd (filter fst ls)), exec (init n) (map snd (filter (fun l => negb (fst l)) ls))).
Proof. intros V. exact directions. Qed.
Print Assumptions C35_directions.

(* capacity 1: 10 is buffered; 11 and 12 wait; a reader takes 10, 11 gets in; Close; 12 fails; the reader gets 11 and EOF *)
Definition run1 : list (label nat) :=
  [LWrite 1 10; LSend 1; LWrite 1 11; LSend 1; LWrite 2 12; LRead 5; LRecv 5; LSend 1; LClose; LBroken 2; LClose].
Example C35_ex : rev (log (exec (init 1) (run1 ++ [LRead 5; LRecv 5; LRead 5; LEof 5]))) =
  [ECall 1 10; EOk 1 10; ECall 1 11; ECall 2 12; EReading 5; ERead 5 10; EOk 1 11; EClose; EClosed 2; ECloseAgain;
   EReading 5; ERead 5 11; EReading 5; EEof 5]
  /\ In EClose (log (exec (init 1) run1)) /\ reading (exec (init 1) run1) 5 = false
  /\ writing (exec (init 1) (firstn 9 run1)) 2 <> None
  /\ writing (exec (init 0) [LWrite 3 7; LRead 4]) 3 = Some 7 /\ reading (exec (init 0) [LWrite 3 7; LRead 4]) 4 = true
  /\ log (exec (init 0) [LWrite 3 7; LRead 4; LXfer 3 4]) = [ERead 4 7; EOk 3 7; EReading 4; ECall 3 7].
Proof. repeat split; vm_compute; try reflexivity; try discriminate; auto. Qed.
