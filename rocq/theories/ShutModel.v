(* Model of /repo/shutdown/shutdown.go: the shutter as a machine of concurrent callers. *)
From Coq Require Import Bool Arith ZArith Lia List.
From Verif Require Import Prelude ReqModel.
Import ListNotations.

(* Where a call of begin (shutdown/shutdown.go:35-43) stands.  BEnter: called, at once.Do.  BIn: inside the function,
   before close(ch) at line 37.  BClosed: before the go statement at line 38.  BSpawned: the function
   returned, sync.Once has not yet marked itself done. *)
Inductive bstage := BEnter | BIn | BClosed | BSpawned.
(* sync.Once (shutdown/shutdown.go:20): not used, running the function in process r, done *)
Inductive once_st := ONew | ORun (r : nat) | ODone.

(* Where a goroutine stands.
   PBegin: in begin(), called by waitForSignal or not.
   PHoldWait: holdAndWait at line 74.  PHeld: hold or holdAndWait has returned its ReleaseFn.
   PRel w: in wg.Done, has brought the counter to 0 while w goroutines wait.
   PDone1: goroutine of done() (lines 58-61) before wg.Wait; PSleep: blocked in it; PReady: wg.Wait has returned;
   PClosed: the channel is closed.
   PLoop i: head of the loop of waitForSignal (line 86); PSelect i d: in its select (line 88) with the channel d
   of done().  PEnd: over. *)
Inductive pc :=
| PIdle
| PBegin (b : bstage) (sig : bool)
| PHoldWait | PHeld | PRel (w : nat)
| PDone1 | PSleep | PReady | PClosed
| PLoop (i : nat) | PSelect (i d : nat)
| PEnd.

(* What happened.  EBegin, EBeginRet: begin called and returned.  EClosed t: the Started channel was closed at time t.
   EClosed5 t: the five-second channel was closed.  EHoldWait h: holdAndWait was called for hold h.  EHold h: hold h was
   taken (line 67 or 73).  ERelease h: its ReleaseFn was called.  EDone d: done() was called and gave channel d.  EDoneClosed d: d was closed.
   EWait w: waitForSignal was called.  ESig w: it took a signal.  ECancel w: it cancelled its context.
   EExit w: it called os.Exit.  EReturn w: it returned. *)
Inductive event :=
| EBegin (r : nat) | EBeginRet (r : nat) | EClosed (t : Z) | EClosed5 (t : Z)
| EHoldWait (h : nat) | EHold (h : nat) | ERelease (h : nat) | EDone (d : nat) | EDoneClosed (d : nat)
| EWait (w : nat) | ESig (w : nat) | ECancel (w : nat) | EExit (w : nat) | EReturn (w : nat).

(* shutdown/shutdown.go:16-23 shutter, the goroutines, and the events, newest first.
   cnt and waiters are the two halves of the state of the sync.WaitGroup, sema its semaphore and asleep the
   goroutines blocked on it.  timers are the goroutines of lines 38-41, by the time they wake up.  sigs w is the
   number of signals buffered for waitForSignal w (line 80). *)
Record st := St {
  now : Z; ch : bool; ch5 : bool; once : once_st; timers : list Z;
  cnt : Z; waiters : nat; sema : nat; asleep : list nat;
  sigs : nat -> nat; exited : bool; pcs : nat -> pc; log : list event }.

(* shutdown/shutdown.go:27-32 newShutter *)
Definition init : st :=
  St 0 false false ONew [] 0 0 0 [] (fun _ => 0) false (fun _ => PIdle) [].

(* time.Sleep(5 * time.Second), in nanoseconds; shutdown/shutdown.go:39 *)
Definition five : Z := 5 * 1000 * 1000 * 1000.

(* the steps, see step *)
Inductive label :=
| LTick (dt : Z)
| LBegin (r : nat) | LBeginStep (r : nat) | LTimer (i : nat)
| LHold (h : nat) (wait : bool) | LHoldGo (h : nat)
| LRelease (r h : nat) | LRelEnd (r : nat)
| LDone (d : nat) | LWait (d : nat) | LAcquire (d : nat) | LCloseD (d : nat)
| LSigWait (w : nat) | LSigLoop (w d : nat) | LSigDone (w : nat) | LSigTake (w : nat)
| LSignal.

(* l without its i-th element; bookkeeping of timers, shutdown/shutdown.go:38 *)
Fixpoint drop_nth {A} (i : nat) (l : list A) : list A :=
  match i, l with
  | _, [] => []
  | 0, _ :: t => t
  | S j, x :: t => x :: drop_nth j t
  end.

(* setters; bookkeeping for the state above (shutdown/shutdown.go:16-23) *)
Definition set_pc (s : st) (r : nat) (p : pc) : st :=
  St (now s) (ch s) (ch5 s) (once s) (timers s) (cnt s) (waiters s) (sema s) (asleep s) (sigs s) (exited s)
     (fset (pcs s) r p) (log s).
(* as above (shutdown/shutdown.go:16-23) *)
Definition set_wg (s : st) (c : Z) (w m : nat) (a : list nat) : st :=
  St (now s) (ch s) (ch5 s) (once s) (timers s) c w m a (sigs s) (exited s) (pcs s) (log s).
(* as above (shutdown/shutdown.go:16-23) *)
Definition emit (s : st) (e : event) : st :=
  St (now s) (ch s) (ch5 s) (once s) (timers s) (cnt s) (waiters s) (sema s) (asleep s) (sigs s) (exited s)
     (pcs s) (e :: log s).
(* as above (shutdown/shutdown.go:16-23) *)
Definition set_begin (s : st) (c : bool) (o : once_st) (t : list Z) : st :=
  St (now s) c (ch5 s) o t (cnt s) (waiters s) (sema s) (asleep s) (sigs s) (exited s) (pcs s) (log s).

(* what a process does when begin returns: waitForSignal goes on with i = 1 (shutdown/shutdown.go:99-100) *)
Definition after_begin (sig : bool) : pc := if sig then PLoop 1 else PEnd.

(* is p inside waitForSignal, and so gets signals (shutdown/shutdown.go:81) *)
Definition listening (p : pc) : bool :=
  match p with PLoop _ | PSelect _ _ | PBegin _ true => true | _ => false end.

(* One atomic step.  A step that is not possible in the state leaves it unchanged.  A panic (close of a closed
   channel, misuse of the WaitGroup) kills the program.
   The WaitGroup is that of Go's sync/waitgroup.go: Add adds to the counter, panics if it is negative or if it goes
   from 0 to 1 while goroutines are registered as waiting; when it gets to 0 with goroutines waiting, it checks that
   nothing moved, clears the state and releases the semaphore once per waiting goroutine.  Wait returns if the counter
   is 0, else registers and blocks on the semaphore, and then panics if the state is not zero.  Overflow of the
   counter (2^31 holds) is not modelled. *)
Definition step (s : st) (l : label) : res st :=
  if exited s then Ok s else
  match l with
  | LTick dt => if (0 <=? dt)%Z then
      Ok (St (now s + dt) (ch s) (ch5 s) (once s) (timers s) (cnt s) (waiters s) (sema s) (asleep s)
             (sigs s) (exited s) (pcs s) (log s)) else Ok s
  (* shutdown/shutdown.go:35 *)
  | LBegin r => match pcs s r with PIdle => Ok (emit (set_pc s r (PBegin BEnter false)) (EBegin r)) | _ => Ok s end
  (* shutdown/shutdown.go:36-42 *)
  | LBeginStep r =>
      match pcs s r with
      | PBegin BEnter sig =>
          match once s with
          | ODone => Ok (emit (set_pc s r (after_begin sig)) (EBeginRet r))
          | ORun _ => Ok s
          | ONew => Ok (set_begin (set_pc s r (PBegin BIn sig)) (ch s) (ORun r) (timers s))
          end
      | PBegin BIn sig =>
          if ch s then Panic
          else Ok (emit (set_begin (set_pc s r (PBegin BClosed sig)) true (once s) (timers s)) (EClosed (now s)))
      | PBegin BClosed sig =>
          Ok (set_begin (set_pc s r (PBegin BSpawned sig)) (ch s) (once s) ((now s + five)%Z :: timers s))
      | PBegin BSpawned sig =>
          Ok (emit (set_begin (set_pc s r (after_begin sig)) (ch s) ODone (timers s)) (EBeginRet r))
      | _ => Ok s
      end
  (* shutdown/shutdown.go:39-40 *)
  | LTimer i =>
      match nth_error (timers s) i with
      | Some t =>
          if (t <=? now s)%Z then
            if ch5 s then Panic
            else Ok (St (now s) (ch s) true (once s) (drop_nth i (timers s)) (cnt s) (waiters s) (sema s)
                        (asleep s) (sigs s) (exited s) (pcs s) (EClosed5 (now s) :: log s))
          else Ok s
      | None => Ok s
      end
  (* shutdown/shutdown.go:67-68 and 73 *)
  | LHold h wait =>
      match pcs s h with
      | PIdle =>
          if negb (waiters s =? 0) && (cnt s =? 0)%Z then Panic
          else Ok (emit (set_wg (set_pc (if wait then emit s (EHoldWait h) else s) h (if wait then PHoldWait else PHeld))
                                (cnt s + 1) (waiters s) (sema s) (asleep s)) (EHold h))
      | _ => Ok s
      end
  (* shutdown/shutdown.go:74-75 *)
  | LHoldGo h => match pcs s h with PHoldWait => if ch s then Ok (set_pc s h PHeld) else Ok s | _ => Ok s end
  (* process r calls the ReleaseFn of hold h, which is wg.Done (shutdown/shutdown.go:68,75) *)
  | LRelease r h =>
      match pcs s r, pcs s h with
      | PIdle, PHeld =>
          let v := (cnt s - 1)%Z in
          if (v <? 0)%Z then Panic
          else Ok (emit (set_wg (set_pc s r (if (0 <? v)%Z || (waiters s =? 0) then PEnd else PRel (waiters s)))
                                v (waiters s) (sema s) (asleep s)) (ERelease h))
      | _, _ => Ok s
      end
  (* the end of that wg.Done *)
  | LRelEnd r =>
      match pcs s r with
      | PRel w =>
          if (cnt s =? 0)%Z && (waiters s =? w)
          then Ok (set_wg (set_pc s r PEnd) 0 0 (sema s + w) (asleep s))
          else Panic
      | _ => Ok s
      end
  (* shutdown/shutdown.go:56-58,62 *)
  | LDone d => match pcs s d with PIdle => Ok (emit (set_pc s d PDone1) (EDone d)) | _ => Ok s end
  (* shutdown/shutdown.go:59 *)
  | LWait d =>
      match pcs s d with
      | PDone1 =>
          if (cnt s =? 0)%Z then Ok (set_pc s d PReady)
          else Ok (set_wg (set_pc s d PSleep) (cnt s) (S (waiters s)) (sema s) (d :: asleep s))
      | _ => Ok s
      end
  (* the end of that wg.Wait *)
  | LAcquire d =>
      match pcs s d, sema s with
      | PSleep, S m =>
          if (cnt s =? 0)%Z && (waiters s =? 0)
          then Ok (set_wg (set_pc s d PReady) (cnt s) (waiters s) m (remove Nat.eq_dec d (asleep s)))
          else Panic
      | _, _ => Ok s
      end
  (* shutdown/shutdown.go:60 *)
  | LCloseD d => match pcs s d with PReady => Ok (emit (set_pc s d PClosed) (EDoneClosed d)) | _ => Ok s end
  (* shutdown/shutdown.go:79-86 *)
  | LSigWait w => match pcs s w with PIdle => Ok (emit (set_pc s w (PLoop 0)) (EWait w)) | _ => Ok s end
  (* shutdown/shutdown.go:89: the call of done() *)
  | LSigLoop w d =>
      match pcs s w, pcs s d with
      | PLoop i, PIdle => Ok (emit (set_pc (set_pc s d PDone1) w (PSelect i d)) (EDone d))
      | _, _ => Ok s
      end
  (* shutdown/shutdown.go:89-91 *)
  | LSigDone w =>
      match pcs s w with
      | PSelect i d => match pcs s d with PClosed => Ok (emit (set_pc s w PEnd) (EReturn w)) | _ => Ok s end
      | _ => Ok s
      end
  (* shutdown/shutdown.go:95-109 *)
  | LSigTake w =>
      match pcs s w, sigs s w with
      | PSelect i d, S n =>
          let s := St (now s) (ch s) (ch5 s) (once s) (timers s) (cnt s) (waiters s) (sema s) (asleep s)
                      (fset (sigs s) w n) (exited s) (pcs s) (ESig w :: log s) in
          match i with
          | 0 => Ok (emit (set_pc s w (PBegin BEnter true)) (EBegin w))
          | 1 => Ok (emit (set_pc s w (PLoop 2)) (ECancel w))
          | _ => Ok (St (now s) (ch s) (ch5 s) (once s) (timers s) (cnt s) (waiters s) (sema s) (asleep s)
                        (sigs s) true (fset (pcs s) w PEnd) (EExit w :: log s))
          end
      | _, _ => Ok s
      end
  (* the runtime delivers a signal to every channel set up at shutdown/shutdown.go:80-81 that has room for it *)
  | LSignal =>
      Ok (St (now s) (ch s) (ch5 s) (once s) (timers s) (cnt s) (waiters s) (sema s) (asleep s)
             (fun w => if listening (pcs s w) && (sigs s w <? 3) then S (sigs s w) else sigs s w)
             (exited s) (pcs s) (log s))
  end.

(* a schedule: any list of steps (shutdown/shutdown.go:35-111) *)
Fixpoint exec (s : st) (ls : list label) : res st :=
  match ls with
  | [] => Ok s
  | l :: rest => rbind (step s l) (fun s1 => exec s1 rest)
  end.
