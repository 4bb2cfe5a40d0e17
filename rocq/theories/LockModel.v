(* Model of Mutex.TryLock in /repo/utils/sync/mutex.go, with Lock and Unlock of the embedded sync.Mutex. *)
From Coq Require Import Bool Arith List.
From Verif Require Import Prelude ReqModel.
Import ListNotations.

(* Where a caller stands: outside; in the select of TryLock (utils/sync/mutex.go:55) with the goroutine k; having the lock *)
Inductive cpc := CIdle | CTry (k : nat) | CHold.
(* Where the goroutine of a TryLock stands (utils/sync/mutex.go:48-54): not started; at m.Lock(); at <-ch; at m.Unlock(); over *)
Inductive hpc := HNone | HWant | HHave | HDrop | HOver.

(* ELock p, EUnlock p: Lock or Unlock of p returned.  ETrue p, EFalse p: TryLock of p returned that (utils/sync/mutex.go:57,59). *)
Inductive event := ELock (p : nat) | EUnlock (p : nat) | ETrue (p : nat) | EFalse (p : nat).

(* The sync.Mutex is one bit, locked or not: Go does not record who has it.  closed k: the channel of TryLock k was closed
   (utils/sync/mutex.go:47).  Events newest first. *)
Record st := St { locked : bool; caller : nat -> cpc; helper : nat -> hpc; closed : nat -> bool; log : list event }.

(* a new Mutex; utils/sync/mutex.go:12-14 *)
Definition init : st := St false (fun _ => CIdle) (fun _ => HNone) (fun _ => false) [].

(* LLock p, LUnlock p: p calls them.  LTry p k: p calls TryLock, whose goroutine is called k.  LHLock k, LHClosed k,
   LHUnlock k: that goroutine gets the lock, sees the channel closed, unlocks.  LSend p: the select of p sends to its
   goroutine.  LTimeout p: it takes the timer. *)
Inductive label :=
| LLock (p : nat) | LUnlock (p : nat) | LTry (p k : nat) | LHLock (k : nat) | LSend (p : nat) | LTimeout (p : nat)
| LHClosed (k : nat) | LHUnlock (k : nat).

(* One atomic step; an impossible one (a blocked Lock for instance) leaves the state unchanged.  The timer may fire at any
   time.  Callers unlock only what they have.  Unlock of an unlocked mutex kills the program. *)
Definition step (s : st) (l : label) : res st :=
  match l with
  (* sync.Mutex.Lock, embedded at utils/sync/mutex.go:13 *)
  | LLock p =>
      match caller s p with
      | CIdle => if locked s then Ok s
                 else Ok (St true (fset (caller s) p CHold) (helper s) (closed s) (ELock p :: log s))
      | _ => Ok s
      end
  (* sync.Mutex.Unlock, embedded at utils/sync/mutex.go:13 *)
  | LUnlock p =>
      match caller s p with
      | CHold => if locked s
                 then Ok (St false (fset (caller s) p CIdle) (helper s) (closed s) (EUnlock p :: log s))
                 else Panic
      | _ => Ok s
      end
  (* utils/sync/mutex.go:42-54 *)
  | LTry p k =>
      match caller s p, helper s k with
      | CIdle, HNone => Ok (St (locked s) (fset (caller s) p (CTry k)) (fset (helper s) k HWant) (closed s) (log s))
      | _, _ => Ok s
      end
  (* utils/sync/mutex.go:49 *)
  | LHLock k =>
      match helper s k with
      | HWant => if locked s then Ok s else Ok (St true (caller s) (fset (helper s) k HHave) (closed s) (log s))
      | _ => Ok s
      end
  (* utils/sync/mutex.go:50-51,56-57 with ok = true, then the deferred close at line 47 *)
  | LSend p =>
      match caller s p with
      | CTry k => match helper s k with
                  | HHave => Ok (St (locked s) (fset (caller s) p CHold) (fset (helper s) k HOver) (fset (closed s) k true)
                                    (ETrue p :: log s))
                  | _ => Ok s
                  end
      | _ => Ok s
      end
  (* utils/sync/mutex.go:58-59, then the deferred close at line 47 *)
  | LTimeout p =>
      match caller s p with
      | CTry k => Ok (St (locked s) (fset (caller s) p CIdle) (helper s) (fset (closed s) k true) (EFalse p :: log s))
      | _ => Ok s
      end
  (* utils/sync/mutex.go:50-51 with ok = false *)
  | LHClosed k =>
      match helper s k with
      | HHave => if closed s k then Ok (St (locked s) (caller s) (fset (helper s) k HDrop) (closed s) (log s)) else Ok s
      | _ => Ok s
      end
  (* utils/sync/mutex.go:52 *)
  | LHUnlock k =>
      match helper s k with
      | HDrop => if locked s then Ok (St false (caller s) (fset (helper s) k HOver) (closed s) (log s)) else Panic
      | _ => Ok s
      end
  end.

(* a schedule (utils/sync/mutex.go:42-61) *)
Fixpoint exec (s : st) (ls : list label) : res st :=
  match ls with
  | [] => Ok s
  | l :: rest => rbind (step s l) (fun s1 => exec s1 rest)
  end.
