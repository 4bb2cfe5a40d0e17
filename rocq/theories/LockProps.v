(* Property C53: TryLock of utils/sync.Mutex. *)
From Coq Require Import Bool Arith List.
From Verif Require Import Prelude LockModel LockSpec LockProofs.
Import ListNotations.

(* Mutual exclusion in terms of what the calls returned: a Lock, or a TryLock giving true, happens only while nobody has the
   lock; TryLock gives false only to a caller that does not have it. *)
Theorem C53_exclusive : forall ls s, exec init ls = Ok s -> exclusive (log s).
Proof. intros ls s H. exact (i_excl s (reach_inv ls s H)). Qed.
Print Assumptions C53_exclusive.

(* No schedule unlocks an unlocked mutex (which would kill the program). *)
Theorem C53_no_panic : forall ls, exists s, exec init ls = Ok s.
Proof. intros ls. exact (exec_ok ls init inv_init). Qed.
Print Assumptions C53_no_panic.

(* The lock never stays held by nobody: whenever no caller has it, the timers and goroutines already running release it by
   themselves, and then any idle caller gets it. *)
Theorem C53_never_lost : forall ls s q, exec init ls = Ok s -> owner (log s) = None -> caller s q = CIdle ->
  exists is s', Forall internal is /\ exec s (is ++ [LLock q]) = Ok s' /\ owner (log s') = Some q.
Proof. exact never_lost. Qed.
Print Assumptions C53_never_lost.

(* An abandoned attempt that got the lock ends once its goroutine ran twice more, whatever all others do in between. *)
Theorem C53_abandoned_ends : forall s k l1 l2 l3 s', closed s k = true -> helper s k = HHave ->
  exec s (l1 ++ LHClosed k :: l2 ++ LHUnlock k :: l3) = Ok s' -> helper s' k = HOver.
Proof. exact abandoned. Qed.
Print Assumptions C53_abandoned_ends.

(* TryLock of a free mutex can give true. *)
Theorem C53_can_succeed : forall ls s p k, exec init ls = Ok s -> caller s p = CTry k -> locked s = false ->
  exists s', exec s [LHLock k; LSend p] = Ok s' /\ log s' = ETrue p :: log s.
Proof. exact can_succeed. Qed.
Print Assumptions C53_can_succeed.

(* 1 has the lock; 2 and 3 try; 2 times out; 1 unlocks; the goroutine of 2 gets the lock and lets it go; 3 gets it. *)
Example C53_ex :
  match exec init [LLock 1; LTry 2 0; LTry 3 1; LTimeout 2; LHLock 0; LUnlock 1; LHLock 0; LHLock 1] with
  | Ok s => owner (log s) = None /\ locked s = true /\ caller s 2 = CIdle /\ closed s 0 = true /\ helper s 0 = HHave
            /\ caller s 3 = CTry 1 /\
            match exec s [LHClosed 0; LHUnlock 0] with
            | Ok s => locked s = false /\ caller s 3 = CTry 1 /\
                      match exec s [LHLock 1; LSend 3] with
                      | Ok s => log s = [ETrue 3; EUnlock 1; EFalse 2; ELock 1]
                      | Panic => False
                      end
            | Panic => False
            end
  | Panic => False
  end.
Proof. vm_compute. repeat split. Qed.
