(* Model of MetricsMutex of /repo/utils/sync/mutex.go, used by any number of goroutines. *)
From Coq Require Import Arith NArith List.
Import ListNotations.

(* what is observed of a goroutine: calls and returns of Lock and Unlock with the time, and the lines logged; sites are "file:line".
   utils/sync/mutex.go:22-39 *)
Inductive event :=
| ECall (site : nat) (t : N) | ELogL (wait : N) (site : nat) | ERet (t : N)
| EUCall (t : N) | ELogU (dt : N) (site : nat) | EURet (t : N).
(* where a goroutine is, with its local variables; utils/sync/mutex.go:22-39 *)
Inductive pc :=
| Idle
| L1 (holder : nat) | L2 (holder : nat) (t0 : N) | L3 (holder : nat) (t0 : N) | L4 (holder : nat) (t0 : N) | L5 (holder : nat) (t0 : N) | L6
| Held
| U1 | U2 (dt : N) | U3 (dt : N) (holder : nat) | U4 (dt : N) (holder : nat) | U5.
(* the MetricsMutex (whether m is locked, lock, holder), the clock, the goroutines and what was observed of them, newest first.
   utils/sync/mutex.go:16-20 *)
Record st := St { locked : bool; lock : N; holder : nat; now : N; loc : nat -> pc; tr : list (nat * event) }.
(* utils/sync/mutex.go:16-20, before its use *)
Definition start : st := St false 0 0 0 (fun _ => Idle) [].
(* goroutine g goes on; utils/sync/mutex.go:22-39 *)
Definition goto (l : nat -> pc) (g : nat) (p : pc) : nat -> pc := fun x => if Nat.eqb x g then p else l x.

(* One step.  Time passes; or goroutine g calls Lock (23-24), reads the clock (25), gets m.m (26), sets lock (27) and holder (28), logs
   (30), returns; calls Unlock, reads the clock and lock (34), reads holder (35), unlocks m.m (36), logs (38), returns.  A goroutine
   calls Unlock only after its Lock, and Lock only after its Unlock.  utils/sync/mutex.go:22-39 *)
Inductive step : st -> st -> Prop :=
| tick s t : (now s <= t)%N -> step s (St (locked s) (lock s) (holder s) t (loc s) (tr s))
| call g site s : loc s g = Idle -> step s (St (locked s) (lock s) (holder s) (now s) (goto (loc s) g (L1 site)) ((g, ECall site (now s)) :: tr s))
| read_t0 g h s : loc s g = L1 h -> step s (St (locked s) (lock s) (holder s) (now s) (goto (loc s) g (L2 h (now s))) (tr s))
| acquire g h t0 s : loc s g = L2 h t0 -> locked s = false -> step s (St true (lock s) (holder s) (now s) (goto (loc s) g (L3 h t0)) (tr s))
| set_lock g h t0 s : loc s g = L3 h t0 -> step s (St (locked s) (now s) (holder s) (now s) (goto (loc s) g (L4 h t0)) (tr s))
| set_holder g h t0 s : loc s g = L4 h t0 -> step s (St (locked s) (lock s) h (now s) (goto (loc s) g (L5 h t0)) (tr s))
| log_lock g h t0 s : loc s g = L5 h t0 -> step s (St (locked s) (lock s) (holder s) (now s) (goto (loc s) g L6) ((g, ELogL (lock s - t0) h) :: tr s))
| return_lock g s : loc s g = L6 -> step s (St (locked s) (lock s) (holder s) (now s) (goto (loc s) g Held) ((g, ERet (now s)) :: tr s))
| call_unlock g s : loc s g = Held -> step s (St (locked s) (lock s) (holder s) (now s) (goto (loc s) g U1) ((g, EUCall (now s)) :: tr s))
| read_dt g s : loc s g = U1 -> step s (St (locked s) (lock s) (holder s) (now s) (goto (loc s) g (U2 (now s - lock s))) (tr s))
| read_holder g dt s : loc s g = U2 dt -> step s (St (locked s) (lock s) (holder s) (now s) (goto (loc s) g (U3 dt (holder s))) (tr s))
| release g dt h s : loc s g = U3 dt h -> step s (St false (lock s) (holder s) (now s) (goto (loc s) g (U4 dt h)) (tr s))
| log_unlock g dt h s : loc s g = U4 dt h -> step s (St (locked s) (lock s) (holder s) (now s) (goto (loc s) g U5) ((g, ELogU dt h) :: tr s))
| return_unlock g s : loc s g = U5 -> step s (St (locked s) (lock s) (holder s) (now s) (goto (loc s) g Idle) ((g, EURet (now s)) :: tr s)).
(* utils/sync/mutex.go:22-39, any number of steps *)
Inductive steps : st -> st -> Prop :=
| steps_none s : steps s s
| steps_more s s1 s2 : steps s s1 -> step s1 s2 -> steps s s2.
