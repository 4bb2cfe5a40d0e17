(* Vocabulary of the statements about MetricsMutex. *)
From Coq Require Import Arith NArith List.
From Verif Require Import MmModel.
Import ListNotations.

(* what was observed of goroutine g, newest first *)
Definition own (g : nat) (tr : list (nat * event)) : list event := map snd (filter (fun x => Nat.eqb (fst x) g) tr).
(* g has returned from Lock and not called Unlock since *)
Definition inside (g : nat) (tr : list (nat * event)) : Prop := exists t h, own g tr = ERet t :: h.
(* g waits in Lock *)
Definition waiting (g : nat) (tr : list (nat * event)) : Prop := exists site t h, own g tr = ECall site t :: h.

(* Histories of one goroutine: Lock is called at site at t0, waits, returns at t1; Unlock is called at t2, returns at t3.  The lines logged
   name the site; the first does not exaggerate the wait, the second counts at least the time between t1 and t2, and together they
   count no more than all of the time. *)
Inductive phase := Out | Enter (site : nat) (t0 : N) | Entered (site : nat) (t0 w : N) | Inside (site : nat) (t0 w t1 : N) | Leave (site : nat) (t0 w t1 t2 : N) | Left (site : nat) (t0 w t1 t2 dt : N).
Inductive history : phase -> list event -> Prop :=
| h_none : history Out []
| h_call site t0 h : history Out h -> history (Enter site t0) (ECall site t0 :: h)
| h_logged site t0 w h : history (Enter site t0) h -> history (Entered site t0 w) (ELogL w site :: h)
| h_locked site t0 w t1 h : history (Entered site t0 w) h -> (t0 + w <= t1)%N -> history (Inside site t0 w t1) (ERet t1 :: h)
| h_unlock site t0 w t1 t2 h : history (Inside site t0 w t1) h -> (t1 <= t2)%N -> history (Leave site t0 w t1 t2) (EUCall t2 :: h)
| h_logged2 site t0 w t1 t2 dt h : history (Leave site t0 w t1 t2) h -> (t2 <= t1 + dt)%N -> history (Left site t0 w t1 t2 dt) (ELogU dt site :: h)
| h_unlocked site t0 w t1 t2 dt t3 h : history (Left site t0 w t1 t2 dt) h -> (t0 + w + dt <= t3)%N -> history Out (EURet t3 :: h).
