(* Vocabulary of the statements about shutdown.  Histories are lists of events, newest first. *)
From Coq Require Import Bool Arith ZArith Lia List.
From Verif Require Import Prelude ShutModel.
Import ListNotations.

Definition holds (l : list event) : list nat := flat_map (fun e => match e with EHold h => [h] | _ => [] end) l.
Definition releases (l : list event) : list nat := flat_map (fun e => match e with ERelease h => [h] | _ => [] end) l.
Definition closes (l : list event) : list Z := flat_map (fun e => match e with EClosed t => [t] | _ => [] end) l.
Definition closes5 (l : list event) : list Z := flat_map (fun e => match e with EClosed5 t => [t] | _ => [] end) l.

(* no hold is outstanding: every hold taken has been released *)
Definition idle (l : list event) : Prop := forall h, In (EHold h) l -> In (ERelease h) l.
(* some hold is outstanding *)
Definition busy (l : list event) : Prop := exists h, In (EHold h) l /\ ~ In (ERelease h) l.
(* no ReleaseFn was called twice *)
Definition released_once (l : list event) : Prop := NoDup (releases l).
(* every channel given by Done has been closed *)
Definition none_pending (l : list event) : Prop := forall d, In (EDone d) l -> In (EDoneClosed d) l.

(* the events of a call w of waitForSignal, oldest first *)
Definition mine (w : nat) (e : event) : bool :=
  match e with
  | EBegin r | EBeginRet r | ESig r | ECancel r | EExit r | EReturn r => r =? w
  | _ => false
  end.
Definition story (w : nat) (l : list event) : list event := filter (mine w) (rev l).
(* three signals and what each does *)
Definition script (w : nat) : list event :=
  [ESig w; EBegin w; EBeginRet w; ESig w; ECancel w; ESig w; EExit w].

(* steps the runtime takes by itself: nobody calls the package, no signal, no time passes *)
Definition internal (l : label) : Prop :=
  match l with
  | LBeginStep _ | LHoldGo _ | LRelEnd _ | LWait _ | LAcquire _ | LCloseD _ => True
  | _ => False
  end.

(* What a careful program does: it releases each hold once, and takes a hold only while another is outstanding or
   while no channel from Done is still to be closed. *)
Definition careful (l : list event) (x : label) : Prop :=
  match x with
  | LHold _ _ => busy l \/ none_pending l
  | LRelease _ h => ~ In (ERelease h) l
  | _ => True
  end.
Fixpoint careful_run (s : st) (ls : list label) : Prop :=
  match ls with
  | [] => True
  | x :: rest => careful (log s) x /\ forall s1, step s x = Ok s1 -> careful_run s1 rest
  end.
