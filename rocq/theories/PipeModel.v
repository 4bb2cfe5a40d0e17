(* Model of Pipe in /repo/enc/util.go: two channels, each with writers at one end and readers at the other. *)
From Coq Require Import Bool Arith List.
From Verif Require Import Prelude ReqModel.
Import ListNotations.

Section Pipe.
  (* the nodes that are sent (enc/util.go:37,38); what they are does not matter *)
  Context {V : Type}.

  (* What happened on one channel: ECall, EReading: Write or Read was called.  EOk, EClosed, ECancelW: Write returned nil,
     io.ErrClosedPipe, the error of its context (enc/util.go:76,71,78).  ERead, EEof, ECancelR: Read returned a node, io.EOF,
     the error of its context (enc/util.go:62,60,64).  EClose, ECloseAgain: Close returned (enc/util.go:87,84). *)
  Inductive event :=
  | ECall (w : nat) (v : V) | EReading (r : nat) | EOk (w : nat) (v : V) | EClosed (w : nat) | ECancelW (w : nat)
  | ERead (r : nat) (v : V) | EEof (r : nat) | ECancelR (r : nat) | EClose | ECloseAgain.

  (* One channel: buffered nodes, oldest first, capacity, closed; the calls of Write and Read in their select
     (enc/util.go:57,74).  Events newest first. *)
  Record st := St {
    buf : list V; cap : nat; closed : bool; writing : nat -> option V; reading : nat -> bool; log : list event }.

  (* enc/util.go:44-45 *)
  Definition init (n : nat) : st := St [] n false (fun _ => None) (fun _ => false) [].

  (* LWrite w v, LRead r: a caller that is in no other call calls Write or Read.  LSend w: the channel takes the node into
     its buffer.  LXfer w r: it goes from a writer to a reader that waits.  LBroken w: the send finds the channel closed.
     LRecv r, LEof r: the reader takes the oldest node; finds the channel closed and empty.  LCancelW w, LCancelR r: the
     context is done, which may be at any time.  LClose: somebody calls Close. *)
  Inductive label :=
  | LWrite (w : nat) (v : V) | LRead (r : nat) | LSend (w : nat) | LXfer (w r : nat) | LBroken (w : nat) | LRecv (r : nat)
  | LEof (r : nat) | LCancelW (w : nat) | LCancelR (r : nat) | LClose.

  (* the channel operation ch <- v that can go on now (enc/util.go:75): Panic on a closed channel *)
  Definition send_raw (s : st) : res unit := if closed s then Panic else Ok tt.
  (* close(ch) (enc/util.go:86) *)
  Definition close_raw (s : st) : res bool := if closed s then Panic else Ok true.

  (* see step; enc/util.go:57-66,74-79 *)
  Definition w_done (s : st) (w : nat) (b : list V) (e : event) : st :=
    St b (cap s) (closed s) (fset (writing s) w None) (reading s) (e :: log s).
  (* see step; enc/util.go:57-66 *)
  Definition r_done (s : st) (r : nat) (b : list V) (e : event) : st :=
    St b (cap s) (closed s) (writing s) (fset (reading s) r false) (e :: log s).

  (* One atomic step.  An impossible one leaves the state unchanged.  Which of several waiting writers or readers goes first
     is free; Go takes the longest waiting. *)
  Definition step (s : st) (l : label) : st :=
    match l with
    (* enc/util.go:68-74 *)
    | LWrite w v =>
        match writing s w with
        | None => St (buf s) (cap s) (closed s) (fset (writing s) w (Some v)) (reading s) (ECall w v :: log s)
        | Some _ => s
        end
    (* enc/util.go:56-57 *)
    | LRead r =>
        if reading s r then s
        else St (buf s) (cap s) (closed s) (writing s) (fset (reading s) r true) (EReading r :: log s)
    (* enc/util.go:75-76 *)
    | LSend w =>
        match writing s w with
        | Some v =>
            match send_raw s with
            | Ok _ => if length (buf s) <? cap s then w_done s w (buf s ++ [v]) (EOk w v) else s
            | Panic => s
            end
        | None => s
        end
    (* enc/util.go:58,62 and 75-76 at once *)
    | LXfer w r =>
        match writing s w, reading s r, buf s with
        | Some v, true, [] =>
            match send_raw s with
            | Ok _ => r_done (w_done s w [] (EOk w v)) r [] (ERead r v)
            | Panic => s
            end
        | _, _, _ => s
        end
    (* enc/util.go:75 panics; recovered at 69-73 *)
    | LBroken w =>
        match writing s w with
        | Some _ => match send_raw s with
                    | Ok _ => s
                    | Panic => w_done s w (buf s) (EClosed w)
                    end
        | None => s
        end
    (* enc/util.go:58,62 *)
    | LRecv r =>
        match reading s r, buf s with
        | true, v :: rest => r_done s r rest (ERead r v)
        | _, _ => s
        end
    (* enc/util.go:58-60 *)
    | LEof r =>
        match reading s r, buf s with
        | true, [] => if closed s then r_done s r [] (EEof r) else s
        | _, _ => s
        end
    (* enc/util.go:77-78 *)
    | LCancelW w => match writing s w with Some _ => w_done s w (buf s) (ECancelW w) | None => s end
    (* enc/util.go:63-64 *)
    | LCancelR r => if reading s r then r_done s r (buf s) (ECancelR r) else s
    (* enc/util.go:82-88; the recovered Close returns nil too *)
    | LClose =>
        match close_raw s with
        | Ok b => St (buf s) (cap s) b (writing s) (reading s) (EClose :: log s)
        | Panic => St (buf s) (cap s) (closed s) (writing s) (reading s) (ECloseAgain :: log s)
        end
    end.

  (* a schedule (enc/util.go:56-88) *)
  Fixpoint exec (s : st) (ls : list label) : st :=
    match ls with [] => s | l :: r => exec (step s l) r end.

  (* enc/util.go:43-54 NewPipe: one channel from the first end to the second and one back.  A label says on which channel. *)
  Definition NewPipe (n : nat) : st * st := (init n, init n).
  (* a step of either end; enc/util.go:56-88 *)
  Definition pstep (p : st * st) (l : bool * label) : st * st :=
    if fst l then (step (fst p) (snd l), snd p) else (fst p, step (snd p) (snd l)).
  (* a schedule of both; enc/util.go:56-88 *)
  Fixpoint pexec (p : st * st) (ls : list (bool * label)) : st * st :=
    match ls with [] => p | l :: r => pexec (pstep p l) r end.
End Pipe.
Arguments st : clear implicits.
Arguments event : clear implicits.
Arguments label : clear implicits.
