(* Vocabulary of the statements about websocket connections and the shutdown. *)
From Coq Require Import Bool Arith ZArith List.
From Verif Require Import Prelude ReqModel ShutModel ShutSpec WhModel.
Import ListNotations.

(* the server has taken the connection i, and its handler has not ended *)
Definition open (s : wst) (i : nat) : Prop := exists v, conns s i = Some v /\ c_go v <> CStart /\ c_go v <> COver.
(* its handler has ended *)
Definition over (s : wst) (i : nat) : Prop := exists v, conns s i = Some v /\ c_go v = COver.
(* nothing of the client is on the way, the client has not left, and Loop waits *)
Definition idle_client (s : wst) (i : nat) : Prop := exists v, conns s i = Some v /\ c_go v = CWait /\ c_rd v = RRead /\ c_buf v = [] /\ c_left v = false.
(* the client has closed the connection or is lost *)
Definition left_client (s : wst) (i : nat) : Prop := exists v, conns s i = Some v /\ c_left v = true.
(* the context of the connections is done *)
Definition cancelled (s : wst) : Prop := done s = true.
(* the shutdown has begun *)
Definition begun (s : wst) : Prop := ch (sh s) = true.
(* the client of connection i does nothing in this schedule *)
Definition silent (i : nat) (ls : list wlabel) : Prop := forall l, In (K i l) ls -> match l with KSend _ | KLeave => False | _ => True end.
(* steps of the goroutines of connection i *)
Definition own (i : nat) (l : wlabel) : Prop :=
  match l with K j k => j = i /\ match k with KSend _ | KLeave => False | _ => True end | KRel j => j = i | _ => False end.
(* its handlers return, and without an error *)
Definition polite (l : wlabel) : Prop := match l with K _ (KConnect Fails) | K _ (KData Fails) => False | _ => True end.
(* The steps of a schedule that do something to connection i *)
Fixpoint effective (s : wst) (i : nat) (ls : list wlabel) : nat :=
  match ls with
  | [] => 0
  | l :: rest =>
      match wstep s l with
      | Ok s1 => (match conns s i, conns s1 i with
                  | Some v, Some v1 => if match c_go v, c_go v1 with
                      | CStart, CStart | CHeld, CHeld | CWait, CWait | CData, CData | CEnd, CEnd | COver, COver => true | _, _ => false end
                      && match c_rd v, c_rd v1 with RNone, RNone | RRead, RRead | RGot, RGot | ROver, ROver => true | _, _ => false end then 0 else 1
                  | _, _ => 0
                  end) + effective s1 i rest
      | Panic => 0
      end
  end.
