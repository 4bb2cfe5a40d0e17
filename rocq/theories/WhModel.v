(* Model of the websocket connections of a server, Handler.Server and RpcHandler.Server of /repo/http/ws/handler.go with Conn.Loop of
   /repo/http/ws/conn.go, over the machine of /repo/shutdown (ShutModel): when a connection holds the shutdown, and what ends it. *)
From Coq Require Import Bool Arith ZArith List.
From Verif Require Import Prelude ReqModel.
From Verif Require ShutModel LsModel.
Import ListNotations.

(* Where the goroutine that net/http runs the handler in stands.  CStart: before shutdown.Hold.  CHeld: before OnConnect returns.
   CWait: in the select of Loop.  CData: in onData.  CEnd: Loop has returned or something has panicked, the deferred functions are
   to run.  COver: they have run.  http/ws/handler.go:32-63 and 80-94, http/ws/conn.go:51-69 *)
Inductive cpc := CStart | CHeld | CWait | CData | CEnd | COver.
(* Where the goroutine that reads stands.  RNone: not started.  RRead: in Read.  RGot: it has a message for inbox.  ROver: it has
   closed inbox.  http/ws/conn.go:28-50 *)
Inductive rpc := RNone | RRead | RGot | ROver.
(* A connection: the goroutines, the messages on the way from the client (whether Read takes them), and whether the client has closed
   the connection, or lost it; http/ws/handler.go:32-63 *)
Record conn := Conn { c_go : cpc; c_rd : rpc; c_buf : list bool; c_left : bool }.
(* The program: the package shutdown, the connections, whether the context given to Listen is cancelled by someone, and whether it is
   the one that WaitForSignal cancels at the second signal (http/server.go:96-100, shutdown/shutdown.go:101-104) *)
Record wst := Wst { sh : ShutModel.st; conns : nat -> option conn; cut : bool; wired : bool }.
(* no connection so far (http/ws/handler.go:27) *)
Definition winit (w : bool) : wst := Wst ShutModel.init (fun _ => None) false w.

(* has WaitForSignal cancelled its context (shutdown/shutdown.go:103) *)
Definition sig_cancelled (l : list ShutModel.event) : bool :=
  existsb (fun e => match e with ShutModel.ECancel _ => true | _ => false end) l.
(* is the context of the connections done: conn.Request().Context() comes from that of Listen, and net/http cancels it on its own only
   when the handler has returned, as the connection is hijacked (http/ws/handler.go:33, http/server.go:98-103) *)
Definition done (s : wst) : bool := cut s || (wired s && sig_cancelled (ShutModel.log (sh s))).

(* how OnConnect or OnData ends: without an error, or with one or a panic (http/ws/handler.go:52, http/ws/conn.go:60) *)
Inductive outcome := Fine | Fails.
(* the steps of one connection that leave the package shutdown alone, see cstep *)
Inductive clabel :=
| KSend (good : bool) | KLeave
| KConnect (o : outcome) | KRead | KGive | KDrop | KData (o : outcome) | KCancelled | KInboxClosed.
(* the steps, see wstep *)
Inductive wlabel := Sh (l : ShutModel.label) | Cut | KUp (i : nat) | KHold (i : nat) | KRel (i : nat) | K (i : nat) (l : clabel).

(* bookkeeping (http/ws/handler.go:32-63) *)
Definition set_conn (s : wst) (i : nat) (v : conn) : wst := Wst (sh s) (fset (conns s) i (Some v)) (cut s) (wired s).
(* as above (http/ws/handler.go:32-63) *)
Definition go_to (v : conn) (p : cpc) : conn := Conn p (c_rd v) (c_buf v) (c_left v).
(* as above (http/ws/handler.go:32-63) *)
Definition rd_to (v : conn) (r : rpc) : conn := Conn (c_go v) r (c_buf v) (c_left v).

(* the connection is closed on this side: Close is deferred by Loop and by the handler, and golang.org/x/net/websocket closes it when
   the handler is over (http/ws/handler.go:58, http/ws/conn.go:51) *)
Definition shut (v : conn) : bool := match c_go v with CEnd | COver => true | _ => false end.

(* One atomic step of a connection; d says whether the context is done.  A step that is not possible in the state leaves it unchanged. *)
Definition cstep (d : bool) (v : conn) (l : clabel) : conn :=
  match l with
  (* the client sends a message, which Read takes or not (http/ws/ws.go:64-70) *)
  | KSend g => if c_left v then v else Conn (c_go v) (c_rd v) (c_buf v ++ [g]) (c_left v)
  (* the client closes the connection, or is lost *)
  | KLeave => Conn (c_go v) (c_rd v) (c_buf v) true
  (* http/ws/handler.go:50-59: OnConnect returns; Loop starts the goroutine that reads *)
  | KConnect o => match c_go v, o with CHeld, Fine => Conn CWait RRead (c_buf v) (c_left v) | CHeld, Fails => go_to v CEnd | _, _ => v end
  (* http/ws/conn.go:31: Read returns a message, or an error as it does not take it, or as the connection is closed by either side *)
  | KRead =>
      match c_rd v with
      | RRead =>
          if shut v then rd_to v ROver
          else match c_buf v with
               | true :: b => Conn (c_go v) RGot b (c_left v)
               | false :: b => Conn (c_go v) ROver b (c_left v)
               | [] => if c_left v then rd_to v ROver else v
               end
      | _ => v
      end
  (* http/ws/conn.go:43,56-60: the message goes from one goroutine to the other, which calls onData *)
  | KGive => match c_go v, c_rd v with CWait, RGot => Conn CData RRead (c_buf v) (c_left v) | _, _ => v end
  (* http/ws/conn.go:44-46: the context is done before the message is taken *)
  | KDrop => match c_rd v with RGot => if d then rd_to v ROver else v | _ => v end
  (* http/ws/conn.go:60-67: onData returns *)
  | KData o => match c_go v with CData => go_to v (match o with Fine => CWait | Fails => CEnd end) | _ => v end
  (* http/ws/conn.go:54-55 *)
  | KCancelled => match c_go v with CWait => if d then go_to v CEnd else v | _ => v end
  (* http/ws/conn.go:56-59 *)
  | KInboxClosed => match c_go v, c_rd v with CWait, ROver => go_to v CEnd | _, _ => v end
  end.
(* One atomic step of the program (http/ws/handler.go:27-104).  A panic of the package shutdown ends the run. *)
Definition wstep (s : wst) (l : wlabel) : res wst :=
  if ShutModel.exited (sh s) then Ok s else
  match l with
  | Sh l => if LsModel.outside l then rbind (ShutModel.step (sh s) l) (fun t => Ok (Wst t (conns s) (cut s) (wired s))) else Ok s
  (* someone cancels the context that was given to Listen (http/server.go:96) *)
  | Cut => Ok (Wst (sh s) (conns s) true (wired s))
  (* http/ws/handler.go:32-35: a client has connected, the handshake is done *)
  | KUp i => match conns s i with None => Ok (set_conn s i (Conn CStart RNone [] false)) | Some _ => Ok s end
  (* http/ws/handler.go:37 Hold *)
  | KHold i =>
      match conns s i with
      | Some v => match c_go v with
                  | CStart => rbind (ShutModel.step (sh s) (ShutModel.LHold (LsModel.hid i) false))
                                (fun t => Ok (set_conn (Wst t (conns s) (cut s) (wired s)) i (go_to v CHeld)))
                  | _ => Ok s
                  end
      | None => Ok s
      end
  (* http/ws/handler.go:37,58: the deferred functions, the last of them Release *)
  | KRel i =>
      match conns s i with
      | Some v => match c_go v with
                  | CEnd => rbind (ShutModel.step (sh s) (ShutModel.LRelease (LsModel.rid i) (LsModel.hid i)))
                              (fun t => Ok (set_conn (Wst t (conns s) (cut s) (wired s)) i (go_to v COver)))
                  | _ => Ok s
                  end
      | None => Ok s
      end
  (* http/ws/handler.go:50-63, http/ws/conn.go:26-70 *)
  | K i l => match conns s i with Some v => Ok (set_conn s i (cstep (done s) v l)) | None => Ok s end
  end.
(* a schedule: any list of steps (http/ws/handler.go:27-104) *)
Fixpoint wexec (s : wst) (ls : list wlabel) : res wst :=
  match ls with
  | [] => Ok s
  | l :: rest => rbind (wstep s l) (fun s1 => wexec s1 rest)
  end.
