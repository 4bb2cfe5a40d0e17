(* Model of the contexts of websocket connections (/repo/http/ws/handler.go:29-60, 79-94, /repo/http/ws/rpc.go:18-33), over the requests of RqModel. *)
From Coq Require Import Bool Ascii String Arith NArith ZArith List.
From Verif Require Import Prelude DurModel JsonModel CtxModel RqModel.
Import ListNotations.

(* A websocket connection: the context given to Loop (and with it to OnData), the one whose CancelFunc is called when the handler returns, its request, conn.SID(),
   whether it is one of an RpcHandler, and what uuid.NewString would answer in WithTracking.  http/ws/handler.go:29-60,79-94 *)
Record wsc := Wsc { w_ctx : nat; w_own : nat; w_req : req; w_sid : bytes; w_rpc : bool; w_fresh : bytes }.
(* the requests and the websocket connections; http/ws/handler.go:29 *)
Record wprog := WProg { web : prog; wss : list wsc }.
(* What happens: anything else, also the end of a connection (EOp with its CancelFunc), or a websocket connection for request r of Handler.Server or
   RpcHandler.Server; http/ws/handler.go:29,79 *)
Inductive wevent := WElse (e : event) | WOpen (r : nat) (sid fresh : bytes) (rpc : bool).
(* http/ws/handler.go:34,49: Span, then the tag of the session; http/ws/handler.go:82: only Span.  An OnConnect that returns another context is left out. *)
Definition open_ops (k c : nat) (sid fresh : bytes) (rpc : bool) : list op := OSpan c fresh :: (if rpc then [] else [OTag k (B "ws.sid") (jstr false sid)]).
(* conn.SID(): http/ws/handler.go:40-41; newRpcConn sets none, http/ws/rpc.go:18-24 *)
Definition SID (sid : bytes) (rpc : bool) : bytes := if rpc then [] else sid.
(* one event; http/ws/handler.go:29-60,79-94 *)
Definition whappen (w : wprog) (e : wevent) : wprog :=
  match e with
  | WElse e => WProg (happen (web w) e) (wss w)
  | WOpen r sid fresh rpc =>
      match nth_error (reqs (web w)) r with
      | Some x => let k := next (web w) in
                  WProg (fold_left happen (map EOp (open_ops k (r_ctx x) sid fresh rpc)) (web w)) (wss w ++ [Wsc (if rpc then k else S k) k x (SID sid rpc) rpc fresh])
      | None => w
      end
  end.
(* a history; http/ws/handler.go:29 *)
Definition whistory (l : list wevent) : wprog := fold_left whappen l (WProg (Prog [] [] [] []) []).
