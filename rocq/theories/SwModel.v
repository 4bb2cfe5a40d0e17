(* Model of goroutines that send over websocket connections whose clients may be slow: Conn.Send, Conn.Close (/repo/http/ws/conn.go:21-23,72-74) and
   wsImpl.Write, Close (/repo/http/ws/ws.go:39-62,123-129), as to when they return. *)
From Coq Require Import Bool Arith List.
Import ListNotations.

(* What is sent to one client and not read by it yet (in the buffers of both systems), who holds wsImpl.m and the lock that WriteClose takes, and whether
   the connection was closed; http/ws/ws.go:32-35 *)
Record conn := Conn { unread : nat; locked : option nat; closing : option nat; closed : bool }.
(* What a goroutine is about: Idle; Wait: this.m.Lock() (http/ws/ws.go:41); Put: writing, so many bytes left (ws.go:44, w.Write);
   CWait, CPut: in WriteClose (ws.go:124) *)
Inductive phase := Idle | Wait (c n : nat) | Put (c n : nat) | CWait (c : nat) | CPut (c n : nat).
(* what it does next: send a message of so many bytes, as a frame, to this connection; close this connection *)
Inductive act := Send (c n : nat) | Close (c : nat).
(* a goroutine: what it is about, what it does next, how its calls have returned (true: nil); http/ws/conn.go:72,21 *)
Record go := Go { ph : phase; todo : list act; results : list bool }.
(* cancelled: the context of all calls is done *)
Record world := World { conns : nat -> conn; gos : nat -> go; cancelled : bool }.
(* the world with another connection, or another goroutine; http/ws/ws.go:32 *)
Definition with_conn (w : world) (c : nat) (x : conn) : world := World (fun k => if k =? c then x else conns w k) (gos w) (cancelled w).
(* see above *)
Definition with_go (w : world) (i : nat) (g : go) : world := World (conns w) (fun k => if k =? i then g else gos w k) (cancelled w).
(* goroutine i is about something else; http/ws/ws.go:39 *)
Definition goes (w : world) (i : nat) (p : phase) : world := with_go w i (Go p (todo (gos w i)) (results (gos w i))).
(* its call returns; http/ws/ws.go:44,128 *)
Definition returns (w : world) (i : nat) (ok : bool) : world := with_go w i (Go Idle (todo (gos w i)) (results (gos w i) ++ [ok])).

(* who makes a step *)
Inductive who := ByGo (i : nat) | ByClient (c : nat) | ByCancel.
Section Sw.
  (* so much fits on the way to a client that reads nothing, and so much is in a close frame *)
  Context (cap frame : nat).
  (* The steps.  There is no deadline for writing, and Write does not look at the context (http/ws/ws.go:39-62).
     Simplified: the lock of WriteClose is held until the connection is closed. *)
  Inductive step : who -> world -> world -> Prop :=
  (* http/ws/conn.go:73, ws.go:39-40: Send is called, the message is encoded *)
  | s_send i w c n r : ph (gos w i) = Idle -> todo (gos w i) = Send c n :: r -> step (ByGo i) w (with_go w i (Go (Wait c n) r (results (gos w i))))
  (* http/ws/ws.go:41: it gets the lock *)
  | s_lock i w c n : ph (gos w i) = Wait c n -> locked (conns w c) = None ->
      step (ByGo i) w (goes (with_conn w c (Conn (unread (conns w c)) (Some i) (closing (conns w c)) (closed (conns w c)))) i (Put c n))
  (* http/ws/ws.go:53: one more byte is on its way *)
  | s_put i w c n : ph (gos w i) = Put c (S n) -> closed (conns w c) = false -> unread (conns w c) < cap ->
      step (ByGo i) w (goes (with_conn w c (Conn (S (unread (conns w c))) (locked (conns w c)) (closing (conns w c)) false)) i (Put c n))
  (* http/ws/ws.go:54-56,42: the connection was closed, an error, the lock is given back *)
  | s_fail i w c n : ph (gos w i) = Put c (S n) -> closed (conns w c) = true ->
      step (ByGo i) w (returns (with_conn w c (Conn (unread (conns w c)) None (closing (conns w c)) true)) i false)
  (* http/ws/ws.go:61,42: all is written *)
  | s_sent i w c : ph (gos w i) = Put c 0 ->
      step (ByGo i) w (returns (with_conn w c (Conn (unread (conns w c)) None (closing (conns w c)) (closed (conns w c)))) i true)
  (* http/ws/conn.go:22, ws.go:123-124: Close is called; it does not take wsImpl.m *)
  | s_close i w c r : ph (gos w i) = Idle -> todo (gos w i) = Close c :: r -> step (ByGo i) w (with_go w i (Go (CWait c) r (results (gos w i))))
  (* http/ws/ws.go:124: WriteClose gets its lock *)
  | s_clock i w c : ph (gos w i) = CWait c -> closing (conns w c) = None ->
      step (ByGo i) w (goes (with_conn w c (Conn (unread (conns w c)) (locked (conns w c)) (Some i) (closed (conns w c)))) i (CPut c frame))
  (* http/ws/ws.go:124: one more byte of the close frame *)
  | s_cput i w c n : ph (gos w i) = CPut c (S n) -> closed (conns w c) = false -> unread (conns w c) < cap ->
      step (ByGo i) w (goes (with_conn w c (Conn (S (unread (conns w c))) (locked (conns w c)) (closing (conns w c)) false)) i (CPut c n))
  (* http/ws/ws.go:125-127: it was closed before, an error *)
  | s_cfail i w c n : ph (gos w i) = CPut c (S n) -> closed (conns w c) = true ->
      step (ByGo i) w (returns (with_conn w c (Conn (unread (conns w c)) (locked (conns w c)) None true)) i false)
  (* http/ws/ws.go:128: the connection is closed *)
  | s_closed i w c : ph (gos w i) = CPut c 0 ->
      step (ByGo i) w (returns (with_conn w c (Conn (unread (conns w c)) (locked (conns w c)) None true)) i true)
  (* the client of connection c reads a byte *)
  | s_read w c n : unread (conns w c) = S n -> step (ByClient c) w (with_conn w c (Conn n (locked (conns w c)) (closing (conns w c)) (closed (conns w c))))
  (* the context is done *)
  | s_cancel w : step ByCancel w (World (conns w) (gos w) true).
  (* any number of steps, by those who may *)
  Inductive steps (may : who -> Prop) : world -> world -> Prop :=
  | none w : steps may w w
  | more w1 w2 w3 x : steps may w1 w2 -> may x -> step x w2 w3 -> steps may w1 w3.
End Sw.
(* at first: nothing was sent, nobody has a lock, every goroutine has something to do *)
Definition start (acts : nat -> list act) : world := World (fun _ => Conn 0 None None false) (fun i => Go Idle (acts i) []) false.
