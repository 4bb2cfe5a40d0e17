(* Vocabulary of the statements about slow clients: C154. *)
From Coq Require Import Bool Arith List.
From Verif Require Import SwModel.
Import ListNotations.

(* a goroutine is in a call of Send or of Close for connection c, and has something left to write *)
Definition sending (p : phase) (c : nat) : Prop := match p with Wait k _ => k = c | Put k (S _) => k = c | _ => False end.
Definition ending (p : phase) (c : nat) : Prop := match p with CWait k => k = c | CPut k (S _) => k = c | _ => False end.
(* nothing can be sent to the client of c, unless it reads: its way is full, the connection is open and nobody is just closing it *)
Definition full (cap : nat) (w : world) (c : nat) : Prop := unread (conns w c) = cap /\ closed (conns w c) = false /\ forall j, ph (gos w j) <> CPut c 0.
(* everybody but the client of c *)
Definition but_client (c : nat) (x : who) : Prop := x <> ByClient c.
(* the client of c, goroutine i, and who has this lock *)
Definition these (c i : nat) (lock : option nat) (x : who) : Prop := x = ByClient c \/ x = ByGo i \/ exists j, lock = Some j /\ x = ByGo j.
(* all *)
Definition anybody (_ : who) : Prop := True.
