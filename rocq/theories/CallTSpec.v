(* Vocabulary of the statements about the time a CallHandler takes: C155. *)
From Coq Require Import ZArith.
From Verif Require Import CallTModel.
Open Scope Z_scope.

(* Handler was called, at this time *)
Definition called (s : st) (t : Z) : Prop := main s = Handling t \/ main s = Replied t.
Definition anybody (_ : who) : Prop := True.
(* the program, without the Handler function *)
Definition server (x : who) : Prop := x = Server.
(* nothing goes wrong: time passes, the client sends, the program runs, also Handler *)
Definition smooth (x : who) : Prop := x <> Outside.
Definition alone (x : who) : Prop := x = Time \/ x = Server.
(* "how long to wait for the request to be completed default is 30s" (http/call.go:16) *)
Definition allowed (h : CallHandler) (t : Z) : Prop := (0 < ReadTimeout h -> t = ReadTimeout h) /\ (ReadTimeout h <= 0 -> t = 30 * 1000000000).
