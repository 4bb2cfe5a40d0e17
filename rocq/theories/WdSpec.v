(* What is said about the frame that ends a websocket connection: C129. *)
From Coq Require Import Bool Ascii String Arith NArith ZArith List.
From Verif Require Import Prelude DurModel EncModel ErrModel WsModel WsSpec WdModel.
Import ListNotations.

(* the frame that says that the connection ends *)
Definition farewell (f : frame) : bool := beqb (f_type f) (B "disconnect").
Section Everything.
  Context {V A H : Type}.
  Context (user_msg : N -> bytes) (status_text : Z -> bytes) (user_node : N -> res node) (isprint : N -> bool).
  Context (bad : option node -> gerr) (again : gerr) (i : einfo) (f2i f2u : floatv -> Z).
  (* all that a client gets on a connection, for what it sends *)
  Definition everything (reg : @registry V A H) (h : H) (ns : list (option node)) : list frame :=
    sent (r_log (serve user_msg status_text user_node isprint bad again i f2i f2u reg (Rpc [] [] h []) ns)).
End Everything.
