(* Vocabulary of the statements about BufferedRWC: functions of the history of events (newest first) only. *)
From Coq Require Import Bool Arith Ascii List.
From Verif Require Import Prelude BufModel.
Import ListNotations.

(* the bytes appended, read and written so far, oldest first *)
Fixpoint appended (l : list event) : bytes :=
  match l with [] => [] | EAppend b :: t => appended t ++ b | _ :: t => appended t end.
Fixpoint delivered (l : list event) : bytes :=
  match l with [] => [] | ERead _ b :: t => delivered t ++ b | _ :: t => delivered t end.
Fixpoint accepted (l : list event) : list bytes :=
  match l with [] => [] | EWrite [] :: t => accepted t | EWrite b :: t => accepted t ++ [b] | _ :: t => accepted t end.
(* Close or SetReadClosed was called *)
Definition shut (l : list event) : Prop := In EClose l \/ In ESetClosed l.

Definition prefix {A} (a b : list A) : Prop := exists c, b = a ++ c.
(* nobody uses the arrays given to Append and Write again *)
Definition no_poke (l : label) : Prop := match l with LPoke _ _ => False | _ => True end.
(* Append with at most n bytes; Read with room for n *)
Definition fits (n : nat) (l : label) : Prop :=
  match l with LAppend x => sl_len x <= n | LRead _ len _ => n <= len | _ => True end.
Definition reader_waits (s : st) (r : nat) : Prop := exists n, In (r, n) (waiting s).
(* the step does not call SetReadClosed *)
Definition no_set (l : label) : Prop := match l with LSetClosed => False | _ => True end.
(* between the two states Read of r returned *)
Definition returned (s s' : st) (r : nat) : Prop :=
  log s' = EEOF r :: log s \/ exists b, log s' = ERead r b :: log s.
