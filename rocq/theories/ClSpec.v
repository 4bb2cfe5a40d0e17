(* Vocabulary of the statements about the calls of http.Client: what happened, what the caller got, what is still occupied. *)
From Coq Require Import Bool Arith ZArith List.
From Verif Require Import Prelude ClModel.
Import ListNotations.

(* the calls that began, in order *)
Definition begun (ls : list label) : list (kind * nat) := flat_map (fun l => match l with LCall k c => [(k, c)] | _ => [] end) ls.
(* call i is of kind k, with the context c *)
Definition began (ls : list label) (i : nat) (k : kind) (c : nat) : Prop := nth_error (begun ls) i = Some (k, c).
(* net/http had this answer for call i *)
Definition answered (ls : list label) (i : nat) (a : answer) : Prop := In (LAnswer i a) ls.
(* the context c became done *)
Definition cancelled (ls : list label) (c : nat) : Prop := In (LCancel c) ls.
(* call i has returned *)
Definition returned (s : st) (i : nat) (r : result) : Prop := exists x, nth_error (calls s) i = Some x /\ c_stage x = Over r.
(* call i occupies a connection *)
Definition occupies (s : st) (i : nat) : Prop := exists x, nth_error (calls s) i = Some x /\ c_held x = true.
(* the statuses of success *)
Definition success (z : Z) : Prop := z = 200%Z \/ z = 204%Z.
(* a response with this status cannot have content (RFC 9110, 6.4.1) *)
Definition contentless (z : Z) : Prop := z = 204%Z \/ z = 304%Z.
(* there is something to be read from the connection after the header *)
Definition has_content (z : Z) (b : bytes) (w : bool) : Prop := ~ contentless z /\ (b <> [] \/ w = false).
(* the content of a response that came as a whole *)
Definition content (z : Z) (b : bytes) (w : bool) (r : bytes) : Prop := (contentless z /\ r = []) \/ (~ contentless z /\ w = true /\ r = b).
