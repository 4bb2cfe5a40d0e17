(* Vocabulary of the statements about ReadAll. *)
From Coq Require Import List.
From Verif Require Import Prelude RdModel.
Import ListNotations.

(* the bytes of some calls of Read *)
Definition data (l : list rd) : bytes := concat (map rd_data l).
(* those of them that gave no error *)
Definition goods (l : list rd) : list rd := filter (fun r => match rd_err r with None => true | Some _ => false end) l.
(* what the reader gives up to its first error *)
Fixpoint upto (l : list rd) : list rd :=
  match l with [] => [] | x :: t => x :: match rd_err x with Some _ => [] | None => upto t end end.
(* The data of a reader up to its end: all bytes of its calls of Read, up to and with the first one that gives an error. *)
Definition all_data (r : list rd) : bytes := data (upto r).
