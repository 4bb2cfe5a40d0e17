(* Vocabulary of the statements about stacks and sources: C151. *)
From Coq Require Import Bool Ascii String Arith NArith List.
From Verif Require Import Prelude DecModel StkModel.
Import ListNotations.

(* a function makes a call: it is in this file, at this line; the functions it was called from, innermost first, are at theirs *)
Record place := Place { p_file : bytes; p_line : N; p_func : bytes; p_outer : list frame }.
(* file and line, as they are written *)
Definition position (file : bytes) (line : N) : bytes := file ++ B ":" ++ dec line.
(* all positions of a place, innermost first *)
Definition trace (p : place) : list bytes := position (p_file p) (p_line p) :: map (fun f => position (f_file f) (f_line f)) (p_outer p).
(* what is running, before the line of the call is noted *)
Definition running (p : place) (any : N) : frames := Frame (p_file p) any (p_func p) :: p_outer p.
