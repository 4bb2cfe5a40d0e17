(* Model of Quote in /repo/test/util.go. *)
From Coq Require Import Bool Ascii String Arith NArith List.
From Verif Require Import Prelude.
Import ListNotations.

(* test/util.go:108-114: the replacer.  All its old strings are single bytes, so it works byte by byte
   (strings.byteStringReplacer). *)
Definition tq_esc (c : ascii) : bytes :=
  let n := N_of_ascii c in
  if (n =? 96)%N then [ascii_of_N 92; ascii_of_N 96]
  else if (n =? 92)%N then [ascii_of_N 92; ascii_of_N 92]
  else if (n =? 9)%N then B "\t"
  else if (n =? 13)%N then B "\r"
  else if (n =? 10)%N then B "\v"
  else [c].

(* test/util.go:107-116 Quote *)
Definition Quote (s : bytes) : bytes := [ascii_of_N 96] ++ flat_map tq_esc s ++ [ascii_of_N 96].
