(* Property of test.Quote. *)
From Coq Require Import Bool Ascii String Arith NArith List.
From Verif Require Import Prelude TqModel TqProofs.
Import ListNotations.

(* C56: two different strings have different quoted forms. *)
Theorem C56_injective : forall s s', Quote s = Quote s' -> s = s'.
Proof. exact quote_inj. Qed.
Print Assumptions C56_injective.

(* C56: no raw tab (9), newline (10) or carriage return (13) in a quoted form. *)
Theorem C56_clean : forall s x, In x (Quote s) -> ~ In (N_of_ascii x) [9; 10; 13]%N.
Proof. exact quote_clean. Qed.
Print Assumptions C56_clean.

(* C56: the form starts and ends with a backquote (96), and every backquote between them has a backslash (92) before it. *)
Theorem C56_delimited : forall s, exists m, Quote s = ascii_of_N 96 :: m ++ [ascii_of_N 96] /\
  forall a b, m = a ++ ascii_of_N 96 :: b -> exists a', a = a' ++ [ascii_of_N 92].
Proof. intros s. eexists. split; [reflexivity|]. exact (tick_free s). Qed.
Print Assumptions C56_delimited.

Example C56_ex :
  Quote (B "a`\" ++ [ascii_of_N 9; ascii_of_N 10]) = B "`a\`\\\t\v`" /\ Quote (B "\t") = B "`\\t`" /\ Quote [ascii_of_N 9] = B "`\t`".
Proof. repeat split; vm_compute; reflexivity. Qed.
