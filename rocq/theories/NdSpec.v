(* Vocabulary of the statements about durations: C133. *)
From Coq Require Import Bool Ascii String Arith NArith ZArith List.
From Verif Require Import Prelude Utf8Model DecModel DurModel EncModel JsonModel FlModel FlSpec MarModel MarSpec.
Import ListNotations.
Local Open Scope Z_scope.

(* written with a point or an exponent *)
Definition pointed (s : bytes) : Prop := In (chr 46) s \/ In (chr 101) s \/ In (chr 69) s.
(* r is x / d up to two, and one part in 2^51 *)
Definition close (x d r : Z) : Prop := 2 ^ 51 * Z.abs (r * d - x) < 2 ^ 52 * d + Z.abs x.
(* f is the integer z *)
Definition is_int (f : fl) (z : Z) : Prop := equals F64 z 1 f.
(* x / d fits in a duration, with something to spare *)
Definition fits (x d : Z) : Prop := Z.abs x <= (2 ^ 63 - 2 ^ 14) * d.
