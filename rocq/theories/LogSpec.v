(* Vocabulary of the statements about log calls. *)
From Coq Require Import Bool Ascii String Arith NArith ZArith List.
From Verif Require Import Prelude CtxModel ErrModel LogModel.
Import ListNotations.

(* two arguments that differ at most in the contents of a redacted string *)
Definition same_shape (a b : arg) : Prop :=
  match a, b with ARedacted _, ARedacted _ => True | _, _ => a = b end.

(* neither a redacted string nor another Loggable *)
Definition plain (a : arg) : Prop :=
  match a with ARedacted _ | ALoggable _ => False | _ => True end.
