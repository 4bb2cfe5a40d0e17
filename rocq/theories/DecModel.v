(* Decimal text of numbers: strconv.FormatInt, used by /repo/enc/numeric.go:35-36 and fmt's %v/%d. *)
From Coq Require Import Bool Ascii String Arith NArith ZArith Lia List.
From Verif Require Import Prelude Utf8Model.
Import ListNotations.
Local Open Scope N_scope.

(* the character of a decimal digit (strconv formatBits); used at enc/numeric.go:35 *)
Definition digit (d : N) : ascii := chr (48 + d).
(* is the byte '0'..'9'; used at enc/numeric.go:70 *)
Definition is_digit (b : ascii) : bool := (48 <=? code b) && (code b <=? 57).
(* value of a digit byte; used at enc/numeric.go:70 *)
Definition dval (b : ascii) : N := code b - 48.

(* digits of n, nothing for 0 (strconv formatBits loop); used at enc/numeric.go:35 *)
Fixpoint decpos (fuel : nat) (n : N) : bytes :=
  match fuel with
  | O => []
  | S f => if n =? 0 then [] else decpos f (n / 10) ++ [digit (n mod 10)]
  end.
(* strconv.FormatUint(n, 10); used at enc/numeric.go:35 *)
Definition dec (n : N) : bytes :=
  if n =? 0 then [digit 0] else decpos (N.size_nat n) n.
(* strconv.FormatInt(z, 10); used at enc/numeric.go:35 *)
Definition decz (z : Z) : bytes :=
  if (z <? 0)%Z then chr 45 :: dec (Z.abs_N z) else dec (Z.abs_N z).
