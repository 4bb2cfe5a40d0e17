(* Vocabulary of the statements about floating-point numbers. *)
From Coq Require Import Bool Ascii String Arith NArith ZArith List.
From Verif Require Import Prelude Utf8Model DecModel DurModel EncModel JsonModel FlModel.
Import ListNotations.
Local Open Scope Z_scope.

(* ---- the floats of a format ---- *)
(* a mantissa of f_prec digits, or less with the least exponent *)
Definition valid (F : ffmt) (f : fl) : Prop :=
  match f with
  | FFin _ m e => 0 <= m < 2 ^ f_prec F /\ f_emin F <= e <= f_emax F /\ (m < 2 ^ (f_prec F - 1) -> e = f_emin F)
  | _ => True
  end.
Definition finite (f : fl) : Prop := match f with FFin _ _ _ => True | _ => False end.
Definition minus (f : fl) : bool := match f with FFin neg _ _ | FInf neg => neg | FNaN => false end.
(* the value of a finite float is an integer in units of 2^f_emin *)
Definition units (F : ffmt) (f : fl) : Z :=
  match f with FFin neg m e => (if neg then - m else m) * 2 ^ (e - f_emin F) | _ => 0 end.
Definition even_float (f : fl) : bool := match f with FFin _ m _ => Z.even m | _ => true end.
(* the distance between f and x / d, in these units, times d *)
Definition away (F : ffmt) (x d : Z) (f : fl) : Z := Z.abs (units F f * d - x * 2 ^ (- f_emin F)).
(* f is the float that is nearest to x / d, and the one with an even mantissa if there are two *)
Definition nearest (F : ffmt) (x d : Z) (f : fl) : Prop :=
  finite f /\ valid F f /\
  forall g, finite g -> valid F g -> away F x d f <= away F x d g /\ (away F x d g = away F x d f -> units F g <> units F f -> even_float f = true).
(* x / d is not less than what is half way between the largest float and the next power of two *)
Definition too_big (F : ffmt) (x d : Z) : Prop := (2 ^ (f_prec F + 1) - 1) * 2 ^ (f_emax F - 1) * d <= Z.abs x.
(* f is x / d *)
Definition equals (F : ffmt) (x d : Z) (f : fl) : Prop := finite f /\ away F x d f = 0.

(* ---- decimal numbers ---- *)
(* the number of some digits *)
Fixpoint worth (s : bytes) : Z := match s with [] => 0 | c :: r => Z.of_N (dval c) * 10 ^ Z.of_nat (length r) + worth r end.
Definition all_dig (s : bytes) : Prop := Forall (fun c => is_digit c = true) s.
Inductive sg_ : bytes -> bool -> Prop := sg_none : sg_ [] false | sg_plus : sg_ (B "+") false | sg_minus : sg_ (B "-") true.
Inductive fr_ : bytes -> bytes -> Prop := fr_none : fr_ [] [] | fr_some d : all_dig d -> fr_ (B "." ++ d) d.
(* an exponent of less than 100000 *)
Inductive ex_ : bytes -> Z -> Prop :=
| ex_none : ex_ [] 0
| ex_some e s neg d : e = B "e" \/ e = B "E" -> sg_ s neg -> all_dig d -> d <> [] -> worth d < 100000 -> ex_ (e ++ s ++ d) (if neg then - worth d else worth d).
(* s is the decimal number n * 10^k, negative if neg *)
Inductive numeral : bytes -> bool -> Z -> Z -> Prop :=
| numeral_ s neg ip fr d ex x : sg_ s neg -> all_dig ip -> fr_ fr d -> ip ++ d <> [] -> ex_ ex x ->
    numeral (s ++ ip ++ fr ++ ex) neg (worth (ip ++ d)) (x - Z.of_nat (length d)).
(* n * 10^k as a fraction *)
Definition top (neg : bool) (n k : Z) : Z := (if neg then - n else n) * 10 ^ Z.max 0 k.
Definition bottom (k : Z) : Z := 10 ^ Z.max 0 (- k).

(* ---- interfaces ---- *)
(* what encoding/json puts in an interface: float64 for numbers; an error if one of them is too big *)
Section Std.
  Context (other : bytes -> option fl).
  Inductive std : jval -> gany -> Prop :=
  | std_null : std JNull ANil
  | std_bool b : std (JBool b) (ABool b)
  | std_num s f : ParseFloat other s = Some f -> std (JNum s) (AFloat f)
  | std_str s : std (JStr s) (AText s)
  | std_arr l l' : Forall2 std l l' -> std (JArr l) (AList l')
  | std_obj l l' : Forall2 (fun a b => fst a = fst b /\ std (snd a) (snd b)) l l' -> std (JObj l) (AMap l').
End Std.

(* ---- texts ---- *)
(* the digits of a float and the place of the point, as strconv gives them: no zero in front, none for zero *)
Definition shown (d : bytes) (dp : Z) : Prop :=
  all_dig d /\ hd_error d <> Some (chr 48) /\ (d = [] -> dp = 0) /\ -1000 < dp < 1000.
(* 0.d * 10^dp is not too big for F, and f is the float nearest to it *)
Definition shows (F : ffmt) (neg : bool) (d : bytes) (dp : Z) (f : fl) : Prop :=
  let k := dp - Z.of_nat (length d) in
  minus f = neg /\ ~ too_big F (top neg (worth d) k) (bottom k) /\ nearest F (top neg (worth d) k) (bottom k) f.
(* w is f, which has fewer digits *)
Definition widened (f w : fl) : Prop := finite w /\ valid F64 w /\ minus w = minus f /\ units F64 w = units F32 f * 2 ^ (1074 - 149).
(* every number in v can be converted *)
Fixpoint convertible (other : bytes -> option fl) (v : jval) : Prop :=
  match v with
  | JNum s => ParseFloat other s <> None
  | JArr l => fold_right (fun x P => convertible other x /\ P) True l
  | JObj l => fold_right (fun e P => convertible other (snd e) /\ P) True l
  | _ => True
  end.
