(* Model of the conversions of numbers of /repo/enc/numeric.go to integers and durations. *)
From Coq Require Import Bool Ascii String Arith NArith ZArith List.
From Verif Require Import Prelude Utf8Model DecModel DurModel EncModel JsonModel FlModel MarModel.
Import ListNotations.
Local Open Scope Z_scope.

(* a float without its fraction, if it is finite; enc/numeric.go:51 *)
Definition trunc (f : fl) : option Z :=
  match f with
  | FFin neg m e => let z := m * 2 ^ Z.max 0 e / 2 ^ Z.max 0 (- e) in Some (if neg then - z else z)
  | _ => None
  end.
(* the product of two float64; enc/numeric.go:62 *)
Definition mul (f g : fl) : fl :=
  match f, g with
  | FFin a m e, FFin b m' e' => round F64 (xorb a b) (m * m' * 2 ^ Z.max 0 (e + e')) (2 ^ Z.max 0 (- (e + e')))
  | FFin a m _, FInf b => if m =? 0 then FNaN else FInf (xorb a b)
  | FInf a, FFin b m _ => if m =? 0 then FNaN else FInf (xorb a b)
  | FInf a, FInf b => FInf (xorb a b)
  | _, _ => FNaN
  end.
Section Conv.
  (* strconv.ParseFloat of texts that are no decimal numbers (FlModel) *)
  Context (other : bytes -> option fl).
  (* conversions to int64 and uint64 of floats that do not fit: these depend on the implementation *)
  Context (beyond ubeyond : fl -> Z).
  (* int64(f); enc/numeric.go:51,62 *)
  Definition f64_i64 (f : fl) : Z :=
    match trunc f with Some z => if (- 2 ^ 63 <=? z) && (z <? 2 ^ 63) then z else beyond f | None => beyond f end.
  (* uint64(f); enc/numeric.go:52 *)
  Definition f64_u64 (f : fl) : Z :=
    match trunc f with Some z => if (0 <=? z) && (z <? 2 ^ 64) then z else ubeyond f | None => ubeyond f end.
  (* enc/numeric.go:42-44 Integer.Duration *)
  Definition IntegerDuration (z unit : Z) : Z := swrap W64 (z * unit).
  (* enc/numeric.go:61-63 Float.Duration *)
  Definition FloatDuration (f : fl) (unit : Z) : Z := f64_i64 (mul f (of_int unit)).
  (* enc/numeric.go:102-104 Digits.IsFloat *)
  Definition IsFloat (s : bytes) : bool := existsb (fun c => existsb (N.eqb (code c)) [46; 101; 69; 103; 71]%N) s.
  (* enc/numeric.go:88-94 Digits.MustFloat *)
  Definition MustFloat (s : bytes) : res fl := match ParseFloat other s with Some f => Ok f | None => Panic end.
  (* enc/numeric.go:95-101 Digits.MustInteger *)
  Definition MustInteger (s : bytes) : res Z := match parse_int s with Some z => Ok z | None => Panic end.
  (* enc/numeric.go:42,61,105-111 Numeric.Duration *)
  Definition Duration (x : num) (unit : Z) : res Z :=
    match x with
    | NumInt z => Ok (IntegerDuration z unit)
    | NumFloat f => Ok (FloatDuration f unit)
    | NumDigits s =>
        if IsFloat s then match MustFloat s with Ok f => Ok (FloatDuration f unit) | Panic => Panic end
        else match MustInteger s with Ok z => Ok (IntegerDuration z unit) | Panic => Panic end
    end.
End Conv.
