(* Model of the floating-point numbers of /repo/enc: float64 and float32 as the language and strconv have them, numbers read into
   them (enc/numeric.go), and the texts they are written as (enc/numeric.go:57 with encoding/json). *)
From Coq Require Import Bool Ascii String Arith NArith ZArith List.
From Verif Require Import Prelude Utf8Model DecModel DurModel EncModel JsonModel.
Import ListNotations.
Local Open Scope Z_scope.

(* ---- float64 and float32 (IEEE 754) ---- *)
(* digits of the mantissa, and the least and the greatest exponent of a mantissa that is an integer; enc/numeric.go:46,128 *)
Record ffmt := Ffmt { f_prec : Z; f_emin : Z; f_emax : Z }.
(* see above *)
Definition F64 : ffmt := Ffmt 53 (-1074) 971.
(* see above *)
Definition F32 : ffmt := Ffmt 24 (-149) 104.
(* a value: plus or minus m * 2^e, infinite, or not a number; enc/numeric.go:46 *)
Inductive fl := FFin (neg : bool) (m e : Z) | FInf (neg : bool) | FNaN.
(* n / d, rounded to the nearest integer, to the even one of two; IEEE 754 roundTiesToEven *)
Definition rne (n d : Z) : Z :=
  let q := n / d in let r := n mod d in
  if 2 * r <? d then q else if d <? 2 * r then q + 1 else if Z.even q then q else q + 1.
(* The exponent, in units of 2^f_emin, with which the mantissa of n / d (in these units) has f_prec digits, or 0. *)
Definition pick (F : ffmt) (n d : Z) : Z :=
  let k := Z.max 0 (Z.log2 n - Z.log2 d - f_prec F) in if n / (d * 2 ^ k) <? 2 ^ f_prec F then k else k + 1.
(* The float for n / d, 0 <= n, 0 < d: conversions of the language and strconv round to nearest, enc/numeric.go:34,85,133. *)
Definition round (F : ffmt) (neg : bool) (n d : Z) : fl :=
  let N := n * 2 ^ (- f_emin F) in
  let k := pick F N d in
  let m := rne N (d * 2 ^ k) in
  let '(m, k) := if m =? 2 ^ f_prec F then (2 ^ (f_prec F - 1), k + 1) else (m, k) in
  if f_emax F <? k + f_emin F then FInf neg else FFin neg m (k + f_emin F).
(* float64(i), enc/numeric.go:34 *)
Definition of_int (z : Z) : fl := round F64 (z <? 0) (Z.abs z) 1.
(* float32(f), reflect.Value.SetFloat; enc/numeric.go:133 *)
Definition to32 (f : fl) : fl :=
  match f with FFin neg m e => round F32 neg (m * 2 ^ (Z.max 0 e)) (2 ^ (Z.max 0 (- e))) | _ => f end.

(* ---- strconv.ParseFloat(s, 64), enc/numeric.go:85 ---- *)
(* the digits at the beginning of a text, and the rest (strconv.readFloat; enc/numeric.go:85) *)
Fixpoint digits (s : bytes) : bytes * bytes :=
  match s with
  | c :: r => if is_digit c then let (d, t) := digits r in (c :: d, t) else ([], s)
  | [] => ([], [])
  end.
(* the number of some digits; see above *)
Definition number (s : bytes) : Z := fold_left (fun a c => a * 10 + Z.of_N (dval c)) s 0.
(* the number of an exponent: digits after 10000 has been reached are not counted (strconv.readFloat; enc/numeric.go:85) *)
Definition expo (s : bytes) : Z := fold_left (fun a c => if a <? 10000 then a * 10 + Z.of_N (dval c) else a) s 0.
(* the first byte is one of these two (strconv.readFloat; enc/numeric.go:85) *)
Definition starts2 (a b : N) (s : bytes) : bool := match s with c :: _ => (code c =? a)%N || (code c =? b)%N | [] => false end.
(* an optional sign, and the rest; see above *)
Definition sign (s : bytes) : bool * bytes :=
  if starts2 43 45 s then (starts2 45 45 s, tl s) else (false, s).
(* an exponent, or nothing; see above *)
Definition exponent (s : bytes) : option Z :=
  match s with
  | [] => Some 0
  | _ => if starts2 101 69 s then
           let (neg, r) := sign (tl s) in
           let (d, t) := digits r in
           match d, t with _ :: _, [] => Some (if neg then - expo d else expo d) | _, _ => None end
         else None
  end.
(* a decimal number: its sign, its digits as a number, and the power of ten they are multiplied with *)
Definition decimal (s : bytes) : option (bool * Z * Z) :=
  let (neg, r) := sign s in
  let (ip, r1) := digits r in
  let (fr, r2) := if starts2 46 46 r1 then digits (tl r1) else ([], r1) in
  match ip ++ fr, exponent r2 with
  | _ :: _, Some x => Some (neg, number (ip ++ fr), x - Z.of_nat (length fr))
  | _, _ => None
  end.
(* n * 10^k, rounded *)
Definition round10 (neg : bool) (n k : Z) : fl := round F64 neg (n * 10 ^ Z.max 0 k) (10 ^ Z.max 0 (- k)).
Section Parse.
  (* Texts that are no decimal numbers: infinity, nan, hexadecimal numbers, underscores.  None of them is a number in JSON. *)
  Context (other : bytes -> option fl).
  (* None is an error: of syntax or of range *)
  Definition ParseFloat (s : bytes) : option fl :=
    match decimal s with
    | Some (neg, n, k) => match round10 neg n k with FInf _ => None | f => Some f end
    | None => other s
    end.

  (* ---- numbers read into floats and interfaces ---- *)
  (* enc.Integer, enc.Float, enc.Digits; enc/numeric.go:27,46,65 *)
  Inductive num := NumInt (z : Z) | NumFloat (f : fl) | NumDigits (s : bytes).
  (* enc/numeric.go:34,53,85 Float64 *)
  Definition Float64 (x : num) : option fl :=
    match x with NumInt z => Some (of_int z) | NumFloat f => Some f | NumDigits s => ParseFloat s end.
  (* enc/numeric.go:128-133, a float64 and a float32 *)
  Definition into64 (x : num) : option fl := Float64 x.
  (* see above *)
  Definition into32 (x : num) : option fl := match Float64 x with Some f => Some (to32 f) | None => None end.
  (* Values in interfaces.  A time and a duration are carried as in enc. *)
  Inductive gany := ANil | ABool (b : bool) | AInt (z : Z) | AFloat (f : fl) | AText (s : bytes) | ATime (t : timev) | ADur (u : Z)
    | AList (l : list gany) | AMap (l : list (bytes * gany)).
  (* the value of a Float, which EncModel carries as its texts *)
  Context (value : floatv -> fl).
  (* native: enc/nil.go:13, enc/scalar.go:14,72, enc/numeric.go:37,56,113-119, enc/time.go:18,76, enc/list.go:15-22, enc/map.go:18-24,
     enc/pairs.go:26-32 (by Name); into an interface: enc/numeric.go:154-156 and the like *)
  Fixpoint native (n : node) : gany :=
    match n with
    | NNil => ANil
    | NBool b => ABool b
    | NInt z => AInt z
    | NFloat f => AFloat (value f)
    | NDigits s => match ParseFloat s with Some f => AFloat f | None => AText s end
    | NStr s => AText s
    | NTime t => ATime t
    | NDur u => ADur u
    | NList l => AList (map native l)
    | NMap l => AMap (map (fun e => (fst e, native (snd e))) l)
    | NPairs l => AMap (fold_left (fun m e => mset beqb m (fst (fst e)) (native (snd e))) l [])
    end.
  (* enc.Unmarshal into an interface; Pairs become a Map first, enc/pairs.go:74-83 *)
  Definition into_any (n : node) : gany :=
    match n with
    | NPairs l => AMap (fold_left (fun m e => mset beqb m (snd (fst e)) (native (snd e))) l [])
    | _ => native n
    end.
End Parse.

(* ---- texts ---- *)
(* Digits d and the place dp of the point: 0.d * 10^dp; no digits for zero.  strconv.FormatFloat, used at enc/numeric.go:54,57: %f *)
Definition fmtF (neg : bool) (d : bytes) (dp : Z) : bytes :=
  (if neg then [chr 45] else []) ++
  (if 0 <? dp then firstn (Z.to_nat dp) d ++ repeat (chr 48) (Z.to_nat dp - length d) else [chr 48]) ++
  (let p := Z.max 0 (Z.of_nat (length d) - dp) in
   if 0 <? p then chr 46 :: repeat (chr 48) (Z.to_nat (Z.min p (- dp))) ++ skipn (Z.to_nat dp) d else []).
(* %e; the exponent has two digits at least *)
Definition fmtE (neg : bool) (d : bytes) (dp : Z) : bytes :=
  let x := match d with [] => 0 | _ => dp - 1 end in
  (if neg then [chr 45] else []) ++ (match d with c :: _ => [c] | [] => [chr 48] end) ++
  (match d with _ :: ((_ :: _) as r) => chr 46 :: r | _ => [] end) ++
  [chr 101] ++ [if x <? 0 then chr 45 else chr 43] ++ (let t := dec (Z.abs_N x) in match t with [_] => chr 48 :: t | _ => t end).
(* encoding/json floatEncoder, used at enc/numeric.go:57: e-09 becomes e-9 *)
Definition clean (s : bytes) : bytes :=
  match rev s with
  | d :: z :: m :: e :: r =>
      if (code e =? 101)%N && (code m =? 45)%N && (code z =? 48)%N then rev r ++ [e; m; d] else s
  | _ => s
  end.
(* The text of a float: which form is taken depends on its size. *)
Definition json_text (sci neg : bool) (d : bytes) (dp : Z) : bytes := if sci then clean (fmtE neg d dp) else fmtF neg d dp.
(* a float field with omitempty is written only if it is not equal to zero: enc/handler.go:305-308 *)
Definition keeps (omitempty : bool) (f : fl) : bool := negb omitempty || negb (match f with FFin _ m _ => m =? 0 | _ => false end).
