(* Model of the text of durations: /repo/enc/time.go:70-124 and Go's time.Duration.String and
   time.ParseDuration. *)
From Coq Require Import Bool Ascii String Arith NArith ZArith Lia List.
From Verif Require Import Prelude Utf8Model DecModel.
Import ListNotations.
Local Open Scope N_scope.

(* time fmtFrac: fraction of v/10^prec without trailing zeros, and v/10^prec; reached from enc/time.go:85 *)
Fixpoint frac_loop (prec : nat) (v : N) (print : bool) (out : bytes) : bytes * N :=
  match prec with
  | O => (if print then chr 46 :: out else out, v)
  | S p =>
      let d := v mod 10 in
      let print' := print || negb (d =? 0) in
      frac_loop p (v / 10) print' (if print' then digit d :: out else out)
  end.
(* time fmtFrac, reached from enc/time.go:85 *)
Definition fmt_frac (v : N) (prec : nat) : bytes * N := frac_loop prec v false [].

(* U+00B5, the micro sign of time.Duration.format, reached from enc/time.go:85 *)
Definition micro_sign : bytes := [chr 0xC2; chr 0xB5].

(* time.Duration.format on the absolute value; reached from enc/time.go:85 *)
Definition dur_abs (u : N) : bytes :=
  if u <? 1000000000 then
    if u =? 0 then B "0s"
    else if u <? 1000 then
      let '(f, v) := fmt_frac u 0 in dec v ++ f ++ B "ns"
    else if u <? 1000000 then
      let '(f, v) := fmt_frac u 3 in dec v ++ f ++ micro_sign ++ B "s"
    else
      let '(f, v) := fmt_frac u 6 in dec v ++ f ++ B "ms"
  else
    let '(f, v) := fmt_frac u 9 in
    let secs := dec (v mod 60) ++ f ++ B "s" in
    let m := v / 60 in
    if 0 <? m then
      let mins := dec (m mod 60) ++ B "m" in
      let h := m / 60 in
      if 0 <? h then dec h ++ B "h" ++ mins ++ secs else mins ++ secs
    else secs.

(* time.Duration.String; the argument is an int64 count of nanoseconds, whose absolute value fits
   in a uint64; reached from enc/time.go:85 *)
Definition dur_string (d : Z) : bytes :=
  if (d <? 0)%Z then chr 45 :: dur_abs (Z.abs_N d) else dur_abs (Z.abs_N d).

(* 1<<63 in time.ParseDuration, reached from enc/time.go:109 *)
Definition two63 : N := 0x8000000000000000.

(* time leadingInt: None is its overflow error; reached from enc/time.go:109 *)
Fixpoint leading_int (x : N) (s : bytes) : option (N * bytes) :=
  match s with
  | [] => Some (x, [])
  | c :: t =>
      if is_digit c then
        if two63 / 10 <? x then None
        else let y := x * 10 + dval c in
             if two63 <? y then None else leading_int y t
      else Some (x, s)
  end.

(* time leadingFraction: value, number of digits counted in the scale, rest.  The scale 10^k is a
   float64 in Go and is exact up to 10^22; at most 19 digits are counted.; reached from enc/time.go:109 *)
Fixpoint leading_fraction (x : N) (k : nat) (overflow : bool) (s : bytes) : N * nat * bytes :=
  match s with
  | [] => (x, k, [])
  | c :: t =>
      if is_digit c then
        if overflow then leading_fraction x k true t
        else if (two63 - 1) / 10 <? x then leading_fraction x k true t
        else let y := x * 10 + dval c in
             if two63 <? y then leading_fraction x k true t
             else leading_fraction y (S k) false t
      else (x, k, s)
  end.

(* the unit is the longest run of bytes other than '.' and digits (ParseDuration);
   reached from enc/time.go:109 *)
Fixpoint take_unit (s : bytes) : bytes * bytes :=
  match s with
  | [] => ([], [])
  | c :: t =>
      if (code c =? 46) || is_digit c then ([], s)
      else let '(u, r) := take_unit t in (c :: u, r)
  end.

(* equality of byte strings (Go ==); as at storage/keyvalue.go:106 *)
Fixpoint beqb (a b : bytes) : bool :=
  match a, b with
  | [], [] => true
  | x :: s, y :: t => (code x =? code y) && beqb s t
  | _, _ => false
  end.

(* time unitMap; reached from enc/time.go:109 *)
Definition unit_ns (u : bytes) : option N :=
  if beqb u (B "ns") then Some 1
  else if beqb u (B "us") then Some 1000
  else if beqb u (micro_sign ++ B "s") then Some 1000
  else if beqb u ([chr 0xCE; chr 0xBC] ++ B "s") then Some 1000
  else if beqb u (B "ms") then Some 1000000
  else if beqb u (B "s") then Some 1000000000
  else if beqb u (B "m") then Some 60000000000
  else if beqb u (B "h") then Some 3600000000000
  else None.

Section Parse.
  (* uint64(float64(f) * (float64(unit) / scale)) with scale = 10^k: floating point arithmetic of
     the compiler, a parameter *)
  Context (fracval : N -> N -> nat -> N).

  (* loop of time.ParseDuration; every round consumes at least one byte, so the length of the text
     is enough fuel (out of fuel is None, as the errors); reached from enc/time.go:109 *)
  Fixpoint parse_loop (fuel : nat) (s : bytes) (d : N) : option N :=
    match s with
    | [] => Some d
    | c :: _ =>
        match fuel with
        | O => None
        | S fuel' =>
            if negb ((code c =? 46) || is_digit c) then None
            else match leading_int 0 s with
            | None => None
            | Some (v, s1) =>
                let pre := negb (length s1 =? length s)%nat in
                let '(f, k, post, s2) :=
                  match s1 with
                  | p :: t =>
                      if code p =? 46 then
                        let '(f, k, r) := leading_fraction 0 0 false t in
                        (f, k, negb (length r =? length t)%nat, r)
                      else (0, O, false, s1)
                  | [] => (0, O, false, s1)
                  end in
                if negb (pre || post) then None
                else
                  let '(u, s3) := take_unit s2 in
                  match unit_ns u with   (* the empty unit is not in the map *)
                  | None => None
                  | Some unit =>
                      if two63 / unit <? v then None
                      else
                        let v1 := v * unit in
                        let v2 := if 0 <? f then v1 + fracval f unit k else v1 in
                        if (0 <? f) && (two63 <? v2) then None
                        else
                          let d' := d + v2 in
                          if two63 <? d' then None else parse_loop fuel' s3 d'
                  end
            end
        end
    end.

  (* time.ParseDuration; None is any of its errors; called at enc/time.go:109 *)
  Definition parse_duration (s : bytes) : option Z :=
    let '(neg, s1) :=
      match s with
      | c :: t => if (code c =? 45) || (code c =? 43) then (code c =? 45, t) else (false, s)
      | [] => (false, s)
      end in
    if beqb s1 (B "0") then Some 0%Z
    else match s1 with
    | [] => None
    | _ =>
        match parse_loop (S (S (length s1))) s1 0 with
        | None => None
        | Some d =>
            if neg then Some (- Z.of_N d)%Z
            else if two63 - 1 <? d then None else Some (Z.of_N d)
        end
    end.

  (* enc/time.go:104-115 Duration.Parse *)
  Definition dur_parse (s : bytes) : option Z :=
    match s with [] => Some 0%Z | _ => parse_duration s end.
End Parse.

(* enc/time.go:97-102 Duration.MarshalJSON, before json.Marshal of the string *)
Definition dur_text (d : Z) : bytes := if (d =? 0)%Z then [] else dur_string d.

(* the values of a Go int64; enc/time.go:70 *)
Definition int64 (d : Z) : Prop := (-9223372036854775808 <= d <= 9223372036854775807)%Z.
