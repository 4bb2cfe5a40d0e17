(* Model of enc.Time: /repo/enc/time.go:12-65 and /repo/enc/handler.go:87-94,183-185, with Go's time.Format and time.Parse for
   RFC3339Nano (Go 1.20: time.go absDate, Date, daysSinceEpoch; format_rfc3339.go appendFormatRFC3339, parseRFC3339). *)
From Coq Require Import Bool Ascii String Arith NArith ZArith List.
From Verif Require Import Prelude Utf8Model DecModel DurModel EncModel JsonModel.
Import ListNotations.
Local Open Scope Z_scope.

(* A time.Time: seconds since 1970-01-01 UTC, nanoseconds, and the offset of its location from UTC in seconds at that time.  The
   name of the location and the monotonic clock are not part of the text (enc/time.go:31-33).  Seconds are not bounded here: Go's
   arithmetic on them wraps around some 292 billion years from now. *)
Record gtime := GTime { t_sec : Z; t_nano : Z; t_off : Z }.

(* ---- the calendar ---- *)
(* time.isLeap, as used by enc/time.go:27,32,36 *)
Definition isLeap (y : Z) : bool := (y mod 4 =? 0) && (negb (y mod 100 =? 0) || (y mod 400 =? 0)).
(* time.daysBefore: the days of a year before month m+1, in a year that is not a leap year; as used by enc/time.go:27,32,36 *)
Definition daysBefore (m : Z) : Z :=
  nth (Z.to_nat m) [0; 31; 59; 90; 120; 151; 181; 212; 243; 273; 304; 334; 365] 0.
(* time.absoluteZeroYear (enc/time.go:27,32,36) *)
Definition zeroYear : Z := -292277022399.
(* days between the start of the absolute zero year and 1970-01-01 (time.unixToInternal + internalToAbsolute, over 86400;
   enc/time.go:27,32,36) *)
Definition epochDays : Z := 719162 + 730692556 * 146097.
(* time.absDate: the year and the day in it, of a day since the absolute zero; enc/time.go:27,32 *)
Definition absYear (d0 : Z) : Z * Z :=
  let n0 := d0 / 146097 in let y0 := 400 * n0 in let d1 := d0 - 146097 * n0 in
  let a1 := d1 / 36524 in let n1 := a1 - a1 / 4 in let y1 := y0 + 100 * n1 in let d2 := d1 - 36524 * n1 in
  let n2 := d2 / 1461 in let y2 := y1 + 4 * n2 in let d3 := d2 - 1461 * n2 in
  let a3 := d3 / 365 in let n3 := a3 - a3 / 4 in let y3 := y2 + n3 in
  (y3 + zeroYear, d3 - 365 * n3).
(* time.absDate: month and day of the month from the day of the year; enc/time.go:27,32 *)
Definition absMonth (leap : bool) (yday : Z) : Z * Z :=
  if leap && (yday =? 59) then (2, 29)
  else
    let day := if leap && (59 <? yday) then yday - 1 else yday in
    let m := day / 31 in
    let e := daysBefore (m + 1) in
    if e <=? day then (m + 2, day - e + 1) else (m + 1, day - daysBefore m + 1).
(* time.absDate; enc/time.go:27,32 *)
Definition absDate (d : Z) : Z * Z * Z :=
  let (y, yday) := absYear d in let (m, dd) := absMonth (isLeap y) yday in (y, m, dd).
(* time.daysSinceEpoch; enc/time.go:36,41 *)
Definition daysSinceEpoch (year : Z) : Z :=
  let y0 := year - zeroYear in
  let n0 := y0 / 400 in let y1 := y0 - 400 * n0 in
  let n1 := y1 / 100 in let y2 := y1 - 100 * n1 in
  let n2 := y2 / 4 in let y3 := y2 - 4 * n2 in
  146097 * n0 + 36524 * n1 + 1461 * n2 + 365 * y3.
(* time.Date for a month and day in range: the day since the absolute zero; enc/time.go:36,41 *)
Definition dateDays (y m d : Z) : Z :=
  daysSinceEpoch y + daysBefore (m - 1) + (if isLeap y && (3 <=? m) then 1 else 0) + (d - 1).
(* time.daysIn; enc/time.go:36,41 *)
Definition daysIn (m y : Z) : Z := if (m =? 2) && isLeap y then 29 else daysBefore m - daysBefore (m - 1).

(* ---- Format ---- *)
(* time.appendInt: at least w digits; enc/time.go:27,32 *)
Definition appendInt (x : Z) (w : nat) : bytes :=
  (if x <? 0 then [chr 45] else []) ++ (let s := dec (Z.abs_N x) in repeat (chr 48) (w - length s) ++ s).
(* without the zeros at the end (time.appendNano; enc/time.go:27,32) *)
Fixpoint trim0 (s : bytes) : bytes :=
  match s with
  | [] => []
  | c :: r => match trim0 r with [] => if (code c =? 48)%N then [] else [c] | r' => c :: r' end
  end.
(* time.appendNano for nine digits, trimmed; enc/time.go:27,32 *)
Definition appendNano (ns : Z) : bytes := if ns =? 0 then [] else chr 46 :: trim0 (appendInt ns 9).
(* the end of time.appendFormatRFC3339; enc/time.go:27,32 *)
Definition appendZone (off : Z) : bytes :=
  if off =? 0 then [chr 90]
  else
    let z := Z.quot off 60 in
    (if z <? 0 then chr 45 else chr 43) :: appendInt (Z.abs z / 60) 2 ++ [chr 58] ++ appendInt (Z.abs z mod 60) 2.
(* Time.Format(time.RFC3339Nano), which is String(); enc/time.go:26-28 *)
Definition format (t : gtime) : bytes :=
  let abs := t_sec t + t_off t + epochDays * 86400 in
  let '(y, m, d) := absDate (abs / 86400) in
  let s := abs mod 86400 in
  appendInt y 4 ++ [chr 45] ++ appendInt m 2 ++ [chr 45] ++ appendInt d 2 ++ [chr 84]
    ++ appendInt (s / 3600) 2 ++ [chr 58] ++ appendInt (s mod 3600 / 60) 2 ++ [chr 58] ++ appendInt (s mod 60) 2
    ++ appendNano (t_nano t) ++ appendZone (t_off t).

(* ---- Parse ---- *)
(* a number of digits, between two bounds (parseUint in time.parseRFC3339; enc/time.go:36,41) *)
Definition number (s : bytes) : Z := Z.of_N (fold_left (fun a c => 10 * a + dval c)%N s 0%N).
(* see above *)
Definition parseUint (s : bytes) (lo hi : Z) : option Z :=
  if forallb is_digit s then let x := number s in if (x <? lo) || (hi <? x) then None else Some x else None.
(* time.parseNanoseconds for the digits after the point: the first nine count; enc/time.go:36,41 *)
Definition nanoseconds (ds : bytes) : Z :=
  let d := firstn 9 ds in number d * 10 ^ Z.of_nat (9 - length d).
(* the fraction, if there is one, and the rest (time.parseRFC3339; enc/time.go:36,41) *)
Definition parseFrac (s : bytes) : Z * bytes :=
  match s with
  | p :: c :: _ =>
      if ((code p =? 46)%N && is_digit c) then let (ds, r) := take_digits (tl s) in (nanoseconds ds, r) else (0, s)
  | _ => (0, s)
  end.
(* the offset in seconds (time.parseRFC3339; enc/time.go:36,41) *)
Definition parseZone (s : bytes) : option Z :=
  match s with
  | [z] => if (code z =? 90)%N then Some 0 else None
  | [g; h1; h2; c; m1; m2] =>
      match parseUint [h1; h2] 0 23, parseUint [m1; m2] 0 59 with
      | Some hr, Some mm =>
          if ((code g =? 45)%N || (code g =? 43)%N) && (code c =? 58)%N
          then Some (if (code g =? 45)%N then - ((hr * 60 + mm) * 60) else (hr * 60 + mm) * 60) else None
      | _, _ => None
      end
  | _ => None
  end.
(* time.parseRFC3339; enc/time.go:36,41 *)
Definition parseRFC3339 (s : bytes) : option gtime :=
  match s with
  | y1 :: y2 :: y3 :: y4 :: c1 :: m1 :: m2 :: c2 :: d1 :: d2 :: c3 :: h1 :: h2 :: c4 :: i1 :: i2 :: c5 :: s1 :: s2 :: rest =>
      match parseUint [y1; y2; y3; y4] 0 9999, parseUint [m1; m2] 1 12 with
      | Some y, Some m =>
          match parseUint [d1; d2] 1 (daysIn m y), parseUint [h1; h2] 0 23, parseUint [i1; i2] 0 59, parseUint [s1; s2] 0 59 with
          | Some d, Some h, Some i, Some sec =>
              if (code c1 =? 45)%N && (code c2 =? 45)%N && (code c3 =? 84)%N && (code c4 =? 58)%N && (code c5 =? 58)%N then
                let (ns, r) := parseFrac rest in
                match parseZone r with
                | Some off => Some (GTime ((dateDays y m d - epochDays) * 86400 + (h * 3600 + i * 60 + sec) - off) ns off)
                | None => None
                end
              else None
          | _, _, _, _ => None
          end
      | _, _ => None
      end
  | _ => None
  end.
Section Parse.
  (* what else time.Parse accepts (one digit for the hour, a comma for the point, ...) is not modelled *)
  Context (lenient : bytes -> option gtime).
  (* time.Parse with the layouts RFC3339Nano and RFC3339, which accept the same texts: four digits and a dash come first
     (time.parse, stdLongYear); enc/time.go:35-47 *)
  Definition parse (s : bytes) : option gtime :=
    match parseRFC3339 s with
    | Some t => Some t
    | None =>
        match s with
        | y1 :: y2 :: y3 :: y4 :: c :: _ => if forallb is_digit [y1; y2; y3; y4] && (code c =? 45)%N then lenient s else None
        | _ => None
        end
    end.
  (* the zero value of time.Time: 0001-01-01 UTC; enc/handler.go:88 *)
  Definition zeroTime : gtime := GTime (-62135596800) 0 0.
  (* json.Unmarshal of a text that was encoded, into a time.Time, with Time.UnmarshalJSON; enc/handler.go:87-94.  The text between
     the quotes is not unescaped. *)
  Definition unmarshal_time (j : bytes) : option gtime :=
    if beqb j (B "null") then Some zeroTime
    else match j with
         | q :: r => if (code q =? 34)%N && (code (last r (chr 0)) =? 34)%N then parse (removelast r) else None
         | [] => None
         end.
  (* enc/time.go:49-56 Time.UnmarshalJSON *)
  Definition time_unmarshal (j : bytes) : option gtime := match unmarshal_string j with Some s => parse s | None => None end.
End Parse.

(* enc.Marshal of a time.Time (enc/handler.go:183-185); shown: what fmt's %v prints *)
Definition marshal_time (shown : bytes) (t : gtime) : node := NTime (Timev shown (format t)).
(* enc/time.go:31-33 Time.MarshalJSON *)
Definition time_marshal (short : bool) (t : gtime) : bytes := jstr short (format t).

(* the text of a node goes to the other side, is read, and put into a time.Time: enc.MarshalJSON, then enc.UnmarshalJSON;
   enc/json.go:28-42, enc/handler.go:87-94 *)
Definition over_json (short : bool) (lenient : bytes -> option gtime) (n : node) : option gtime :=
  match Encode short false n with
  | Ok j =>
      match Decode j with
      | Good (Some m) => match Encode short false m with Ok j' => unmarshal_time lenient j' | Panic => None end
      | _ => None
      end
  | Panic => None
  end.
