(* What texts of times mean, independently of the model: the calendar by counting days, and the texts of RFC 3339. *)
From Coq Require Import Ascii String ZArith List.
From Verif Require Import Prelude Utf8Model TimeModel.
Import ListNotations.
Local Open Scope Z_scope.

(* the Gregorian calendar *)
Definition leap (y : Z) : Prop := (4 | y) /\ (~ (100 | y) \/ (400 | y)).
(* the length of month m in year y *)
Inductive month_length (y : Z) : Z -> Z -> Prop :=
| ml_31 : forall m, In m [1; 3; 5; 7; 8; 10; 12] -> month_length y m 31
| ml_30 : forall m, In m [4; 6; 9; 11] -> month_length y m 30
| ml_29 : leap y -> month_length y 2 29
| ml_28 : ~ leap y -> month_length y 2 28.
(* one date follows another: year, month, day *)
Inductive follows : Z * Z * Z -> Z * Z * Z -> Prop :=
| fo_day : forall y m d n, month_length y m n -> 1 <= d < n -> follows (y, m, d) (y, m, d + 1)
| fo_month : forall y m d, month_length y m d -> m < 12 -> follows (y, m, d) (y, m + 1, 1)
| fo_year : forall y, follows (y, 12, 31) (y + 1, 1, 1).
(* the date n days after 1970-01-01 *)
Inductive date : Z -> Z * Z * Z -> Prop :=
| da_epoch : date 0 (1970, 1, 1)
| da_after : forall n x x', date n x -> follows x x' -> date (n + 1) x'
| da_before : forall n x x', date n x' -> follows x x' -> date (n - 1) x.

(* the decimal digits of a number, with or without zeros in front *)
Inductive numeral : bytes -> Z -> Prop :=
| nu_nil : numeral [] 0
| nu_digit : forall l n d, numeral l n -> 0 <= d <= 9 -> numeral (l ++ [chr (Z.to_N (48 + d))]) (10 * n + d).
(* the same, of this length *)
Definition digits (w : nat) (l : bytes) (n : Z) : Prop := numeral l n /\ length l = w.
(* the fraction of a second, as nanoseconds; what is shorter than a nanosecond does not count *)
Inductive fraction : bytes -> Z -> Prop :=
| fr_none : fraction [] 0
| fr_some : forall l n w, digits w l n -> (1 <= w)%nat -> fraction (chr 46 :: l) (n * 10 ^ 9 / 10 ^ Z.of_nat w).
(* the offset from UTC, in seconds *)
Inductive zone : bytes -> Z -> Prop :=
| zo_utc : zone (B "Z") 0
| zo_east : forall a b h m, digits 2 a h -> digits 2 b m -> h <= 23 -> m <= 59 -> zone (B "+" ++ a ++ B ":" ++ b) ((h * 60 + m) * 60)
| zo_west : forall a b h m, digits 2 a h -> digits 2 b m -> h <= 23 -> m <= 59 -> zone (B "-" ++ a ++ B ":" ++ b) (- ((h * 60 + m) * 60)).
(* a text of RFC 3339 (no leap seconds, capital letters), and the time that it means *)
Inductive rfc3339 : bytes -> gtime -> Prop :=
| rfc : forall ty tm td th ti ts tf tz y m d h i s ns off n,
    digits 4 ty y -> digits 2 tm m -> digits 2 td d -> digits 2 th h -> digits 2 ti i -> digits 2 ts s ->
    date n (y, m, d) -> h <= 23 -> i <= 59 -> s <= 59 -> fraction tf ns -> zone tz off ->
    rfc3339 (ty ++ B "-" ++ tm ++ B "-" ++ td ++ B "T" ++ th ++ B ":" ++ ti ++ B ":" ++ ts ++ tf ++ tz)
      (GTime (n * 86400 + h * 3600 + i * 60 + s - off) ns off).

(* the year of a time, in its own location *)
Definition year_of (t : gtime) (y : Z) : Prop := exists m d, date ((t_sec t + t_off t) / 86400) (y, m, d).
(* what a time.Time can be: the package time keeps nanoseconds in this range *)
Definition proper (t : gtime) : Prop := 0 <= t_nano t < 10 ^ 9.
