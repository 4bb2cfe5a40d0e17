(* Model of Go's unicode/utf8 (DecodeRuneInString, EncodeRune) as used by strconv.Quote and
   encoding/json, which /repo calls in enc/*.go, utils/prom/labels.go and test/*.go. *)
From Coq Require Import Bool Ascii String Arith NArith Lia List.
From Verif Require Import Prelude.
Import ListNotations.
Local Open Scope N_scope.

(* byte values; reached from utils/prom/labels.go:14 and enc/json.go:58,81 *)
Definition code (b : ascii) : N := N_of_ascii b.
(* the byte of a value, reached from utils/prom/labels.go:14 and enc/json.go:58,81 *)
Definition chr (n : N) : ascii := ascii_of_N n.

(* unicode/utf8 DecodeRuneInString: the next rune and its width; RBad is (RuneError, 1);
   reached from utils/prom/labels.go:14 and enc/json.go:58,81 *)
Inductive decoded := REnd | RBad | RGood (r : N) (width : nat).

(* a continuation byte, 0x80..0xBF (unicode/utf8 locb, hicb);
   reached from utils/prom/labels.go:14 and enc/json.go:58,81 *)
Definition cont (b : ascii) : bool := (0x80 <=? code b) && (code b <=? 0xBF).

(* unicode/utf8 acceptRanges for the second byte;
   reached from utils/prom/labels.go:14 and enc/json.go:58,81 *)
Definition second_ok (c0 : N) (b1 : ascii) : bool :=
  let lo := if c0 =? 0xE0 then 0xA0 else if c0 =? 0xF0 then 0x90 else 0x80 in
  let hi := if c0 =? 0xED then 0x9F else if c0 =? 0xF4 then 0x8F else 0xBF in
  (lo <=? code b1) && (code b1 <=? hi).

(* unicode/utf8 DecodeRuneInString; reached from utils/prom/labels.go:14 and enc/json.go:58,81 *)
Definition decode_rune (s : bytes) : decoded :=
  match s with
  | [] => REnd
  | b0 :: t =>
      let c0 := code b0 in
      if c0 <? 0x80 then RGood c0 1
      else if c0 <? 0xC2 then RBad
      else if c0 <? 0xE0 then
        match t with
        | b1 :: _ => if second_ok c0 b1 then RGood ((c0 - 0xC0) * 64 + (code b1 - 0x80)) 2 else RBad
        | _ => RBad
        end
      else if c0 <? 0xF0 then
        match t with
        | b1 :: b2 :: _ =>
            if second_ok c0 b1 && cont b2
            then RGood ((c0 - 0xE0) * 4096 + (code b1 - 0x80) * 64 + (code b2 - 0x80)) 3 else RBad
        | _ => RBad
        end
      else if c0 <? 0xF5 then
        match t with
        | b1 :: b2 :: b3 :: _ =>
            if second_ok c0 b1 && cont b2 && cont b3
            then RGood ((c0 - 0xF0) * 262144 + (code b1 - 0x80) * 4096 + (code b2 - 0x80) * 64
                        + (code b3 - 0x80)) 4
            else RBad
        | _ => RBad
        end
      else RBad
  end.

(* unicode/utf8 ValidRune; reached from utils/prom/labels.go:14 and enc/json.go:58,81 *)
Definition valid_rune (r : N) : bool := (r <? 0xD800) || ((0xE000 <=? r) && (r <? 0x110000)).

(* unicode/utf8 EncodeRune; an invalid rune becomes U+FFFD;
   reached from utils/prom/labels.go:14 and enc/json.go:58,81 *)
Definition encode_rune (r : N) : bytes :=
  if r <? 0x80 then [chr r]
  else if r <? 0x800 then [chr (0xC0 + r / 64); chr (0x80 + r mod 64)]
  else if negb (valid_rune r) then [chr 0xEF; chr 0xBF; chr 0xBD]
  else if r <? 0x10000 then [chr (0xE0 + r / 4096); chr (0x80 + (r / 64) mod 64); chr (0x80 + r mod 64)]
  else [chr (0xF0 + r / 262144); chr (0x80 + (r / 4096) mod 64); chr (0x80 + (r / 64) mod 64);
        chr (0x80 + r mod 64)].

(* What a Go loop over a string sees (for i < len(s) { r, w := DecodeRuneInString(s[i:]); i += w }):
   a rune, or one undecodable byte.; reached from utils/prom/labels.go:14 and enc/json.go:58,81 *)
Inductive item := IRune (r : N) | IBad (b : ascii).

(* such a loop; one turn per byte is enough fuel;
   reached from utils/prom/labels.go:14 and enc/json.go:58,81 *)
Fixpoint runes_fuel (fuel : nat) (s : bytes) : list item :=
  match fuel with
  | O => []
  | S f =>
      match s with
      | [] => []
      | b :: t =>
          match decode_rune s with
          | REnd => []
          | RBad => IBad b :: runes_fuel f t
          | RGood r w => IRune r :: runes_fuel f (skipn w s)
          end
      end
  end.
(* the loop with enough fuel, reached from utils/prom/labels.go:14 and enc/json.go:58,81 *)
Definition runes (s : bytes) : list item := runes_fuel (length s) s.

(* unicode/utf8 ValidString; reached from utils/prom/labels.go:14 and enc/json.go:58,81 *)
Definition valid_utf8 (s : bytes) : bool :=
  forallb (fun i => match i with IRune _ => true | IBad _ => false end) (runes s).
