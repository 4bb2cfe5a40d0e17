(* Model of Go's strconv.Quote, which fmt's %q uses: called by /repo through
   enc/scalar.go:19,23, enc/numeric.go:87, enc/map.go:36,44, enc/pairs.go:37,45 and
   utils/prom/labels.go:14. *)
From Coq Require Import Bool Ascii String Arith NArith Lia List.
From Verif Require Import Prelude Utf8Model.
Import ListNotations.
Local Open Scope N_scope.

(* strconv lowerhex; reached from utils/prom/labels.go:14 *)
Definition hexdig (n : N) : ascii := if n <? 10 then chr (48 + n) else chr (87 + n).
(* hexadecimal digits of the low 4*k bits, most significant first (strconv quote.go, loops over s);
   reached from utils/prom/labels.go:14 *)
Fixpoint hexs (k : nat) (n : N) : bytes :=
  match k with
  | O => []
  | S k' => hexs k' (n / 16) ++ [hexdig (n mod 16)]
  end.

(* the quote character, reached from utils/prom/labels.go:14 *)
Definition dquote : ascii := chr 34.
(* the escape character, reached from utils/prom/labels.go:14 *)
Definition backslash : ascii := chr 92.

Section Quote.
  (* strconv.IsPrint, a table in the standard library: any function *)
  Context (isprint : N -> bool).

  (* strconv appendEscapedRune with the double quote as quote, neither ASCIIonly nor graphicOnly;
     reached from utils/prom/labels.go:14 *)
  Definition esc_rune (r : N) : bytes :=
    if (r =? 34) || (r =? 92) then [backslash; chr r]
    else if isprint r then encode_rune r
    else if r =? 7 then B "\a"
    else if r =? 8 then B "\b"
    else if r =? 12 then B "\f"
    else if r =? 10 then B "\n"
    else if r =? 13 then B "\r"
    else if r =? 9 then B "\t"
    else if r =? 11 then B "\v"
    else if (r <? 32) || (r =? 127) then B "\x" ++ hexs 2 r
    else if r <? 0x10000 then B "\u" ++ hexs 4 r
    else B "\U" ++ hexs 8 r.

  (* strconv appendQuotedWith, body of the loop; reached from utils/prom/labels.go:14 *)
  Definition esc_item (i : item) : bytes :=
    match i with
    | IRune r => esc_rune r
    | IBad b => B "\x" ++ hexs 2 (code b)
    end.

  (* strconv.Quote; called at utils/prom/labels.go:14 *)
  Definition quote (s : bytes) : bytes :=
    dquote :: concat (map esc_item (runes s)) ++ [dquote].
End Quote.
