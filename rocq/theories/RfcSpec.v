(* The texts of RFC 8259 and what they stand for. *)
From Coq Require Import Bool Ascii String Arith NArith ZArith Lia List.
From Verif Require Import Prelude Utf8Model DecModel DurModel EncModel JsonSpec.
Import ListNotations.
Local Open Scope N_scope.

(* what a text says, with the members of an object as written *)
Inductive jtree := TNull | TBool (b : bool) | TNum (s : bytes) | TStr (s : bytes)
                 | TArr (l : list jtree) | TObj (l : list (bytes * jtree)).

(* white space: space, tab, line feed, carriage return *)
Definition blanks (s : bytes) : Prop := Forall (fun c => In (code c) [32; 9; 10; 13]) s.

(* four hexadecimal digits, in either case *)
Definition hexdigit (c : ascii) (n : N) : Prop :=
  In (c, n) (combine (list_ascii_of_string "0123456789abcdefABCDEF") [0;1;2;3;4;5;6;7;8;9;10;11;12;13;14;15;10;11;12;13;14;15]).
Definition hex4 (s : bytes) (n : N) : Prop :=
  exists a b c d w x y z, s = [a; b; c; d] /\ hexdigit a w /\ hexdigit b x /\ hexdigit c y /\ hexdigit d z /\
    n = w * 4096 + x * 256 + y * 16 + z.

(* the bytes of some rune stand at the front *)
Definition begins_rune (s : bytes) : Prop := exists r t, valid_rune r = true /\ s = encode_rune r ++ t.
(* the escape of a low surrogate stands at the front *)
Definition begins_low (s : bytes) : Prop :=
  exists h n t, s = B "\u" ++ h ++ t /\ hex4 h n /\ 0xDC00 <= n < 0xE000.

(* what stands between the quotes of a string, and its value; a byte that is no part of a rune and half a surrogate pair
   stand for U+FFFD *)
Inductive jstring : bytes -> bytes -> Prop :=
| js_nil : jstring [] []
| js_rune r s v : valid_rune r = true -> 32 <= r -> r <> 34 -> r <> 92 -> jstring s v ->
    jstring (encode_rune r ++ s) (encode_rune r ++ v)
| js_bad c s v : 128 <= code c -> ~ begins_rune (c :: s) -> jstring s v -> jstring (c :: s) (encode_rune 0xFFFD ++ v)
| js_esc c n s v : In (c, n) [(B "\""", 34); (B "\\", 92); (B "\/", 47); (B "\b", 8); (B "\f", 12); (B "\n", 10); (B "\r", 13); (B "\t", 9)] ->
    jstring s v -> jstring (c ++ s) (chr n :: v)
| js_hex h n s v : hex4 h n -> ~ (0xD800 <= n < 0xE000) -> jstring s v -> jstring (B "\u" ++ h ++ s) (encode_rune n ++ v)
| js_pair h n k m s v : hex4 h n -> 0xD800 <= n < 0xDC00 -> hex4 k m -> 0xDC00 <= m < 0xE000 -> jstring s v ->
    jstring (B "\u" ++ h ++ B "\u" ++ k ++ s) (encode_rune ((n - 0xD800) * 1024 + (m - 0xDC00) + 0x10000) ++ v)
| js_half h n s v : hex4 h n -> 0xD800 <= n < 0xE000 -> ~ (n < 0xDC00 /\ begins_low s) -> jstring s v ->
    jstring (B "\u" ++ h ++ s) (encode_rune 0xFFFD ++ v).

(* the grammar of values *)
Inductive jtext : bytes -> jtree -> Prop :=
| jt_null : jtext (B "null") TNull
| jt_true : jtext (B "true") (TBool true)
| jt_false : jtext (B "false") (TBool false)
| jt_num s : json_number s -> jtext s (TNum s)
| jt_str s v : jstring s v -> jtext (B """" ++ s ++ B """") (TStr v)
| jt_arr0 w : blanks w -> jtext (B "[" ++ w ++ B "]") (TArr [])
| jt_arr p ps l : Forall2 (fun p x => exists a t b, p = a ++ t ++ b /\ blanks a /\ jtext t x /\ blanks b) (p :: ps) l ->
    jtext (B "[" ++ join (B ",") (p :: ps) ++ B "]") (TArr l)
| jt_obj0 w : blanks w -> jtext (B "{" ++ w ++ B "}") (TObj [])
| jt_obj p ps l : Forall2 (fun p e => exists a k b c t d, p = a ++ B """" ++ k ++ B """" ++ b ++ B ":" ++ c ++ t ++ d /\
      blanks a /\ jstring k (fst e) /\ blanks b /\ blanks c /\ jtext t (snd e) /\ blanks d) (p :: ps) l ->
    jtext (B "{" ++ join (B ",") (p :: ps) ++ B "}") (TObj l).

(* a whole text: a value with white space around it *)
Definition json_text (s : bytes) (x : jtree) : Prop :=
  exists a t b, s = a ++ t ++ b /\ blanks a /\ jtext t x /\ blanks b.

(* the last member named k *)
Definition last_member (l : list (bytes * jtree)) (k : bytes) : option jtree :=
  match find (fun e => beqb (fst e) k) (rev l) with Some e => Some (snd e) | None => None end.

(* the node for what a text says: of members with the same name the last counts, their order does not *)
Inductive stands : jtree -> node -> Prop :=
| sd_null : stands TNull NNil
| sd_bool b : stands (TBool b) (NBool b)
| sd_num s : stands (TNum s) (NDigits s)
| sd_str s : stands (TStr s) (NStr s)
| sd_arr l l' : Forall2 stands l l' -> stands (TArr l) (NList l')
| sd_obj l m l' : NoDup (map fst m) -> (forall k v, In (k, v) m <-> last_member l k = Some v) ->
    Forall2 (fun a b => fst a = fst b /\ stands (snd a) (snd b)) m l' -> stands (TObj l) (NMap l').

(* nesting *)
Fixpoint tdepth (x : jtree) : nat :=
  match x with
  | TArr l => S (fold_right (fun y m => Nat.max (tdepth y) m) 0%nat l)
  | TObj l => S (fold_right (fun e m => Nat.max (tdepth (snd e)) m) 0%nat l)
  | _ => 0%nat
  end.
