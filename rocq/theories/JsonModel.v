(* Model of /repo/enc/json.go: JSON text of nodes, through Go's encoding/json. *)
From Coq Require Import Bool Ascii String Arith NArith ZArith Lia List.
From Verif Require Import Prelude Utf8Model QuoteModel DecModel DurModel EncModel.
Import ListNotations.
Local Open Scope N_scope.

(* ---- numbers ---- *)
(* longest run of digits (encoding/json scanner states 0, 1, dot0, e0; reached from enc/json.go:58,81) *)
Fixpoint take_digits (s : bytes) : bytes * bytes :=
  match s with
  | c :: t => if is_digit c then let '(d, r) := take_digits t in (c :: d, r) else ([], s)
  | [] => ([], [])
  end.
(* first byte equal to n, then the rest (scanner; enc/json.go:81) *)
Definition eat (n : N) (s : bytes) : option bytes :=
  match s with c :: t => if code c =? n then Some t else None | [] => None end.

(* optional fraction: a dot must be followed by a digit (scanner stateDot; enc/json.go:81) *)
Definition pfrac (s : bytes) : option (bytes * bytes) :=
  match eat 46 s with
  | None => Some ([], s)
  | Some t => let '(d, r) := take_digits t in
              match d with [] => None | _ => Some (chr 46 :: d, r) end
  end.
(* optional exponent (scanner stateE, stateESign; enc/json.go:81) *)
Definition pexp (s : bytes) : option (bytes * bytes) :=
  match s with
  | c :: t =>
      if (code c =? 101) || (code c =? 69) then
        let '(sg, t1) := match t with
                         | g :: t' => if (code g =? 43) || (code g =? 45) then ([g], t') else ([], t)
                         | [] => ([], t)
                         end in
        let '(d, r) := take_digits t1 in
        match d with [] => None | _ => Some (c :: sg ++ d, r) end
      else Some ([], s)
  | [] => Some ([], [])
  end.
(* a number literal: its text and the rest, None is a syntax error (scanner; enc/json.go:81) *)
Definition pnum (s : bytes) : option (bytes * bytes) :=
  let '(sg, s1) := match eat 45 s with Some t => ([chr 45], t) | None => ([], s) end in
  let ip := match s1 with
            | c :: t => if code c =? 48 then Some ([c], t)
                        else if is_digit c then Some (take_digits s1)
                        else None
            | [] => None
            end in
  match ip with
  | None => None
  | Some (i, s2) =>
      match pfrac s2 with
      | None => None
      | Some (f, s3) =>
          match pexp s3 with
          | None => None
          | Some (e, s4) => Some (sg ++ i ++ f ++ e, s4)
          end
      end
  end.

(* ---- strings ---- *)
Section Encode.
  (* \b and \f have short escapes since Go 1.22; before they are \u0008 and \u000c *)
  Context (short : bool).
  (* MarshalIndent or Marshal (enc/json.go:51) *)
  Context (indent : bool).

  (* encoding/json string escapes, with escapeHTML on; reached from enc/json.go:52,58 *)
  Definition jesc_rune (r : N) : bytes :=
    if (r =? 34) || (r =? 92) then [backslash; chr r]
    else if r =? 10 then B "\n"
    else if r =? 13 then B "\r"
    else if r =? 9 then B "\t"
    else if short && (r =? 8) then B "\b"
    else if short && (r =? 12) then B "\f"
    else if (r <? 32) || (r =? 60) || (r =? 62) || (r =? 38) || (r =? 0x2028) || (r =? 0x2029)
    then B "\u" ++ hexs 4 r
    else encode_rune r.
  (* invalid UTF-8 becomes the replacement rune; reached from enc/json.go:52,58 *)
  Definition jesc_item (i : item) : bytes :=
    match i with IRune r => jesc_rune r | IBad _ => B "\ufffd" end.
  (* the text of a string; reached from enc/json.go:52,58 *)
  Definition jstr (s : bytes) : bytes := dquote :: concat (map jesc_item (runes s)) ++ [dquote].

  (* order of map keys: encoding/json sorts them as byte strings (used through enc/map.go:30) *)
  Fixpoint bltb (a b : bytes) : bool :=
    match a, b with
    | _, [] => false
    | [], _ :: _ => true
    | x :: s, y :: t => (code x <? code y) || ((code x =? code y) && bltb s t)
    end.
  (* sort.Slice on the keys (used through enc/map.go:30), as an insertion sort *)
  Fixpoint insert {A} (e : bytes * A) (l : list (bytes * A)) : list (bytes * A) :=
    match l with
    | [] => [e]
    | f :: t => if bltb (fst f) (fst e) then f :: insert e t else e :: l
    end.
  (* all keys sorted (used through enc/map.go:30) *)
  Definition ksort {A} (l : list (bytes * A)) : list (bytes * A) := fold_right insert [] l.

  (* line break and indentation at depth d, nothing when not indenting (json.Indent with prefix
     empty and two spaces; enc/json.go:52) *)
  Definition nl (d : nat) : bytes :=
    if indent then chr 10 :: concat (repeat (B "  ") d) else [].
  (* after an object key (json.Indent; enc/json.go:52,58) *)
  Definition colon : bytes := if indent then B ": " else B ":".
  (* the parts of a container at depth d: empty ones stay on the line (json.Indent; enc/json.go:52) *)
  Definition group (o c : N) (d : nat) (parts : list bytes) : bytes :=
    match parts with
    | [] => [chr o; chr c]
    | _ => chr o :: nl (S d) ++ join (chr 44 :: nl (S d)) parts ++ nl d ++ [chr c]
    end.

  (* json.Marshal(n) / json.MarshalIndent(n): enc/nil.go:15, enc/numeric.go:38,57,120, enc/time.go:31-33,
     97-102, enc/map.go:26-31, enc/pairs.go:50-63, and encoding/json for String, Bool and List.  What a
     MarshalJSON method returns is compacted by encoding/json, which is already done here. *)
  Fixpoint jenc (d : nat) (n : node) : bytes :=
    match n with
    | NNil => B "null"
    | NBool true => B "true"
    | NBool false => B "false"
    | NInt z => decz z
    | NFloat f => f_json f
    | NDigits s => s
    | NStr s => jstr s
    | NTime t => jstr (t_rfc t)
    | NDur u => jstr (dur_text u)
    | NList l => group 91 93 d (map (jenc (S d)) l)
    | NMap l => group 123 125 d
        (map (fun e => jstr (fst e) ++ colon ++ snd e)
             (ksort (map (fun e => (fst e, jenc (S d) (snd e))) l)))
    | NPairs l => group 123 125 d
        (map (fun p => jstr (snd (fst p)) ++ colon ++ jenc (S d) (snd p)) l)
    end.

  (* encoding/json refuses a MarshalJSON result that is not JSON (enc/numeric.go:57,120): the texts of
     floats (not NaN or infinite) and digits must be numbers.  Digits holding other JSON than a number
     are not modelled. *)
  Definition is_number (s : bytes) : bool :=
    match pnum s with Some (_, []) => true | _ => false end.
  (* every number in the tree is one (enc/numeric.go:57,120) *)
  Fixpoint encodable (n : node) : bool :=
    match n with
    | NFloat f => is_number (f_json f)
    | NDigits s => is_number s
    | NList l => forallb encodable l
    | NMap l => forallb (fun e => encodable (snd e)) l
    | NPairs l => forallb (fun e => encodable (snd e)) l
    | _ => true
    end.
  (* enc/json.go:50-64 Encode *)
  Definition Encode (n : node) : res bytes := if encodable n then Ok (jenc 0 n) else Panic.
End Encode.

(* ---- decoding ---- *)
(* what json.Decoder puts in an interface value with UseNumber (enc/json.go:78-81); an object is a Go map,
   listed in the order its keys first appeared *)
Inductive jval := JNull | JBool (b : bool) | JNum (s : bytes) | JStr (s : bytes)
                | JArr (l : list jval) | JObj (l : list (bytes * jval)).

(* encoding/json isSpace (enc/json.go:81) *)
Definition is_space (c : ascii) : bool :=
  (code c =? 32) || (code c =? 9) || (code c =? 13) || (code c =? 10).
(* skip white space (scanner; enc/json.go:81) *)
Fixpoint ws (s : bytes) : bytes :=
  match s with c :: t => if is_space c then ws t else s | [] => [] end.

(* a hexadecimal digit (encoding/json getu4; enc/json.go:81) *)
Definition hexval (b : ascii) : option N :=
  let c := code b in
  if is_digit b then Some (c - 48)
  else if (97 <=? c) && (c <=? 102) then Some (c - 87)
  else if (65 <=? c) && (c <=? 70) then Some (c - 55)
  else None.
(* encoding/json getu4, without the leading \u (enc/json.go:81) *)
Definition get4 (s : bytes) : option (N * bytes) :=
  match s with
  | a :: b :: c :: d :: t =>
      match hexval a, hexval b, hexval c, hexval d with
      | Some w, Some x, Some y, Some z => Some (((w * 16 + x) * 16 + y) * 16 + z, t)
      | _, _, _, _ => None
      end
  | _ => None
  end.
(* the bytes of U+FFFD (encoding/json unquote; enc/json.go:81) *)
Definition replacement : bytes := encode_rune 0xFFFD.
(* prefix the value of a string (encoding/json unquote; enc/json.go:81) *)
Definition puts (p : bytes) (r : option (bytes * bytes)) : option (bytes * bytes) :=
  match r with Some (a, t) => Some (p ++ a, t) | None => None end.

(* the rune of a \u escape, with a second one for a surrogate pair (encoding/json unquote; enc/json.go:81):
   what it stands for and the rest *)
Definition punicode (s : bytes) : option (bytes * bytes) :=
  match get4 s with
  | None => None
  | Some (r, u) =>
      if (0xD800 <=? r) && (r <? 0xE000) then
        match u with
        | b :: v :: w =>
            if (code b =? 92) && (code v =? 117) then
              match get4 w with
              | Some (r1, x) =>
                  if (r <? 0xDC00) && (0xDC00 <=? r1) && (r1 <? 0xE000)
                  then Some (encode_rune ((r - 0xD800) * 1024 + (r1 - 0xDC00) + 0x10000), x)
                  else Some (replacement, u)
              | None => Some (replacement, u)
              end
            else Some (replacement, u)
        | _ => Some (replacement, u)
        end
      else Some (encode_rune r, u)
  end.
(* a one-letter escape (scanner stateInStringEsc, unquote; enc/json.go:81) *)
Definition esc1 (e : ascii) : option bytes :=
  let c := code e in
  if (c =? 34) || (c =? 92) || (c =? 47) then Some [e]
  else if c =? 98 then Some [chr 8]
  else if c =? 102 then Some [chr 12]
  else if c =? 110 then Some [chr 10]
  else if c =? 114 then Some [chr 13]
  else if c =? 116 then Some [chr 9]
  else None.

(* the rest of a string after its opening quote: its value and what follows the closing quote
   (scanner stateInString and unquote; enc/json.go:81).  The scanner looks for the closing quote first;
   no rune contains a quote byte, so reading in one pass is the same. *)
Fixpoint pstr (fuel : nat) (s : bytes) : option (bytes * bytes) :=
  match fuel with
  | O => None
  | S f =>
      match s with
      | [] => None
      | c :: t =>
          if code c =? 34 then Some ([], t)
          else if code c =? 92 then
            match t with
            | [] => None
            | e :: u =>
                if code e =? 117 then
                  match punicode u with
                  | Some (p, v) => puts p (pstr f v)
                  | None => None
                  end
                else match esc1 e with
                     | Some p => puts p (pstr f u)
                     | None => None
                     end
            end
          else if code c <? 32 then None
          else match decode_rune s with
               | RGood r w => puts (encode_rune r) (pstr f (skipn w s))
               | _ => puts replacement (pstr f t)
               end
      end
  end.
(* a string after its opening quote, with enough fuel (enc/json.go:81) *)
Definition pstring (s : bytes) : option (bytes * bytes) := pstr (length s) s.

(* a word that must follow (scanner stateN, stateT, stateF...; enc/json.go:81) *)
Fixpoint strip (w s : bytes) : option bytes :=
  match w, s with
  | [], _ => Some s
  | x :: w', y :: s' => if code x =? code y then strip w' s' else None
  | _, [] => None
  end.

(* encoding/json maxNestingDepth (enc/json.go:81) *)
Definition maxdepth : nat := N.to_nat 10000.

(* json.Decoder.Decode into an interface value (enc/json.go:81), as a recursive descent: a value, the
   members of an object and the elements of an array.  d is the depth already open.  Two rounds per byte
   are enough fuel. *)
Fixpoint pvalue (fuel : nat) (d : nat) (s : bytes) : option (jval * bytes) :=
  match fuel with
  | O => None
  | S f =>
      match ws s with
      | [] => None
      | c :: t =>
          if code c =? 123 then
            if (maxdepth <=? d)%nat then None
            else match eat 125 (ws t) with
                 | Some r => Some (JObj [], r)
                 | None => pmembers f (S d) [] t
                 end
          else if code c =? 91 then
            if (maxdepth <=? d)%nat then None
            else match eat 93 (ws t) with
                 | Some r => Some (JArr [], r)
                 | None => pelems f (S d) [] t
                 end
          else if code c =? 34 then
            match pstring t with Some (v, r) => Some (JStr v, r) | None => None end
          else if code c =? 116 then
            match strip (B "rue") t with Some r => Some (JBool true, r) | None => None end
          else if code c =? 102 then
            match strip (B "alse") t with Some r => Some (JBool false, r) | None => None end
          else if code c =? 110 then
            match strip (B "ull") t with Some r => Some (JNull, r) | None => None end
          else match pnum (c :: t) with Some (v, r) => Some (JNum v, r) | None => None end
      end
  end
with pmembers (fuel : nat) (d : nat) (acc : list (bytes * jval)) (s : bytes) : option (jval * bytes) :=
  match fuel with
  | O => None
  | S f =>
      match eat 34 (ws s) with
      | None => None
      | Some t =>
          match pstring t with
          | None => None
          | Some (k, r) =>
              match eat 58 (ws r) with
              | None => None
              | Some r1 =>
                  match pvalue f d r1 with
                  | None => None
                  | Some (v, r2) =>
                      match ws r2 with
                      | c :: r3 =>
                          if code c =? 44 then pmembers f d (mset beqb acc k v) r3
                          else if code c =? 125 then Some (JObj (mset beqb acc k v), r3)
                          else None
                      | [] => None
                      end
                  end
              end
          end
      end
  end
with pelems (fuel : nat) (d : nat) (acc : list jval) (s : bytes) : option (jval * bytes) :=
  match fuel with
  | O => None
  | S f =>
      match pvalue f d s with
      | None => None
      | Some (v, r) =>
          match ws r with
          | c :: r1 =>
              if code c =? 44 then pelems f d (acc ++ [v]) r1
              else if code c =? 93 then Some (JArr (acc ++ [v]), r1)
              else None
          | [] => None
          end
      end
  end.

(* enc/enc.go:62-118 fromNative, on the values the decoder produces *)
Fixpoint fromNative (v : jval) : node :=
  match v with
  | JNull => NNil
  | JBool b => NBool b
  | JNum s => NDigits s
  | JStr s => NStr s
  | JArr l => NList (map fromNative l)
  | JObj l => NMap (map (fun e => (fst e, fromNative (snd e))) l)
  end.

(* enc/json.go:74-86 Decode: Good None is (nil, nil), Fail is an error.  What follows the first value
   is not looked at. *)
Definition Decode (data : bytes) : outcome (option node) unit :=
  match data with
  | [] => Good None
  | _ => match pvalue (2 * length data + 2) 0 data with
         | Some (v, _) => Good (Some (fromNative v))
         | None => Fail tt
         end
  end.

(* ---- enc.Duration ---- *)
(* enc/time.go:97-102 Duration.MarshalJSON *)
Definition dur_marshal (short : bool) (d : Z) : bytes := jstr short (dur_text d).
(* json.Unmarshal of a whole text into a string variable (enc/time.go:118-119): null leaves it empty, anything
   else than a string is an error, and only white space may follow *)
Definition unmarshal_string (j : bytes) : option bytes :=
  match pvalue (2 * length j + 2) 0 j with
  | Some (v, r) =>
      match ws r with
      | [] => match v with JStr s => Some s | JNull => Some [] | _ => None end
      | _ => None
      end
  | None => None
  end.
(* enc/time.go:117-124 Duration.UnmarshalJSON, 104-115 Parse (an empty text is zero); None is an error *)
Definition dur_unmarshal (fracval : N -> N -> nat -> N) (j : bytes) : option Z :=
  match unmarshal_string j with Some s => dur_parse fracval s | None => None end.
