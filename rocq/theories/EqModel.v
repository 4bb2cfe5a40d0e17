(* Model of EqualsJSON and jsonish of /repo/test. *)
From Coq Require Import Bool Ascii String Arith NArith ZArith Lia List.
From Verif Require Import Prelude Utf8Model QuoteModel DecModel DurModel EncModel JsonModel.
Import ListNotations.
Local Open Scope N_scope.

(* ---- float64 ---- *)
(* a finite float64 (test/util.go:21,24,28 through encoding/json convertNumber): its sign and its magnitude in units of 2^-1074,
   the smallest one there is *)
Definition f64 : Type := bool * N.
(* one, in those units (test/util.go:21,24,28) *)
Definition one64 : N := 2 ^ 1074.
(* the value of a text of digits (strconv readFloat; test/util.go:21,24,28) *)
Definition digits_n (s : bytes) : N := fold_left (fun a c => 10 * a + (code c - 48)) s 0.
(* sign, digits and power of ten of a number text (strconv readFloat; test/util.go:21,24,28) *)
Definition num_parts (s : bytes) : bool * N * Z :=
  let '(neg, s1) := match eat 45 s with Some t => (true, t) | None => (false, s) end in
  let '(i, s2) := take_digits s1 in
  let '(f, s3) := match eat 46 s2 with Some t => take_digits t | None => ([], s2) end in
  let e := match s3 with
           | c :: t =>
               if (code c =? 101) || (code c =? 69) then
                 match t with
                 | g :: u => if code g =? 45 then (- Z.of_N (digits_n (fst (take_digits u))))%Z
                             else if code g =? 43 then Z.of_N (digits_n (fst (take_digits u)))
                             else Z.of_N (digits_n (fst (take_digits t)))
                 | [] => 0%Z
                 end
               else 0%Z
           | [] => 0%Z
           end in
  (neg, digits_n (i ++ f), (e - Z.of_nat (length f))%Z).
(* the float64 nearest to P/Q, the even one of two, as if exponents had no upper limit (strconv.ParseFloat, which is documented to
   round that way; test/util.go:21,24,28) *)
Definition round64 (P Q : N) : N :=
  let X := P * one64 in
  let j := N.log2 (X / Q) - 52 in
  let D := Q * 2 ^ j in
  let n := X / D in
  let r := X mod D in
  (if (D <? 2 * r) || ((D =? 2 * r) && N.odd n) then n + 1 else n) * 2 ^ j.
(* encoding/json convertNumber, strconv.ParseFloat(s, 64): None is out of range (test/util.go:21,24,28) *)
Definition convert (s : bytes) : option f64 :=
  let '(neg, m, e) := num_parts s in
  let k := round64 (m * 10 ^ Z.to_N e) (10 ^ Z.to_N (- e)) in
  if k <? 2 ^ 1024 * one64 then Some (neg, k) else None.

Section Jsonish.
  (* encoding/json's text of a float64 (enc/numeric.go:57) *)
  Context (ftext : f64 -> bytes).
  (* the message of JSON.Decode for a text that is no JSON (enc/json.go:83, test/util.go:34) *)
  Context (message : bytes -> bytes).
  (* see JsonModel *)
  Context (short : bool).

  (* json.Unmarshal into an interface value, below the top, and enc.Marshal of what it made (test/util.go:21,24,28,31,
     enc/handler.go:178,208,210,216,223-238,239-272): numbers are floats, or nil when out of range *)
  Fixpoint native (v : jval) : node :=
    match v with
    | JNull => NNil
    | JBool b => NBool b
    | JNum s => match convert s with Some f => NFloat (Floatv [] [] (ftext f)) | None => NNil end
    | JStr s => NStr s
    | JArr l => NList (map native l)
    | JObj l => NMap (map (fun e => (fst e, native (snd e))) l)
    end.
  (* json.Valid, json.Unmarshal: the whole text must be one value (test/util.go:21,22,24,26,28) *)
  Definition whole (j : bytes) : option jval :=
    match pvalue (2 * length j + 2) 0 j with
    | Some (v, r) => match ws r with [] => Some v | _ => None end
    | None => None
    end.
  (* the variable v after json.Unmarshal(x, &v), as the node it is marshalled to; None is unchanged: a text that is no JSON, or
     a number out of range that is the whole text (encoding/json literalStore; test/util.go:21,24,28) *)
  Definition unmarshalled (j : bytes) : option node :=
    match whole j with
    | Some (JNum s) => match convert s with Some _ => Some (native (JNum s)) | None => None end
    | Some v => Some (native v)
    | None => None
    end.

  (* what EqualsJSON is given: a string, a []byte (None is nil), a json.RawMessage (None is nil), or any other value, of which
     enc.Marshal makes a node or an error with a text, or panics (test/util.go:17-31) *)
  Inductive given := GStr (s : bytes) | GBytes (b : option bytes) | GRaw (b : option bytes) | GValue (n : outcome node bytes).

  (* enc.Marshal of v (test/util.go:31): the string and slice cases of enc/handler.go:216,223-238; RawMessage has MarshalJSON,
     enc/handler.go:190-195, and a nil one writes null *)
  Definition marshalled (g : given) : outcome node bytes :=
    match g with
    | GStr s => Good (match unmarshalled s with Some n => n | None => NStr s end)
    | GBytes None => Good NNil
    | GBytes (Some b) =>
        Good (match unmarshalled b with Some n => n | None => NList (map (fun c => NInt (Z.of_N (code c))) b) end)
    | GRaw None => Good NNil
    | GRaw (Some b) =>
        match unmarshalled b with
        | Some n => Good n
        | None => match Decode b with
                  | Good (Some n) => Good n
                  | Good None => Good NNil
                  | Fail _ => Fail (message b)
                  | Crash => Crash
                  end
        end
    | GValue n => n
    end.
  (* test/util.go:18-36 jsonish *)
  Definition jsonish (g : given) : res bytes :=
    match marshalled g with
    | Good n => Encode short false n
    | Fail m => Ok m
    | Crash => Panic
    end.
  (* test/equals.go:73-81 equalJSON, without the text of the result; Panic is Encode's *)
  Definition equalJSON (e g : given) : res bool :=
    rbind (jsonish e) (fun a => rbind (jsonish g) (fun b => Ok (beqb a b))).
  (* the end of a test: the line is logged and it goes on, or it fails and ends (test/util.go:62-79, test/assert.go:14-22) *)
  Inductive verdict := Passes | Fails.
  (* test/equals.go:60-64 EqualsJSON *)
  Definition EqualsJSON (e g : given) : res verdict := rbind (equalJSON e g) (fun b => Ok (if b then Passes else Fails)).
  (* test/equals.go:67-71 NotEqualsJSON *)
  Definition NotEqualsJSON (e g : given) : res verdict := rbind (equalJSON e g) (fun b => Ok (if b then Fails else Passes)).
End Jsonish.
