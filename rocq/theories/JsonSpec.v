(* Vocabulary of the JSON theorems. *)
From Coq Require Import Bool Ascii String Arith NArith ZArith Lia List Permutation.
From Verif Require Import Prelude Utf8Model DecModel DurModel EncModel.
Import ListNotations.

Definition all_digits (s : bytes) : Prop := s <> [] /\ Forall (fun c => is_digit c = true) s.

(* the number grammar of JSON: sign, integer part without leading zeros, fraction, exponent *)
Definition json_number (s : bytes) : Prop :=
  exists sg ip fr ex, s = sg ++ ip ++ fr ++ ex /\
    (sg = [] \/ sg = B "-") /\
    (ip = B "0" \/ (all_digits ip /\ hd_error ip <> Some (digit 0))) /\
    (fr = [] \/ exists d, fr = B "." ++ d /\ all_digits d) /\
    (ex = [] \/ exists e g d, ex = e ++ g ++ d /\ (e = B "e" \/ e = B "E") /\
       (g = [] \/ g = B "+" \/ g = B "-") /\ all_digits d).

(* nodes that have a JSON text: UTF-8 strings, numbers that are numbers, distinct keys in maps *)
Fixpoint good_node (n : node) : Prop :=
  match n with
  | NNil | NBool _ | NInt _ | NDur _ => True
  | NFloat f => json_number (f_json f)
  | NDigits s => json_number s
  | NStr s => valid_utf8 s = true
  | NTime t => valid_utf8 (t_rfc t) = true
  | NList l => fold_right (fun x P => good_node x /\ P) True l
  | NMap l => NoDup (map fst l) /\ fold_right (fun e P => valid_utf8 (fst e) = true /\ good_node (snd e) /\ P) True l
  | NPairs l => fold_right (fun e P => valid_utf8 (snd (fst e)) = true /\ good_node (snd e) /\ P) True l
  end.

(* nesting of containers *)
Fixpoint ndepth (n : node) : nat :=
  match n with
  | NList l => S (fold_right (fun x m => Nat.max (ndepth x) m) 0 l)
  | NMap l => S (fold_right (fun e m => Nat.max (ndepth (snd e)) m) 0 l)
  | NPairs l => S (fold_right (fun e m => Nat.max (ndepth (snd e)) m) 0 l)
  | _ => 0
  end.

(* the value of the last pair with JSON name k *)
Definition last_value (l : list (bytes * bytes * node)) (k : bytes) : option node :=
  match find (fun p => beqb (snd (fst p)) k) (rev l) with Some p => Some (snd p) | None => None end.

(* m is what n becomes when written as JSON and read back: numbers as their digits, times and
   durations as their text, pairs as the map of their last values; maps as sets of entries *)
Inductive reads_as : node -> node -> Prop :=
| ra_nil : reads_as NNil NNil
| ra_bool b : reads_as (NBool b) (NBool b)
| ra_int z : reads_as (NInt z) (NDigits (decz z))
| ra_float f : reads_as (NFloat f) (NDigits (f_json f))
| ra_digits s : reads_as (NDigits s) (NDigits s)
| ra_str s : reads_as (NStr s) (NStr s)
| ra_time t : reads_as (NTime t) (NStr (t_rfc t))
| ra_dur u : reads_as (NDur u) (NStr (dur_text u))
| ra_list l l' : Forall2 reads_as l l' -> reads_as (NList l) (NList l')
| ra_map l m l' : Permutation l m ->
    Forall2 (fun a b => fst a = fst b /\ reads_as (snd a) (snd b)) m l' -> reads_as (NMap l) (NMap l')
| ra_pairs l m l' : NoDup (map fst m) -> (forall k v, In (k, v) m <-> last_value l k = Some v) ->
    Forall2 (fun a b => fst a = fst b /\ reads_as (snd a) (snd b)) m l' -> reads_as (NPairs l) (NMap l').

(* every undecodable byte replaced by U+FFFD *)
Definition cleaned (s : bytes) : bytes :=
  concat (map (fun i => match i with IRune r => encode_rune r | IBad _ => encode_rune 0xFFFD end) (runes s)).

(* the maps of n have distinct keys, as Go maps do *)
Fixpoint distinct_keys (n : node) : Prop :=
  match n with
  | NList l => fold_right (fun x P => distinct_keys x /\ P) True l
  | NMap l => NoDup (map fst l) /\ fold_right (fun x P => distinct_keys (snd x) /\ P) True l
  | NPairs l => fold_right (fun x P => distinct_keys (snd x) /\ P) True l
  | _ => True
  end.

(* some number held by n, at any depth, is none that JSON can write: NaN, infinities, odd digits *)
Inductive holds_bad_number : node -> Prop :=
| hb_float f : ~ json_number (f_json f) -> holds_bad_number (NFloat f)
| hb_digits s : ~ json_number s -> holds_bad_number (NDigits s)
| hb_list l x : In x l -> holds_bad_number x -> holds_bad_number (NList l)
| hb_map l k x : In (k, x) l -> holds_bad_number x -> holds_bad_number (NMap l)
| hb_pairs l k x : In (k, x) l -> holds_bad_number x -> holds_bad_number (NPairs l).
