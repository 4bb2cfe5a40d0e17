(* Model of ctx.JSON (/repo/ctx/error.go:77-89) and of json.RawMessage, of the arrays their bytes are in, and of json.Decoder reading a stream. *)
From Coq Require Import Bool Ascii String Arith NArith List.
From Verif Require Import Prelude.
Import ListNotations.

(* the arrays of the program, and a slice of one of them; ctx/error.go:78 *)
Definition heap := list bytes.
Record slice := Slice { s_arr : nat; s_off : nat; s_len : nat }.
Definition arr (h : heap) (a : nat) : bytes := nth a h [].
Definition at_ (h : heap) (s : slice) : bytes := firstn (s_len s) (skipn (s_off s) (arr h (s_arr s))).
(* copying these bytes into an array *)
Definition poke (b : bytes) (off : nat) (data : bytes) : bytes := firstn off b ++ data ++ skipn (off + length data) b.
Definition write (h : heap) (a off : nat) (data : bytes) : heap := firstn a h ++ poke (arr h a) off data :: skipn (S a) h.
(* a new array *)
Definition alloc (h : heap) (data : bytes) : heap * slice := (h ++ [data], Slice (length h) 0 (length data)).

(* ctx/error.go:83-86 JSON.UnmarshalJSON: the slice itself *)
Definition ctx_unmarshal (h : heap) (j : slice) : heap * slice := (h, j).
(* json.RawMessage.UnmarshalJSON (which ctx/error.go:77 refers to), into an empty one: append copies into a new array *)
Definition raw_unmarshal (h : heap) (j : slice) : heap * slice := alloc h (at_ h j).
(* json.Unmarshal, into either: it gives UnmarshalJSON the part of its argument that holds the document *)
Definition json_unmarshal (um : heap -> slice -> heap * slice) (h : heap) (text : slice) (before len : nat) : heap * slice :=
  um h (Slice (s_arr text) (s_off text + before) len).
(* enc.Unmarshal into a json.Unmarshaler, enc/handler.go:95-101: text is what json.Marshal gives for the node *)
Definition enc_unmarshal (um : heap -> slice -> heap * slice) (h : heap) (text : bytes) : heap * slice :=
  let (h1, j) := alloc h text in um h1 j.

(* Marshal of what a value holds; None is nil.  compact: what json.Marshal makes of the bytes a MarshalJSON returns, None if they are no JSON.
   ctx/error.go:80-82; json.RawMessage.MarshalJSON *)
Definition ctx_marshal (compact : bytes -> option bytes) (v : option bytes) : option bytes :=
  compact (match v with Some b => b | None => [] end).
Definition raw_marshal (compact : bytes -> option bytes) (v : option bytes) : option bytes :=
  compact (match v with Some b => b | None => B "null" end).

(* json.Decoder.Decode, when the documents are read one at a time, as from a connection, and fit into the array: what is consumed is dropped by moving
   the rest, which is empty, to the front (json.Decoder.refill), and the document is read there.  The array is the first one of the program. *)
Definition next (um : heap -> slice -> heap * slice) (h : heap) (doc : bytes) : heap * slice :=
  um (write h 0 0 doc) (Slice 0 0 (length doc)).
Fixpoint stream (um : heap -> slice -> heap * slice) (h : heap) (docs : list bytes) : heap * list slice :=
  match docs with
  | [] => (h, [])
  | d :: ds => let (h1, s) := next um h d in let (h2, l) := stream um h1 ds in (h2, s :: l)
  end.
