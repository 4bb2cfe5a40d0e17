(* Vocabulary of the statements about the log lines of requests and websocket connections: C159. *)
From Coq Require Import Bool Ascii String Arith NArith ZArith List.
From Verif Require Import Prelude Utf8Model DurModel JsonSpec RfcSpec CtxModel CtxSpec LogModel LgModel LgSpec.
Import ListNotations.

(* among the tags of a line, k is there and is the text v and nothing else *)
Definition tells (tl : list (bytes * jtree)) (k v : bytes) : Prop := In (k, TStr v) tl /\ forall x, In (k, x) tl -> x = TStr v.
(* a line of JSON with this time, level, message, source and these tags *)
Definition is_line (line now : bytes) (lvl : Z) (msg src : bytes) (tl : list (bytes * jtree)) : Prop :=
  exists s lv, line = s ++ [chr 10] /\ one_line s /\ reads_level lv lvl /\ json_text s (line_tree now lv msg src tl).
(* c has no tag that the logger mistakes for one of its own *)
Definition plain (c : context) : Prop := closest_tag c (B "level") = None /\ closest_tag c (B "msg") = None.
