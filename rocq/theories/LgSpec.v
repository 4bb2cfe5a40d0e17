(* Vocabulary of the statements about the lines of the default logger. *)
From Coq Require Import Bool Ascii String Arith NArith ZArith List.
From Verif Require Import Prelude Utf8Model DecModel DurModel JsonSpec RfcSpec CtxModel CtxSpec LogModel LgModel.
Import ListNotations.
Local Open Scope N_scope.

(* nothing in a text ends a line, or is a control character at all *)
Definition one_line (s : bytes) : Prop := Forall (fun c => 32 <= code c) s.
(* the texts of times *)
Definition clock_text (s : bytes) : Prop := Forall (fun c => 32 < code c < 127 /\ code c <> 34 /\ code c <> 92) s.
(* how levels are called: a name, and the distance from it *)
Definition level_names : list (bytes * Z) := [(B "debug", -4); (B "info", 0); (B "warn", 4); (B "error", 8)]%Z.
Inductive reads_level : bytes -> Z -> Prop :=
| rl_name n b : In (n, b) level_names -> reads_level n b
| rl_above n b d : In (n, b) level_names -> (0 < d)%Z -> reads_level (n ++ B "+" ++ decz d) (b + d)
| rl_below n b d : In (n, b) level_names -> (d < 0)%Z -> reads_level (n ++ decz d) (b + d).
(* how the text of a tag shows in a line: as what it says, or as an error if it is no JSON *)
Definition tag_shows (t : bytes) (x : jtree) : Prop :=
  (json_text t x /\ N.of_nat (tdepth x) <= 10000) \/
  ((forall y, json_text t y -> 10000 < N.of_nat (tdepth y)) /\ exists m, x = TStr (B "!ERROR:" ++ m)).
(* the object of a line *)
Definition line_tree (now lv msg src : bytes) (tl : list (bytes * jtree)) : jtree :=
  TObj ([(B "time", TStr now); (B "level", TStr lv); (B "message", TStr (cleaned msg))] ++
        match src with [] => [] | _ => [(B "src", TStr (cleaned src))] end ++
        match tl with [] => [] | _ => [(B "tags", TObj tl)] end).
(* a line that says this: the time, a level, a message, a source if it is not empty, these tags if there are any *)
Definition line_says (line now : bytes) (lvl : Z) (msg src : bytes) (tags : list (bytes * bytes)) : Prop :=
  exists s lv tl, line = s ++ [chr 10] /\ one_line s /\ reads_level lv lvl /\ json_text s (line_tree now lv msg src tl) /\
    Forall2 (fun e f => fst f = cleaned (fst e) /\ tag_shows (snd e) (snd f)) tags tl.
(* arguments that leave the tags alone: no Loggable but redacted strings *)
Definition leaves_tags (a : arg) : Prop := match a with ALoggable _ => False | _ => True end.
Definition is_error (a : arg) : Prop := match a with AErr _ => True | _ => False end.
