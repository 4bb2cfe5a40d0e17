(* What is said about stack frames: which module a go.mod declares, which file a path of a build with -trimpath is. *)
From Coq Require Import Bool Ascii String Arith NArith List.
From Verif Require Import Prelude Utf8Model DurModel.
Import ListNotations.

(* go.mod (go.dev/ref/mod): lines of tokens with blanks between them *)
Definition newline : ascii := chr 10.
Definition gap (c : ascii) : Prop := In c [chr 32; chr 9; chr 13].
(* a module path that needs no quotes *)
Definition path_char (c : ascii) : Prop := ~ In c [chr 32; chr 9; chr 10; chr 12; chr 13; chr 34; chr 96; chr 40].
Definition path_token (n : bytes) : Prop := n <> [] /\ Forall path_char n.
(* the end of a token *)
Definition token_ends (t : bytes) : Prop := match t with [] => True | c :: _ => gap c \/ c = newline end.
(* a line with another directive, a comment or nothing *)
Definition other_line (l : bytes) : Prop := ~ In newline l /\ forall a t, l = a ++ B "module" ++ t -> Forall gap a -> ~ token_ends t.
(* the text has the directive module with this path, before it there are other lines; how: what is between module and the path, and how it
   is written *)
Inductive declares (sep written : bytes) : bytes -> Prop :=
| dc_here a t : Forall gap a -> token_ends t -> declares sep written (a ++ B "module" ++ sep ++ written ++ t)
| dc_next l r : other_line l -> declares sep written r -> declares sep written (l ++ newline :: r).
(* the path n, with or without quotes *)
Definition declares_module (n text : bytes) : Prop :=
  path_token n /\ exists sep w, sep <> [] /\ Forall gap sep /\ (w = n \/ w = chr 34 :: n ++ [chr 34]) /\ declares sep w text.
(* the directive with spaces and without quotes is the first text "module", spaces, and something that is not blank *)
Definition plainly (n text : bytes) : Prop :=
  path_token n /\ exists before spaces t, text = before ++ B "module" ++ spaces ++ n ++ t /\ spaces <> [] /\ Forall (eq (chr 32)) spaces /\ token_ends t /\
    ~ (exists x sp c z, text = x ++ B "module" ++ sp ++ c :: z /\ sp <> [] /\ Forall (eq (chr 32)) sp /\ ~ In c [chr 32; chr 9; chr 10; chr 12; chr 13] /\ length x < length before).

(* the directory (elements, the last first) of the go.mod that counts: the first one that has one, going up *)
Inductive nearest (file : list bytes -> bytes) : list bytes -> list bytes -> Prop :=
| near_here d : file d <> [] -> nearest file d d
| near_up x d e : file (x :: d) = [] -> nearest file d e -> nearest file (x :: d) e.
(* the text of a directory *)
Inductive names_dir : list bytes -> bytes -> Prop :=
| nd_root : names_dir [] (B "/")
| nd_one x : names_dir [x] ("/"%char :: x)
| nd_more x y d t : names_dir (y :: d) t -> names_dir (x :: y :: d) (t ++ "/"%char :: x).
