(* Vocabulary of the statements about the paths of the server. *)
From Coq Require Import Bool Ascii String Arith NArith List.
From Verif Require Import Prelude Utf8Model DurModel RtModel.
Import ListNotations.

(* a path with a leading slash, and nothing to clean: no empty elements but the last, none that are "." or ".." *)
Definition begins (p : bytes) : Prop := exists r, p = B "/" ++ r.
Definition clean (p : bytes) : Prop :=
  begins p /\ (forall a b, p <> a ++ B "//" ++ b) /\
  forall a b w, w = B "." \/ w = B ".." -> p <> a ++ B "/" ++ w /\ p <> a ++ B "/" ++ w ++ B "/" ++ b.
(* the paths that a call registers *)
Definition paths (c : call) : list bytes :=
  match c with Register None _ => [] | Register (Some ps) _ => ps | Request p => [p] | Handle p => [p] | Raw ps => ps end.
(* all paths are without a host *)
Definition no_hosts (cs : list call) : Prop := forall c p, In c cs -> In p (paths c) -> p = [] \/ begins p.
(* the n-th call of these, the first of which has number 3 *)
Definition made_by (cs : list call) (n : nat) (p : bytes) : Prop := 3 <= n /\ exists c, nth_error cs (n - 3) = Some c /\ In p (paths c).
(* OpenAPI.Paths has the documentation that call n made *)
Definition documented (s : srv) (p : bytes) (n : nat) : Prop := mget beqb (docs s) p = Some n.
(* the mux has the path with the handler of call n *)
Definition registered (s : srv) (p : bytes) (n : nat) : Prop := In (p, n) (exact (mx s)).
(* the pattern is for this path *)
Definition matches (pattern path : bytes) : Prop := pattern = path \/ (exists a, pattern = a ++ B "/") /\ exists b, path = pattern ++ b.
(* the host of a request has no slash (net/http refuses a Host header with one) *)
Definition host_ok (host : bytes) : Prop := ~ In "/"%char host.
(* the longest pattern for this path, and its call *)
Definition longest (s : srv) (path p : bytes) (n : nat) : Prop :=
  registered s p n /\ matches p path /\ forall q m, registered s q m -> matches q path -> length q <= length p.
(* some call has this pattern *)
Definition taken (s : srv) (p : bytes) : Prop := exists n, registered s p n.
(* How a path is cleaned, one step at a time.  named: an element of a path other than "." and ".." *)
Definition named (x : bytes) : Prop := x <> [] /\ x <> B "." /\ x <> B ".." /\ ~ In "/"%char x.
(* what is left of a path when its last element goes *)
Definition left_of (a d : bytes) : Prop := (a = [] /\ d = B "/") \/ (d = a /\ a <> [] /\ forall b, a <> b ++ B "/").
Inductive shorter : bytes -> bytes -> Prop :=
| sh_slashes a b : shorter (a ++ B "//" ++ b) (a ++ B "/" ++ b)
| sh_dot a b : shorter (a ++ B "/./" ++ b) (a ++ B "/" ++ b)
| sh_up a x b : named x -> shorter (a ++ B "/" ++ x ++ B "/../" ++ b) (a ++ B "/" ++ b)
| sh_top b : shorter (B "/../" ++ b) (B "/" ++ b)
| sh_last_dot a d : left_of a d -> shorter (a ++ B "/.") d
| sh_last_up a x d : named x -> left_of a d -> shorter (a ++ B "/" ++ x ++ B "/..") d
| sh_last_top : shorter (B "/..") (B "/").
Inductive cleaned : bytes -> bytes -> Prop :=
| cl_done p : clean p -> cleaned p p
| cl_step p p1 q : shorter p p1 -> cleaned p1 q -> cleaned p q.
(* the path of a request, made absolute *)
Definition absolute (path p : bytes) : Prop := (begins path /\ p = path) \/ (~ begins path /\ p = B "/" ++ path).
