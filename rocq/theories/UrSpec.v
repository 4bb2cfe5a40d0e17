(* Vocabulary of the statements about the requests of Client.API. *)
From Coq Require Import Bool Ascii String Arith NArith List.
From Verif Require Import Prelude Utf8Model DurModel RtModel RtSpec UrModel.
Import ListNotations.

(* the digit of this value (RFC 3986, 2.1) *)
Definition hex_digit (c : ascii) (v : N) : Prop :=
  (v < 16)%N /\ (code c = 48 + v /\ v < 10 \/ code c = 87 + v /\ 10 <= v \/ code c = 55 + v /\ 10 <= v)%N.
(* the escaped text e is for p *)
Inductive spells : bytes -> bytes -> Prop :=
| sp_nil : spells [] []
| sp_plain c e p : c <> "%"%char -> spells e p -> spells (c :: e) (c :: p)
| sp_byte a b x y e p : hex_digit a x -> hex_digit b y -> spells e p -> spells ("%"%char :: a :: b :: e) (chr (16 * x + y) :: p).
(* the address of a server *)
Definition server_at (base : url) (host : bytes) : Prop :=
  (u_scheme base = B "http" \/ u_scheme base = B "https") /\ u_host base = host /\ host <> [].
(* an url that is only a path *)
Definition only_path (u : url) : Prop := u_scheme u = [] /\ u_opaque u = [] /\ u_user u = false /\ u_host u = [].
(* the url spells this absolute path *)
Definition path_is (u : url) (p : bytes) : Prop := begins (u_esc u) /\ spells (u_esc u) p.
