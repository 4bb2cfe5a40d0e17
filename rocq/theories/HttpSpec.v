(* Vocabulary of the statements about HTTP. *)
From Coq Require Import Bool Ascii String Arith NArith ZArith List.
From Verif Require Import Prelude Utf8Model DecModel EncModel JsonModel JsonSpec CtxModel ErrModel ErrSpec MarModel MarSpec ConfModel ConfSpec ApiModel ApiSpec HttpModel.
Import ListNotations.

(* ---- writers ---- *)
Definition is_status (o : wcall) : bool := match o with WriteHeader _ => true | _ => false end.
(* the first call that settles the status, and the status; explicit: it is WriteHeader *)
Inductive settles : list wcall -> bool -> Z -> Prop :=
| st_header c l : settles (WriteHeader c :: l) true c
| st_write b l : settles (Write b :: l) false 200
| st_skip k v l e c : settles l e c -> settles (AddHeader k v :: l) e c.
(* a status that ends a response: not informational, and one that net/http sends *)
Definition final (c : Z) : Prop := (c = 101 \/ 200 <= c <= 999)%Z.
(* a status with which a body is sent *)
Definition bodied (c : Z) : Prop := (200 <= c <= 999 /\ c <> 204 /\ c <> 304)%Z.
(* the status the client gets *)
Definition status_of (r : reply) : option Z := match r with Reply _ c _ _ => Some c | Broken => None end.

(* ---- requests ---- *)
(* the body that a handler is given *)
Definition reads (q : hreq) (b : bytes) : Prop := q_body q = Some (inl b) \/ (q_body q = None /\ b = []).
Definition includes (s x : bytes) : Prop := exists a b, s = a ++ x ++ b.
(* The client may accept gzip: it did not say which encodings it accepts, or it named gzip or any. *)
Definition may_gzip (q : hreq) : Prop := forall v, q_encoding q = Some v -> includes v (B "gzip") \/ includes v (B "*").
Definition zipped (h : headers) : Prop := In (B "Content-Encoding", B "gzip") h.
(* the content of a response *)
Definition content (gunzip : bytes -> option bytes) (h : headers) (body out : bytes) : Prop :=
  (zipped h -> gunzip body = Some out) /\ (~ zipped h -> body = out).
(* the names and values of a JSON object of texts, bytes that are not UTF-8 replaced *)
Definition says (j : bytes) (l : list (bytes * bytes)) : Prop :=
  Decode j = Good (Some (NMap (map (fun e => (fst e, NStr (cleaned (snd e)))) l))).
(* the error has no http.Error in it *)
Definition plain_error (user_http : N -> option Z) (e : gerr) : Prop := Forall (fun x => http_code user_http x = None) (nodes e).

(* ---- calls ---- *)
(* an operation as in C41: an error is an error *)
Definition outcome_of (do : list val -> dres) (o : list val) : option (list val) := match do o with DOk o' => Some o' | _ => None end.
(* a status that a client takes for success, or that net/http does not send as it is *)
Definition looks_ok (c : Z) : Prop := (c = 200 \/ c = 204 \/ (100 <= c <= 199 /\ c <> 101))%Z.
(* the body that these calls leave: what was written after the last body that was set *)
Inductive leaves : list ccall -> bytes -> Prop :=
| leaves_none : leaves [] []
| leaves_write l b x : leaves l b -> leaves (l ++ [CWrite x]) (b ++ x)
| leaves_set l x : leaves (l ++ [CSetBody x]) x.
