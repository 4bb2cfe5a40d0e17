(* Vocabulary of the statements about websocket handshakes. *)
From Coq Require Import Bool Ascii String Arith NArith List.
From Verif Require Import Prelude Utf8Model DurModel UrModel UrSpec WkModel.
Import ListNotations.

(* letters and digits *)
Definition letter (c : ascii) : Prop := (97 <= code c <= 122 \/ 65 <= code c <= 90)%N.
Definition digit (c : ascii) : Prop := (48 <= code c <= 57)%N.
(* a scheme (RFC 3986, 3.1) *)
Inductive scheme_is : bytes -> Prop :=
| scheme_intro c s : letter c -> (forall x, In x s -> letter x \/ digit x \/ In x (B "+-.")) -> scheme_is (c :: s).
(* a name, an IPv4 or a bracketed IPv6 address, and maybe a port, as in the Host and Origin headers of browsers *)
Inductive port_is : bytes -> Prop :=
| port_none : port_is []
| port_some p : (forall x, In x p -> digit x) -> port_is (":"%char :: p).
Inductive host_is : bytes -> Prop :=
| host_name n p : n <> [] -> (forall x, In x n -> letter x \/ digit x \/ In x (B "-._")) -> port_is p -> host_is (n ++ p)
| host_six n p : (forall x, In x n -> letter x \/ digit x \/ In x (B ":.")) -> port_is p -> host_is ("["%char :: n ++ "]"%char :: p).
(* what browsers send as the origin of a page (RFC 6454, 6.2), other than "null" *)
Inductive web_origin : bytes -> Prop := web_intro s h : scheme_is s -> host_is h -> web_origin (s ++ B "://" ++ h).
(* the page is from the server itself *)
Definition same_origin (q : req) : Prop := q_origin q = (if q_tls q then B "https" else B "http") ++ B "://" ++ q_host q.
(* the text is the word, in any case *)
Definition reads (s w : bytes) : Prop := Forall2 (fun c l => c = l \/ (97 <= code l <= 122 /\ code c + 32 = code l)%N) s w.
(* the path and query of a request *)
Definition uri_is (u : bytes) : Prop :=
  exists path query p, u = path ++ query /\ hd_error path = Some "/"%char /\ spells path p /\ ~ In "?"%char path /\
    (query = [] \/ hd_error query = Some "?"%char) /\ forall c, In c u -> (32 <= code c /\ code c <> 127)%N.
(* a client's opening handshake (RFC 6455, 4.2.1), for any subprotocols and origin *)
Definition handshake (q : req) : Prop :=
  q_method q = B "GET" /\ host_is (q_host q) /\ uri_is (q_uri q) /\ reads (q_upgrade q) (B "websocket") /\
  (exists a b w, q_connection q = a ++ w ++ b /\ reads w (B "upgrade")) /\ q_key q <> [] /\ q_version q = B "13".
(* it asks for one subprotocol or for none *)
Definition one_protocol (q : req) : Prop := ~ In ","%char (q_protocol q).
Definition with_origin (q : req) (o : bytes) : req :=
  Req (q_method q) (q_tls q) (q_host q) (q_uri q) (q_upgrade q) (q_connection q) (q_key q) (q_version q) (q_protocol q) o.
