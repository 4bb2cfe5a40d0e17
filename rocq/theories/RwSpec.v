(* Vocabulary of the statements about the contexts of websocket connections: C158. *)
From Coq Require Import Bool Ascii String Arith NArith ZArith List.
From Verif Require Import Prelude DurModel JsonModel CtxModel CtxSpec RqModel RqSpec RwModel.
Import ListNotations.

(* the context given to Listen *)
Definition root (x : wsc) : nat := base (w_req x).
(* the tracking id of the connection, for the context given to Listen *)
Definition track_of (b : context) (x : wsc) : bytes := match closest_track b with Some t => t ++ B ".1" | None => w_fresh x end.
(* the tags of the connection *)
Definition ws_tags (b : context) (x : wsc) : list (bytes * bytes) :=
  (B "tracking-id", jstr false (track_of b x)) :: if w_rpc x then [] else [(B "ws.sid", jstr false (w_sid x))].
