(* Vocabulary of the statements about the growth of the metrics: C146. *)
From Coq Require Import Bool Ascii String Arith NArith ZArith List.
From Verif Require Import Prelude HttpModel.
Import ListNotations.

(* what is counted of a request: method, path and status *)
Definition counted (route : hreq -> option bytes * hdlr) (qs : list hreq) : list (bytes * bytes * Z) :=
  flat_map (fun q => snd (serve (fst (route q)) (snd (route q)) q)) qs.
(* a request is answered: its handler does not panic *)
Definition answered (route : hreq -> option bytes * hdlr) (q : hreq) : Prop := fst (serve (fst (route q)) (snd (route q)) q) <> Broken.
(* a request that anyone can make: GET, without identity and body *)
Definition anybody (q : hreq) : Prop := exists path, q = HReq (B "GET") path [] None None.
