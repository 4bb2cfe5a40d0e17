(* Model of how the metrics of /repo/http grow with the requests: server.go:43-64, mux.go:20-38, metrics.go and utils/prom/histogram.go. *)
From Coq Require Import Bool Ascii String Arith NArith ZArith List.
From Verif Require Import Prelude Utf8Model QuoteModel DecModel DurModel PromModel PxModel HttpModel.
Import ListNotations.

Section Metrics.
  Context (isprint : N -> bool) {V : Type} (leb : V -> V -> bool) (add : V -> V -> V) (zero : V).
  (* where the mux sends a request: to a handler registered by Handle with this pattern, or to one without (which may be its own, that
     answers 404 or 301); http/server.go:54, http/mux.go:21.  How long the request takes. *)
  Context (route : hreq -> option bytes * hdlr) (took : hreq -> V) (bounds : list V).
  (* http/metrics.go:26-28: what is given to the histogram http_request, the two steps of Observe *)
  Definition observed (d : V) (o : bytes * bytes * Z) : list (mlabel V) :=
    [LFind 0 d [fst (fst o); snd (fst o); decz (snd o)]; LUpdate 0].
  (* http/server.go:43-64, http/mux.go:20-38: one request *)
  Definition request (q : hreq) : list (mlabel V) :=
    flat_map (observed (took q)) (snd (serve (fst (route q)) (snd (route q)) q)).
  (* the histogram after these requests; http/metrics.go:9-19 *)
  Definition metrics (qs : list hreq) : mstate V :=
    mrun isprint leb add zero http_labels bounds (flat_map request qs).
  (* one series for each entry of its map; utils/prom/histogram.go:16 *)
  Definition series_count (qs : list hreq) : nat := length (tbl (metrics qs)).
End Metrics.
