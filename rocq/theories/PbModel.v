(* Model of requests that are counted while the metrics are read: /repo/utils/prom/histogram.go, http.go, /repo/http/mux.go, metrics.go and
   server.go. *)
From Coq Require Import Bool Arith List.
From Verif Require Import Prelude.
Import ListNotations.

Section Wait.
  (* the series of the histogram http_request: the texts of their labels; http/metrics.go:12-19 *)
  Context {K : Type}.
  (* A request: not there; its handler still has to do something, and then it is to be observed in these series, one after the other, by
     Server.Handle and by NewServer (http/mux.go:33-37, http/server.go:59-63); the handler is done; answered: the function that net/http
     called has returned, and what it wrote is sent. *)
  Inductive request := Absent | Serving (ks : list K) | Served (ks : list K) | Answered.
  (* A client that reads the metrics (utils/prom/http.go:8-19): not there; series still to be written; with the lock of a series, of which so
     many lines are to be written (utils/prom/histogram.go:74-123). *)
  Inductive scrape := NoScrape | Between (todo : list K) | Within (k : K) (lines : nat) (todo : list K).
  (* requests, and readers of the metrics *)
  Record st := St { reqs : nat -> request; scrs : nat -> scrape }.
  (* the lock of the series is free: an Observe takes it and releases it in one step, without waiting for anything; utils/prom/histogram.go:40-43,75-76 *)
  Definition free (s : st) (k : K) : Prop := forall j n t, scrs s j <> Within k n t.
  (* http/server.go:43-64, utils/prom/http.go:8-19 *)
  Definition setr (s : st) (i : nat) (r : request) : st := St (fun x => if Nat.eqb x i then r else reqs s x) (scrs s).
  (* see above *)
  Definition sets (s : st) (j : nat) (r : scrape) : st := St (reqs s) (fun x => if Nat.eqb x j then r else scrs s x).
  (* who takes the step *)
  Inductive who := Request (i : nat) | Scrape (j : nat).
  (* One step.  A line is written when the client reads, or has read enough for the buffers of the connection; nobody forces it to, as the
     server has no WriteTimeout (http/server.go:108).  A write fails when the connection is gone: Print returns the error, with the lock released
     (utils/prom/histogram.go:75-123), and Range returns it (metric.go:35-40). *)
  Inductive step : who -> st -> st -> Prop :=
  | arrive i ks s : reqs s i = Absent -> step (Request i) s (setr s i (Serving ks))
  | serve i ks s : reqs s i = Serving ks -> step (Request i) s (setr s i (Served ks))
  | observe i k ks s : reqs s i = Served (k :: ks) -> free s k -> step (Request i) s (setr s i (Served ks))
  | answer i s : reqs s i = Served [] -> step (Request i) s (setr s i Answered)
  | begin j ks s : scrs s j = NoScrape -> step (Scrape j) s (sets s j (Between ks))
  | lock j k ks lines s : scrs s j = Between (k :: ks) -> free s k -> step (Scrape j) s (sets s j (Within k lines ks))
  | write j k n ks s : scrs s j = Within k (S n) ks -> step (Scrape j) s (sets s j (Within k n ks))
  | gone j k n ks s : scrs s j = Within k (S n) ks -> step (Scrape j) s (sets s j NoScrape)
  | unlock j k ks s : scrs s j = Within k 0 ks -> step (Scrape j) s (sets s j (Between ks))
  | finish j s : scrs s j = Between [] -> step (Scrape j) s (sets s j NoScrape).
  (* any number of steps, all taken by those of P; http/server.go:43-64, utils/prom/http.go:8-19 *)
  Inductive steps (P : who -> Prop) : st -> st -> Prop :=
  | none s : steps P s s
  | more w s s1 s2 : P w -> step w s s1 -> steps P s1 s2 -> steps P s s2.
  (* http/server.go:38-64 *)
  Definition start : st := St (fun _ => Absent) (fun _ => NoScrape).
End Wait.
