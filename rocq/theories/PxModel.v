(* Model of the text that /repo/utils/prom writes: gauge.go, counter.go, histogram.go and custom.go (Print),
   metric.go (Register, Range) and http.go (Handler). *)
From Coq Require Import Bool Ascii String Arith NArith ZArith List Permutation.
From Verif Require Import Prelude Utf8Model QuoteModel DecModel DurModel PromModel.
Import ListNotations.

(* "\n" at the end of the formats, utils/prom/gauge.go:70 *)
Definition nl : bytes := [chr 10].
(* a double quote in a format, utils/prom/histogram.go:80 *)
Definition dq : bytes := [dquote].

(* what the code of a Print does, in order: calls of fmt.Fprintf on the writer, an error of its own, a panic;
   utils/prom/gauge.go:65-87, and any other implementation of Metric, utils/prom/metric.go:47-49 *)
Inductive act := AWrite (s : bytes) | AErr | APanic.

Section Text.
  (* float64; fmt's %v and %f of it *)
  Context {V : Type} (fv ff : V -> bytes).

  (* utils/prom/gauge.go:70, utils/prom/counter.go:39, utils/prom/custom.go:20, utils/prom/histogram.go:61 *)
  Definition help (name desc : bytes) : act := AWrite (B "# HELP " ++ name ++ B " " ++ desc ++ nl).
  (* utils/prom/gauge.go:74, utils/prom/counter.go:44,49, utils/prom/custom.go:24, utils/prom/histogram.go:65 *)
  Definition type_ (name ty : bytes) : act := AWrite (B "# TYPE " ++ name ++ B " " ++ ty ++ nl).
  (* utils/prom/gauge.go:79-85, utils/prom/counter.go:55-61: a name with or without labels *)
  Definition sample (name l value : bytes) : act :=
    AWrite (match l with
            | [] => name ++ B " " ++ value ++ nl
            | _ => name ++ B "{" ++ l ++ B "} " ++ value ++ nl
            end).

  (* utils/prom/gauge.go:66-87: the entries in the order in which the map is visited; the two lines before the first.
     utils/sync/map.go RangeErr stops at the first error and returns it. *)
  Definition headed (name desc ty : bytes) {E} (f : E -> list act) (es : list E) : list act :=
    match es with
    | [] => []
    | _ => help name desc :: type_ name ty :: flat_map f es
    end.
  (* utils/prom/gauge.go:65-87 Gauge.Print; the entries are given with their values at this moment *)
  Definition gauge_print (name desc : bytes) (es : list (bytes * V)) : list act :=
    headed name desc (B "gauge") (fun e => [sample name (fst e) (fv (snd e))]) es.
  (* utils/prom/counter.go:34-63 Counter.Print *)
  Definition counter_print (name desc : bytes) (gauge : bool) (es : list (bytes * V)) : list act :=
    headed name desc (if gauge then B "gauge" else B "counter") (fun e => [sample name (fst e) (ff (snd e))]) es.

  (* utils/prom/histogram.go:80,102 one bucket *)
  Definition bucket (name l bound : bytes) (n : nat) : act :=
    AWrite (match l with
            | [] => name ++ B "_bucket{le=" ++ dq ++ bound ++ dq ++ B "} " ++ dec (N.of_nat n) ++ nl
            | _ => name ++ B "_bucket{" ++ l ++ B ",le=" ++ dq ++ bound ++ dq ++ B "} " ++ dec (N.of_nat n) ++ nl
            end).
  (* utils/prom/histogram.go:78-84,100-106 the loop over the bounds; an index out of range panics *)
  Fixpoint bucket_loop (name l : bytes) (le : list V) (b : list nat) : list act :=
    match le with
    | [] => []
    | x :: le' =>
        match b with
        | [] => [APanic]
        | c :: b' => bucket name l (fv x) c :: bucket_loop name l le' b'
        end
    end.
  (* utils/prom/histogram.go:74-123 histogramTS.print *)
  Definition series_print (name : bytes) (le : list V) (e : bytes * series V) : list act :=
    let '(l, s) := e in
    bucket_loop name l le (buckets s) ++
    [bucket name l (B "+Inf") (scount s); sample (name ++ B "_sum") l (ff (ssum s));
     sample (name ++ B "_count") l (dec (N.of_nat (scount s)))].
  (* utils/prom/histogram.go:56-72 Histogram.Print *)
  Definition hist_print (name desc : bytes) (le : list V) (es : list (bytes * series V)) : list act :=
    headed name desc (B "histogram") (series_print name le) es.

  (* sort.Strings, called at utils/prom/custom.go:32: bytewise order *)
  Fixpoint bleb (a b : bytes) : bool :=
    match a, b with
    | [], _ => true
    | _ :: _, [] => false
    | x :: a', y :: b' => if (code x <? code y)%N then true else if (code x =? code y)%N then bleb a' b' else false
    end.
  (* sort.Strings by insertion: the order is total, so every sort gives this list; utils/prom/custom.go:32 *)
  Fixpoint sinsert (x : bytes * bytes) (l : list (bytes * bytes)) : list (bytes * bytes) :=
    match l with
    | [] => [x]
    | y :: t => if bleb (fst x) (fst y) then x :: l else y :: sinsert x t
    end.
  (* utils/prom/custom.go:28-32 *)
  Definition ssort (l : list (bytes * bytes)) : list (bytes * bytes) := fold_right sinsert [] l.
  (* utils/prom/custom.go:15-40 Custom.Print; m is what Func returned, with the values as %v writes them *)
  Definition custom_print (name desc ty : bytes) (m : list (bytes * bytes)) : list act :=
    match m with
    | [] => []
    | _ => help name desc :: type_ name ty :: map (fun e => AWrite (fst e ++ B " " ++ snd e ++ nl)) (ssort m)
    end.

  (* utils/prom/metric.go:47-49 Metric: the types of the package, with the entries in the order in which they are
     visited, and any other *)
  Inductive metric :=
  | MGauge (desc : bytes) (es : list (bytes * V))
  | MHist (desc : bytes) (le : list V) (es : list (bytes * series V))
  | MCustom (desc ty : bytes) (m : list (bytes * bytes))
  | MOther (as_ : list act).
  (* utils/prom/metric.go:48 m.Print(name, w) *)
  Definition print (name : bytes) (m : metric) : list act :=
    match m with
    | MGauge desc es => gauge_print name desc es
    | MHist desc le es => hist_print name desc le es
    | MCustom desc ty m => custom_print name desc ty m
    | MOther a => a
    end.

  (* ---- the registry, utils/prom/metric.go:13-18 ---- *)
  (* utils/prom/metric.go:20-29 Register, under the lock: a name that is taken panics *)
  Definition Register (reg : list (bytes * metric)) (name : bytes) (m : metric) : list (bytes * metric) * res unit :=
    match mget beqb reg name with
    | Some _ => (reg, Panic)
    | None => (mset beqb reg name m, Ok tt)
    end.
  (* a history of calls of Register, each atomic under the lock; utils/prom/metric.go:20-29 *)
  Definition registered (calls : list (bytes * metric)) : list (bytes * metric) :=
    fold_left (fun reg c => fst (Register reg (fst c) (snd c))) calls [].

  (* ---- the writer ---- *)
  (* how the code ended: no error, an error, a panic; utils/prom/http.go:10-13 *)
  Inductive ended := EOk | EErr | EPanic.
  (* utils/prom/http.go:10-13: perform the calls until one fails; [fails n] is the number of bytes that the call number n
     gets through before it fails, None if it does not fail.  The calls made and the bytes written. *)
  Fixpoint perform (fails : nat -> option nat) (n : nat) (l : list act) : nat * bytes * ended :=
    match l with
    | [] => (n, [], EOk)
    | AErr :: _ => (n, [], EErr)
    | APanic :: _ => (n, [], EPanic)
    | AWrite s :: t =>
        match fails n with
        | Some k => (S n, firstn k s, EErr)
        | None => let '(n', o, e) := perform fails (S n) t in (n', s ++ o, e)
        end
    end.
  (* the answer: the status and what arrives of the body.  utils/prom/http.go:8-19 Handler: the metrics in the order in
     which the copy of the registry is visited (utils/prom/metric.go:31-45 Range); WriteHeader(500) counts only when nothing
     was written before it.  None: the handler panics and the connection is cut. *)
  Definition Handler (fails : nat -> option nat) (visited : list (bytes * metric)) : option (N * bytes) :=
    match perform fails 0 (flat_map (fun e => print (fst e) (snd e)) visited) with
    | (_, o, EOk) => Some (200%N, o)
    | (n, o, EErr) => Some (match n with O => 500%N | _ => 200%N end, o)
    | (_, _, EPanic) => None
    end.
End Text.
Arguments metric : clear implicits.

(* /repo/http/metrics.go:15 the labels of http_request *)
Definition http_labels : list bytes := [B "method"; B "path"; B "code"].
(* /repo/http/server.go:59-63 and http/metrics.go:26-28: what is observed after a request that took d: its method, its
   path as net/url decoded it, and the status; the two steps of Observe *)
Definition http_observe {V} (t : nat) (d : V) (method path : bytes) (code : N) : list (mlabel V) :=
  [LFind t d [method; path; dec code]; LUpdate t].
