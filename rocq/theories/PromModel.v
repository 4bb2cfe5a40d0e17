(* Model of /repo/utils/prom: labels.go, counter.go, gauge.go, histogram.go. *)
From Coq Require Import Bool Ascii String Arith NArith ZArith Lia List.
From Verif Require Import Prelude Utf8Model QuoteModel DurModel.
Import ListNotations.

Section Labels.
  Context (isprint : N -> bool).

  (* utils/prom/labels.go:12-15 the loop *)
  Fixpoint lab_loop (keys vals : list bytes) : bytes :=
    match keys, vals with
    | k :: ks, v :: vs => B "," ++ k ++ B "=" ++ quote isprint v ++ lab_loop ks vs
    | _, _ => []
    end.
  (* utils/prom/labels.go:8-20 stringify *)
  Definition stringify (keys vals : list bytes) : res bytes :=
    if negb (length keys =? length vals)%nat then Panic
    else match lab_loop keys vals with
         | [] => Ok []
         | _ :: t => Ok t
         end.
End Labels.

(* ---- histogram.go and counter.go: Observe takes two atomic steps, finding the series and updating
   it under its lock; a printer visits series one at a time. ---- *)
Section Observers.
  Context (isprint : N -> bool).
  (* float64 with its <= and +; any type *)
  Context {V : Type} (leb : V -> V -> bool) (add : V -> V -> V) (zero : V).

  (* utils/prom/histogram.go:21-26 histogramTS; utils/prom/counter.go:18-21 counter is the case without buckets *)
  Record series := Series { buckets : list nat; ssum : V; scount : nat }.
  (* utils/prom/histogram.go:30,35 &histogramTS{}, utils/prom/counter.go:24 &counter{} *)
  Definition new_series : series := Series [] zero 0.

  (* utils/prom/histogram.go:46-48 grow the buckets *)
  Definition grow (n : nat) (b : list nat) : list nat := b ++ repeat 0 (n - length b).
  (* utils/prom/histogram.go:49-53 the loop over the bounds *)
  Fixpoint bump (le : list V) (val : V) (b : list nat) : list nat :=
    match le, b with
    | x :: le', c :: b' => (if leb val x then S c else c) :: bump le' val b'
    | _, b => b
    end.
  (* utils/prom/histogram.go:38-54 histogramTS.observe; utils/prom/counter.go:27-32 with no bounds *)
  Definition observe (le : list V) (val : V) (s : series) : series :=
    Series (bump le val (grow (length le) (buckets s))) (add (ssum s) val) (S (scount s)).

  (* utils/prom/histogram.go:74-123 print: the numbers written for each bound, for +Inf, the sum and the count;
     index out of range panics.  The text layout and write errors are not modelled. *)
  Definition print_series (le : list V) (s : series) : res (list (V * nat) * nat * V * nat) :=
    if (length le <=? length (buckets s))%nat
    then Ok (combine le (buckets s), scount s, ssum s, scount s) else Panic.

  (* the metric: its series by label text (utils/prom/histogram.go:16, utils/prom/counter.go:14), and for each caller
     inside Observe the series found and the value to add *)
  Record mstate := MState { tbl : list (bytes * series); pend : nat -> option (bytes * V);
                            panics : list nat }.
  (* a metric before any call, utils/prom/histogram.go:11-17, utils/prom/counter.go:10-15 *)
  Definition m_init : mstate := MState [] (fun _ => None) [].

  (* atomic steps: caller t enters Observe(val, vals) (utils/prom/histogram.go:34, utils/prom/counter.go:24: stringify and
     GetOrStore), caller t updates the series (utils/prom/histogram.go:38, utils/prom/counter.go:27), a printer visits
     series k (utils/prom/histogram.go:58, utils/prom/counter.go:36) *)
  Inductive mlabel := LFind (t : nat) (val : V) (vals : list bytes) | LUpdate (t : nat) | LPrint (k : bytes).

  (* bookkeeping: where caller t stands inside Observe, utils/prom/histogram.go:33-36 *)
  Definition set_pend (p : nat -> option (bytes * V)) (t : nat) (x : option (bytes * V)) :=
    fun u => if Nat.eqb u t then x else p u.

  (* utils/prom/histogram.go:33-54 and utils/prom/counter.go:23-32; a step that is not enabled changes nothing *)
  Definition mstep (keys : list bytes) (le : list V) (s : mstate) (l : mlabel) : mstate :=
    match l with
    | LFind t val vals =>
        match pend s t with
        | Some _ => s
        | None =>
            match stringify isprint keys vals with
            | Panic => MState (tbl s) (pend s) (t :: panics s)
            | Ok k =>
                match mget beqb (tbl s) k with
                | Some _ => MState (tbl s) (set_pend (pend s) t (Some (k, val))) (panics s)
                | None => MState (mset beqb (tbl s) k new_series) (set_pend (pend s) t (Some (k, val))) (panics s)
                end
            end
        end
    | LUpdate t =>
        match pend s t with
        | None => s
        | Some (k, val) =>
            match mget beqb (tbl s) k with
            | None => s
            | Some h => MState (mset beqb (tbl s) k (observe le val h)) (set_pend (pend s) t None) (panics s)
            end
        end
    | LPrint _ => s
    end.
  (* a schedule of steps, utils/prom/histogram.go:33-72, utils/prom/counter.go:23-41 *)
  Definition mrun (keys : list bytes) (le : list V) (ls : list mlabel) : mstate :=
    fold_left (mstep keys le) ls m_init.

  (* utils/prom/histogram.go:56-72 what a printer gets when it visits series k now *)
  Definition mprint (le : list V) (s : mstate) (k : bytes) : option (res (list (V * nat) * nat * V * nat)) :=
    match mget beqb (tbl s) k with
    | None => None
    | Some h => Some (print_series le h)
    end.
End Observers.
Arguments mlabel : clear implicits.
Arguments mstate : clear implicits.
Arguments series : clear implicits.

(* ---- gauge.go ---- *)
(* int64 arithmetic wraps around; utils/prom/gauge.go:47,52 *)
Definition wrap64 (z : Z) : Z := ((z + 9223372036854775808) mod 18446744073709551616 - 9223372036854775808)%Z.

(* utils/prom/gauge.go:11-13 an entry: a counter cell or a function, known by a number *)
Inductive gentry := GCell (id : nat) | GFunc (f : nat).
(* utils/prom/gauge.go:23-27 Gauge with the heap of its counters (utils/prom/gauge.go:36-38) *)
Record gauge := Gauge { gtbl : list (bytes * gentry); cells : list Z }.
(* utils/prom/gauge.go:23-27, the zero value *)
Definition NewGauge : gauge := Gauge [] [].

(* atomic calls: utils/prom/gauge.go:30-34 Counter, 46-49 Inc, 51-54 Dec, 56-63 SetFunc (None is nil) *)
Inductive gop := GCounter (k : bytes) | GInc (id : nat) (amt : Z) | GDec (id : nat) (amt : Z)
               | GSetFunc (k : bytes) (f : option nat).
(* what a call returns: a counter, nothing, or a panic; utils/prom/gauge.go:30-63 *)
Inductive gres := GHandle (id : nat) | GVoid | GPanic.

(* utils/prom/gauge.go:46-54 atomic.AddInt64 on a cell; amt is an int, and -amt wraps too *)
Definition gstep (g : gauge) (o : gop) : gauge * gres :=
  match o with
  | GCounter k =>
      match mget beqb (gtbl g) k with
      | Some (GCell id) => (g, GHandle id)
      | Some (GFunc _) => (g, GPanic)
      | None =>
          let id := length (cells g) in
          (Gauge (mset beqb (gtbl g) k (GCell id)) (cells g ++ [0%Z]), GHandle id)
      end
  | GInc id amt =>
      match nth_error (cells g) id with
      | Some z => (Gauge (gtbl g) (upd (cells g) id (wrap64 (z + amt))), GHandle id)
      | None => (g, GPanic)
      end
  | GDec id amt =>
      match nth_error (cells g) id with
      | Some z => (Gauge (gtbl g) (upd (cells g) id (wrap64 (z + wrap64 (- amt)))), GHandle id)
      | None => (g, GPanic)
      end
  | GSetFunc k None => (Gauge (mdel beqb (gtbl g) k) (cells g), GVoid)
  | GSetFunc k (Some f) => (Gauge (mset beqb (gtbl g) k (GFunc f)) (cells g), GVoid)
  end.
(* a history of atomic calls: every method is one atomic action on the table or on a cell; utils/prom/gauge.go:30-63 *)
Definition gstate (ops : list gop) : gauge := fold_left (fun g o => fst (gstep g o)) ops NewGauge.

(* utils/prom/gauge.go:65-87 Print: what is shown for series k: a counter's value or the function to call *)
Inductive gshown := ShownCount (z : Z) | ShownFunc (f : nat) | ShownNothing.
(* utils/prom/gauge.go:65-87 *)
Definition gshow (g : gauge) (k : bytes) : gshown :=
  match mget beqb (gtbl g) k with
  | Some (GCell id) => match nth_error (cells g) id with Some z => ShownCount z | None => ShownNothing end
  | Some (GFunc f) => ShownFunc f
  | None => ShownNothing
  end.
