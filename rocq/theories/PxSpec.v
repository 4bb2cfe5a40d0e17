(* The text format of Prometheus, version 0.0.4, as a reader. *)
From Coq Require Import Bool Ascii String Arith NArith ZArith List Permutation Sorted.
From Verif Require Import Prelude Utf8Model DecModel PromModel PromSpec PxModel.
Import ListNotations.

Definition is (n : N) (c : ascii) : bool := (code c =? n)%N.
Definition blank (c : ascii) : bool := is 32 c || is 9 c.
Definition letter (c : ascii) : bool :=
  ((65 <=? code c) && (code c <=? 90))%N || ((97 <=? code c) && (code c <=? 122))%N || is 95 c.
Definition numeral (c : ascii) : bool := ((48 <=? code c) && (code c <=? 57))%N.
(* characters of the names of metrics and of labels *)
Definition mchar (c : ascii) : bool := letter c || numeral c || is 58 c.
Definition lchar (c : ascii) : bool := letter c || numeral c.
Definition metric_name (n : bytes) : bool :=
  match n with c :: _ => negb (numeral c) && forallb mchar n | [] => false end.
Definition label_name (n : bytes) : bool :=
  match n with c :: _ => negb (numeral c) && forallb lchar n | [] => false end.

Fixpoint skip (s : bytes) : bytes :=
  match s with c :: t => if blank c then skip t else s | [] => [] end.
Fixpoint span (p : ascii -> bool) (s : bytes) : bytes * bytes :=
  match s with
  | c :: t => if p c then let '(a, b) := span p t in (c :: a, b) else ([], s)
  | [] => ([], [])
  end.
(* the lines; every line ends with a line feed *)
Fixpoint lines (cur s : bytes) : option (list bytes) :=
  match s with
  | [] => match cur with [] => Some [] | _ => None end
  | c :: t => if is 10 c then option_map (cons (rev cur)) (lines [] t) else lines (c :: cur) t
  end.
Fixpoint distinct (l : list bytes) : bool :=
  match l with [] => true | a :: t => negb (existsb (fun b => if list_eq_dec ascii_dec a b then true else false) t) && distinct t end.

Inductive said (V : Type) :=
| SHelp (name text : bytes)
| SType (name ty : bytes)
| SSample (name : bytes) (labels : list (bytes * bytes)) (value : V) (stamp : bytes).
Arguments SHelp {V} name text.
Arguments SType {V} name ty.
Arguments SSample {V} name labels value stamp.

Section Reader.
  (* the numbers of the format: those of Go's ParseFloat *)
  Context {V : Type} (num : bytes -> option V).
  (* what the reader makes of a backslash before a character for which the format has no escape *)
  Context (other : ascii -> option bytes).

  Definition put (p : bytes) (r : option (bytes * bytes)) : option (bytes * bytes) :=
    match r with Some (a, b) => Some (p ++ a, b) | None => None end.
  (* the value of a label, after its opening quote; and what follows its closing quote *)
  Fixpoint lvalue (s : bytes) : option (bytes * bytes) :=
    match s with
    | [] => None
    | c :: t =>
        if is 34 c then Some ([], t)
        else if is 92 c then
          match t with
          | [] => None
          | e :: u =>
              if is 92 e || is 34 e then put [e] (lvalue u)
              else if is 110 e then put [chr 10] (lvalue u)
              else match other e with Some x => put x (lvalue u) | None => None end
          end
        else put [c] (lvalue t)
    end.
  (* the labels, after the opening brace; and what follows the closing brace *)
  Fixpoint labels (fuel : nat) (s : bytes) : option (list (bytes * bytes) * bytes) :=
    match fuel with
    | O => None
    | S f =>
        match skip s with
        | [] => None
        | c :: t =>
            if is 125 c then Some ([], t) else
            let '(n, r) := span lchar (c :: t) in
            if label_name n then
              match skip r with
              | e :: r => if is 61 e then
                  match skip r with
                  | q :: r => if is 34 q then
                      match lvalue r with
                      | Some (v, r) =>
                          if valid_utf8 v then
                            match skip r with
                            | d :: r => if is 125 d then Some ([(n, v)], r)
                                        else if is 44 d then
                                          match labels f r with Some (ls, r) => Some ((n, v) :: ls, r) | None => None end
                                        else None
                            | [] => None
                            end
                          else None
                      | None => None
                      end
                    else None
                  | [] => None
                  end
                else None
              | [] => None
              end
            else None
        end
    end.
  Definition timestamp (s : bytes) : bool :=
    match s with c :: t => if is 45 c then match t with [] => false | _ => forallb numeral t end else forallb numeral s | [] => true end.
  Definition read_sample (s : bytes) : option (list (said V)) :=
    let '(n, r) := span mchar s in
    if metric_name n then
      let r := skip r in
      match match r with c :: t => if is 123 c then labels (length r) t else Some ([], r) | [] => Some ([], r) end with
      | Some (ls, r) =>
          if distinct (map fst ls) then
            let '(v, r) := span (fun c => negb (blank c)) (skip r) in
            match num v with
            | Some x =>
                let '(ts, r) := span (fun c => negb (blank c)) (skip r) in
                if timestamp ts then match skip r with [] => Some [SSample n ls x ts] | _ => None end else None
            | None => None
            end
          else None
      | None => None
      end
    else None.
  Fixpoint htext (s : bytes) : option bytes :=
    match s with
    | [] => Some []
    | c :: t =>
        if is 92 c then
          match t with
          | [] => None
          | e :: u =>
              if is 92 e then option_map (cons e) (htext u)
              else if is 110 e then option_map (cons (chr 10)) (htext u)
              else match other e with Some x => option_map (app x) (htext u) | None => None end
          end
        else option_map (cons c) (htext t)
    end.
  Definition types : list bytes := [B "counter"; B "gauge"; B "histogram"; B "summary"; B "untyped"].
  Definition named (s : bytes) : option (bytes * bytes) :=
    let '(n, r) := span mchar (skip s) in
    if metric_name n then match r with [] => Some (n, []) | c :: _ => if blank c then Some (n, skip r) else None end else None.
  (* a line that starts with '#' *)
  Definition read_comment (s : bytes) : option (list (said V)) :=
    let '(w, r) := span (fun c => negb (blank c)) (skip s) in
    if list_eq_dec ascii_dec w (B "HELP") then
      match named r with
      | Some (n, t) => match htext t with Some x => Some [SHelp n x] | None => None end
      | None => None
      end
    else if list_eq_dec ascii_dec w (B "TYPE") then
      match named r with
      | Some (n, t) => if in_dec (list_eq_dec ascii_dec) t types then Some [SType n t] else None
      | None => None
      end
    else Some [].
  Definition read_line (s : bytes) : option (list (said V)) :=
    match skip s with
    | [] => Some []
    | c :: t => if is 35 c then read_comment t else read_sample (c :: t)
    end.
  Fixpoint read_lines (l : list bytes) : option (list (said V)) :=
    match l with
    | [] => Some []
    | a :: t => match read_line a, read_lines t with Some x, Some y => Some (x ++ y) | _, _ => None end
    end.
  (* what a text says, if it is in the format *)
  Definition reads (s : bytes) : option (list (said V)) :=
    match lines [] s with Some l => read_lines l | None => None end.
End Reader.

(* the readers of Prometheus: github.com/prometheus/common/expfmt takes no other escape; the server keeps the
   two characters *)
Definition strict : ascii -> option bytes := fun _ => None.
Definition keeping : ascii -> option bytes := fun c => Some [chr 92; c].

(* texts that a label or a help line gives back *)
Definition plain (isprint : N -> bool) (v : bytes) : Prop :=
  Forall (fun i => match i with IRune r => isprint r = true \/ r = 10%N \/ r = 34%N \/ r = 92%N | IBad _ => False end) (runes v).
Definition plain_help (d : bytes) : Prop :=
  Forall (fun c => code c <> 10%N /\ code c <> 92%N) d /\ match d with c :: _ => blank c = false | [] => True end.

(* ---- what a metric should say ---- *)
(* the order of the keys of a Custom *)
Inductive before : bytes -> bytes -> Prop :=
| before_end c t : before [] (c :: t)
| before_char a b s t : (code a < code b)%N -> before (a :: s) (b :: t)
| before_more a s t : before s t -> before (a :: s) (a :: t).

Section Said.
  Context (isprint : N -> bool).
  Context {V : Type} (fv ff : V -> bytes) (num : bytes -> option V) (other : ascii -> option bytes).
  Context (leb : V -> V -> bool) (add : V -> V -> V) (zero : V).
  (* a number of observations as a float; a float rounded to six decimals *)
  Context (of_nat : nat -> V) (rounded : V -> V).

  (* a text of a number: visible ASCII characters without quotes, backslashes and braces *)
  Definition number_text (t : bytes) : Prop :=
    Forall (fun c => (33 <= code c <= 126 /\ code c <> 34 /\ code c <> 92 /\ code c <> 123)%N) t.
  (* %v is read exactly, %f up to its six decimals, %d exactly *)
  Definition number_formats : Prop :=
    (forall x, num (fv x) = Some x /\ number_text (fv x)) /\
    (forall x, num (ff x) = Some (rounded x) /\ number_text (ff x)) /\
    (forall n, num (dec (N.of_nat n)) = Some (of_nat n)) /\
    isprint 10%N = false.
  Definition good_names (name : bytes) (keys : list bytes) : Prop :=
    metric_name name = true /\ Forall (fun k => label_name k = true) keys /\ NoDup keys.

  Definition headed_by {E} (name desc ty : bytes) (l : list E) (its : list (said V)) : list (said V) :=
    match l with [] => [] | _ => SHelp name desc :: SType name ty :: its end.
  (* the samples of a series of a histogram, from its observations *)
  Definition hist_samples (name : bytes) (keys : list bytes) (le : list V) (vals : list bytes) (os : list V) : list (said V) :=
    let b := name ++ B "_bucket" in
    map (fun x => SSample b (combine keys vals ++ [(B "le", fv x)]) (of_nat (count_le leb x os)) []) le ++
    [SSample b (combine keys vals ++ [(B "le", B "+Inf")]) (of_nat (length os)) [];
     SSample (name ++ B "_sum") (combine keys vals) (rounded (fold_left add os zero)) [];
     SSample (name ++ B "_count") (combine keys vals) (of_nat (length os)) []].

  (* [says name m its]: the metric m is in a state that should be shown as its *)
  Inductive says (name : bytes) : metric V -> list (said V) -> Prop :=
  | says_gauge desc keys (ss : list (list bytes * V)) es :
      good_names name keys -> plain_help desc ->
      (* each value with the labels under which it was set *)
      Forall2 (fun s e => stringify isprint keys (fst s) = Ok (fst e) /\ snd s = snd e) ss es ->
      Forall (fun s => Forall (plain isprint) (fst s)) ss ->
      says name (MGauge desc es)
        (headed_by name desc (B "gauge") ss (map (fun s => SSample name (combine keys (fst s)) (snd s) []) ss))
  | says_hist desc keys le ls es (vss : list (list bytes)) :
      good_names name keys -> ~ In (B "le") keys -> plain_help desc ->
      (* the series after the observations ls, in any order *)
      Permutation es (tbl (mrun isprint leb add zero keys le ls)) ->
      Forall2 (fun vals e => stringify isprint keys vals = Ok (fst e)) vss es ->
      (* no series is still without an observation (see C51) *)
      Forall (fun vals => values_of vals (finished (length keys) ls) <> [] /\ Forall (plain isprint) vals) vss ->
      says name (MHist desc le es)
        (headed_by name desc (B "histogram") vss
           (flat_map (fun vals => hist_samples name keys le vals (values_of vals (finished (length keys) ls))) vss))
  | says_custom desc ty m srt its :
      metric_name name = true -> plain_help desc -> In ty types ->
      Permutation srt m -> StronglySorted before (map fst srt) ->
      (* the keys are good beginnings of lines *)
      Forall2 (fun e i => exists n ls x, i = SSample n ls x [] /\ reads num other (fst e ++ B " " ++ snd e ++ [chr 10]) = Some [i]) srt its ->
      says name (MCustom desc ty m) (headed_by name desc ty m its)
  (* any other metric that writes whole lines of the format *)
  | says_other ts its : reads num other (concat ts) = Some its -> says name (MOther (map AWrite ts)) its.

  (* the metric has a series with a label value that is not plain *)
  Inductive spoiled (name : bytes) : metric V -> Prop :=
  | spoiled_gauge desc keys (vss : list (list bytes)) es :
      good_names name keys -> Forall (fun c => code c <> 10%N) desc ->
      Forall2 (fun vals e => stringify isprint keys vals = Ok (fst e)) vss es ->
      Exists (fun vals => Exists (fun v => ~ plain isprint v) vals) vss ->
      spoiled name (MGauge desc es)
  | spoiled_hist desc keys le ls es (vss : list (list bytes)) :
      good_names name keys -> Forall (fun c => code c <> 10%N) desc ->
      Permutation es (tbl (mrun isprint leb add zero keys le ls)) ->
      Forall2 (fun vals e => stringify isprint keys vals = Ok (fst e)) vss es ->
      Forall (fun vals => values_of vals (finished (length keys) ls) <> []) vss ->
      Exists (fun vals => Exists (fun v => ~ plain isprint v) vals) vss ->
      spoiled name (MHist desc le es).
End Said.

(* ---- the registry ---- *)
(* the first call with the name *)
Definition first_call {M : Type} (calls : list (bytes * M)) (name : bytes) (m : M) : Prop :=
  exists pre post, calls = pre ++ (name, m) :: post /\ ~ In name (map fst pre).
