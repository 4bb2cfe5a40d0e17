(* Model of BufferedRWC in /repo/test/io.go: readers, writers and closers under every interleaving. *)
From Coq Require Import Bool Arith Ascii List.
From Verif Require Import Prelude ReqModel.
Import ListNotations.

(* A Go slice: which array, offset, length.  ToRead and Written of test/io.go:14,16 keep the slices of the callers; they do
   not copy. *)
Record slice := Sl { sl_id : nat; sl_off : nat; sl_len : nat }.
(* the bytes a slice shows now (test/io.go:66) *)
Definition content (mem : nat -> bytes) (x : slice) : bytes := firstn (sl_len x) (skipn (sl_off x) (mem (sl_id x))).

(* What the calls returned.  The bytes of EAppend and EWrite are those the slice had at the call.
   test/io.go:35, 33, 72, 59 or 74, 61, 97, 94, 107, 104, 49, 84, 42 *)
Inductive event :=
| EAppend (b : bytes) | EAppendPanic | ERead (r : nat) (b : bytes) | EEOF (r : nat)
| EWrite (b : bytes) | EWriteClosed | EClose | ECloseAgain | ESetClosed | EHas (b : bool) | EIsClosed (b : bool).

(* waiting: readers in cond.Wait not yet signalled, with len(dst), longest first.  woken: signalled readers that did not
   take the lock yet.  test/io.go:9-18,76; Closed (line 17) is never used.  Events newest first. *)
Record st := St {
  mem : nat -> bytes; toRead : list slice; written : list slice; readClosed : bool;
  waiting : list (nat * nat); woken : list (nat * nat); log : list event }.

(* test/io.go:20-24 NewBufferedRWC; m are the arrays of the callers *)
Definition init (m : nat -> bytes) : st := St m [] [] false [] [] [].

(* LRead r len cap: reader r calls Read with a dst of that len and cap.  LWake r: a signalled reader goes on.  LPoke i b: a
   caller changes its array.  The others are calls. *)
Inductive label :=
| LAppend (x : slice) | LRead (r len cap : nat) | LWake (r : nat) | LWrite (x : slice) | LClose | LSetClosed
| LHas | LIsClosed | LPoke (i : nat) (b : bytes).

(* the reader is in a call of Read (test/io.go:76) *)
Definition busy (s : st) (r : nat) : bool := existsb (fun p => fst p =? r) (waiting s ++ woken s).

(* One round of the loop of test/io.go:64-78 *)
Definition read_loop (s : st) (r len : nat) : st :=
  match toRead s with
  (* test/io.go:65-72 *)
  | x :: rest =>
      let c := content (mem s) x in
      let ct := Nat.min len (length c) in
      let q := if ct <? length c then Sl (sl_id x) (sl_off x + ct) (sl_len x - ct) :: rest else rest in
      St (mem s) q (written s) (readClosed s) (waiting s) (woken s) (ERead r (firstn ct c) :: log s)
  | [] =>
      if readClosed s
      (* test/io.go:73-74 *)
      then St (mem s) [] (written s) (readClosed s) (waiting s) (woken s) (EEOF r :: log s)
      (* test/io.go:76 *)
      else St (mem s) [] (written s) (readClosed s) (waiting s ++ [(r, len)]) (woken s) (log s)
  end.

(* the first signalled entry of a reader, and the others (test/io.go:76) *)
Fixpoint take (r : nat) (l : list (nat * nat)) : option (nat * list (nat * nat)) :=
  match l with
  | [] => None
  | (q, n) :: t => if q =? r then Some (n, t)
                   else match take r t with Some (m, t') => Some (m, (q, n) :: t') | None => None end
  end.

(* One atomic step: every call has the lock for its whole length, except in Wait.  A step of a reader that is not idle, or
   not signalled, leaves the state unchanged. *)
Definition step (s : st) (l : label) : st :=
  match l with
  (* test/io.go:29-37 Append; Signal wakes the longest waiting *)
  | LAppend x =>
      if readClosed s then St (mem s) (toRead s) (written s) (readClosed s) (waiting s) (woken s) (EAppendPanic :: log s)
      else St (mem s) (toRead s ++ [x]) (written s) (readClosed s)
              (tl (waiting s)) (woken s ++ firstn 1 (waiting s)) (EAppend (content (mem s) x) :: log s)
  (* test/io.go:53-79 Read *)
  | LRead r len cap =>
      if busy s r || (cap <? len) then s
      else if cap =? 0 then
        St (mem s) (toRead s) (written s) (readClosed s) (waiting s) (woken s)
           ((match toRead s with [] => if readClosed s then EEOF r else ERead r [] | _ => ERead r [] end) :: log s)
      else read_loop s r len
  (* test/io.go:76, then again line 65 *)
  | LWake r =>
      match take r (woken s) with
      | Some (len, rest) =>
          read_loop (St (mem s) (toRead s) (written s) (readClosed s) (waiting s) rest (log s)) r len
      | None => s
      end
  (* test/io.go:87-98 Write *)
  | LWrite x =>
      let c := content (mem s) x in
      match c with
      | [] => St (mem s) (toRead s) (written s) (readClosed s) (waiting s) (woken s) (EWrite [] :: log s)
      | _ => if readClosed s
             then St (mem s) (toRead s) (written s) (readClosed s) (waiting s) (woken s) (EWriteClosed :: log s)
             else St (mem s) (toRead s) (written s ++ [x]) (readClosed s) (waiting s) (woken s) (EWrite c :: log s)
      end
  (* test/io.go:100-108 Close *)
  | LClose =>
      if readClosed s then St (mem s) (toRead s) (written s) true (waiting s) (woken s) (ECloseAgain :: log s)
      else St (mem s) (toRead s) (written s) true (waiting s) (woken s) (EClose :: log s)
  (* test/io.go:45-50 SetReadClosed *)
  | LSetClosed => St (mem s) (toRead s) (written s) true [] (woken s ++ waiting s) (ESetClosed :: log s)
  (* test/io.go:81-85 HasRead *)
  | LHas => St (mem s) (toRead s) (written s) (readClosed s) (waiting s) (woken s)
               (EHas (match toRead s with [] => false | _ => true end) :: log s)
  (* test/io.go:39-43 IsReadClosed *)
  | LIsClosed => St (mem s) (toRead s) (written s) (readClosed s) (waiting s) (woken s) (EIsClosed (readClosed s) :: log s)
  (* no code: the owner of a slice given to Append or Write (test/io.go:35,96) uses it again *)
  | LPoke i b =>
      if length b =? length (mem s i)
      then St (fset (mem s) i b) (toRead s) (written s) (readClosed s) (waiting s) (woken s) (log s) else s
  end.

(* a schedule (test/io.go:29-108) *)
Fixpoint exec (s : st) (ls : list label) : st :=
  match ls with [] => s | l :: r => exec (step s l) r end.
