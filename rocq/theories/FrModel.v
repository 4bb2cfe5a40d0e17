(* Model of the bytes of a websocket in /repo/http/ws/ws.go: wsImpl.Write and Close by several goroutines, and what wsImpl.Read gets.
   The frames of golang.org/x/net/websocket v0.19.0 (hybi.go), which the repository uses and does not have, and bufio are modelled as
   they are documented there. *)
From Coq Require Import Bool Ascii String Arith NArith List.
From Verif Require Import Prelude Utf8Model ReqModel WsModel.
Import ListNotations.

(* ---- the frames that are written ---- *)
(* byte((length >> (8*i)) & 0xff) for i = n-1 .. 0: the loop for the length in hybiFrameWriter.Write, called from http/ws/ws.go:53 *)
Fixpoint lengthBytes (n : nat) (len : N) : bytes :=
  match n with 0 => [] | S n' => chr ((len / 256 ^ N.of_nat n') mod 256) :: lengthBytes n' len end.
(* The header in hybiFrameWriter.Write; http/ws/ws.go:49,53,124.  Fin is set, Rsv is not, and a server uses no mask. *)
Definition header (op len : N) : bytes :=
  chr (128 + op) ::
  (if (len <=? 125)%N then [chr len] else if (len <? 65536)%N then chr 126 :: lengthBytes 2 len else chr 127 :: lengthBytes 8 len).
(* websocket.TextFrame, CloseFrame; http/ws/ws.go:49,91 *)
Definition opText : N := 1.
Definition opClose : N := 8.
(* the payload of WriteClose (binary.BigEndian.PutUint16 of uint16(status)); http/ws/ws.go:124 *)
Definition closeMsg (status : N) : bytes := lengthBytes 2 (status mod 65536).

(* ---- the connection ---- *)
(* What was sent, and how many more bytes can be sent before writing fails (None: no limit).  http/ws/ws.go:34 *)
Record net := Net { wire : bytes; room : option nat }.
(* the Write of net.Conn: all, or what there is room for and an error; http/ws/ws.go:53,124 *)
Definition net_write (c : net) (p : bytes) : net * bool :=
  match room c with
  | None => (Net (wire c ++ p) None, true)
  | Some k => if length p <=? k then (Net (wire c ++ p) (Some (k - length p)), true) else (Net (wire c ++ firstn k p) (Some 0), false)
  end.
(* bufio.Writer: what is not sent yet, and whether an error occurred, after which nothing is sent; http/ws/ws.go:53,124 *)
Record bw := Bw { pend : bytes; failed : bool; net_of : net }.
Section Size.
  (* the size of the buffer (4096) *)
  Context (size : nat).
  (* bufio.Writer.Flush; http/ws/ws.go:53,124 *)
  Definition bw_flush (b : bw) : bw :=
    if failed b then b
    else match pend b with
         | [] => b
         | p => let '(c, ok) := net_write (net_of b) p in if ok then Bw [] false c else Bw p true c
         end.
  (* bufio.Writer.Write; http/ws/ws.go:53,124 *)
  Definition bw_write (b : bw) (p : bytes) : bw :=
    if failed b then b
    else if length p <=? size - length (pend b) then Bw (pend b ++ p) false (net_of b)
    else match pend b with
         | [] => let '(c, ok) := net_write (net_of b) p in Bw [] (negb ok) c
         | q =>
             let k := size - length q in
             let b1 := bw_flush (Bw (q ++ firstn k p) false (net_of b)) in
             if failed b1 then b1
             else if length (skipn k p) <=? size then Bw (skipn k p) false (net_of b1)
             else let '(c, ok) := net_write (net_of b1) (skipn k p) in Bw [] (negb ok) c
         end.

  (* ---- the goroutines ---- *)
  (* Where a goroutine is.  Of Write (http/ws/ws.go:39-61): before m.Lock, after it, after the header, after the message was written to
     the buffer.  Of Close (http/ws/ws.go:123-129): before wio.Lock in WriteClose, after it, after the header, after the payload, before
     conn.Close. *)
  Inductive pc := Idle | WWait (m : bytes) | WLocked (m : bytes) | WHeaded (m : bytes) | WBodied (m : bytes)
  | CWait (status : N) | CLocked (status : N) | CHeaded (status : N) | CBodied (status : N) | CShut.
  (* What happened: Write was called, got the lock, returned nil or an error; the same for Close, and that the frame was sent.  http/ws/ws.go:39-61,123-129 *)
  Inductive fevent := ECall (g : nat) (m : bytes) | EHold (g : nat) (m : bytes) | ERet (g : nat) (m : bytes) (ok : bool)
  | ECloseCall (g : nat) | ECloseHold (g : nat) (status : N) | ECloseSent (g : nat) (status : N) | ECloseRet (g : nat) (ok : bool).
  (* the holders of wsImpl.m and of wio in the connection, the goroutines, the buffer, the events, newest first; http/ws/ws.go:32-35 *)
  Record fst_ := FSt { hold_m : option nat; hold_wio : option nat; pcs : nat -> pc; out : bw; flog : list fevent }.
  (* http/ws/ws.go:32-35 *)
  Definition finit : fst_ := FSt None None (fun _ => Idle) (Bw [] false (Net [] None)) [].
  (* FWrite g m, FClose g status: a goroutine that is in no other call calls Write or Close.  FStep g: it goes on.  FBreak k: after k
     more bytes the connection is broken. *)
  Inductive flabel := FWrite (g : nat) (m : bytes) | FClose (g : nat) (status : N) | FStep (g : nat) | FBreak (k : nat).
  (* One atomic step.  An impossible one leaves the state unchanged.  The calls of bufio are taken to be atomic; they are not safe for
     use by several goroutines. *)
  Definition fstep (s : fst_) (l : flabel) : fst_ :=
    match l with
    (* http/ws/ws.go:39-40 *)
    | FWrite g m => match pcs s g with Idle => FSt (hold_m s) (hold_wio s) (fset (pcs s) g (WWait m)) (out s) (ECall g m :: flog s) | _ => s end
    (* http/ws/ws.go:123-124 *)
    | FClose g status => match pcs s g with Idle => FSt (hold_m s) (hold_wio s) (fset (pcs s) g (CWait status)) (out s) (ECloseCall g :: flog s) | _ => s end
    | FBreak k =>
        match room (net_of (out s)) with
        | None => FSt (hold_m s) (hold_wio s) (pcs s) (Bw (pend (out s)) (failed (out s)) (Net (wire (net_of (out s))) (Some k))) (flog s)
        | Some _ => s
        end
    | FStep g =>
        match pcs s g with
        | Idle => s
        (* http/ws/ws.go:41 *)
        | WWait m =>
            match hold_m s with
            | None => FSt (Some g) (hold_wio s) (fset (pcs s) g (WLocked m)) (out s) (EHold g m :: flog s)
            | Some _ => s
            end
        (* http/ws/ws.go:49,53: frame.writer.Write(header), frame.writer.Write(msg), frame.writer.Flush() *)
        | WLocked m => FSt (hold_m s) (hold_wio s) (fset (pcs s) g (WHeaded m)) (bw_write (out s) (header opText (N.of_nat (length m)))) (flog s)
        | WHeaded m => FSt (hold_m s) (hold_wio s) (fset (pcs s) g (WBodied m)) (bw_write (out s) m) (flog s)
        (* http/ws/ws.go:42,53-60: with the deferred Unlock *)
        | WBodied m => let b := bw_flush (out s) in FSt None (hold_wio s) (fset (pcs s) g Idle) b (ERet g m (negb (failed b)) :: flog s)
        (* http/ws/ws.go:124: WriteClose *)
        | CWait st =>
            match hold_wio s with
            | None => FSt (hold_m s) (Some g) (fset (pcs s) g (CLocked st)) (out s) (ECloseHold g st :: flog s)
            | Some _ => s
            end
        | CLocked st => FSt (hold_m s) (hold_wio s) (fset (pcs s) g (CHeaded st)) (bw_write (out s) (header opClose 2)) (flog s)
        | CHeaded st => FSt (hold_m s) (hold_wio s) (fset (pcs s) g (CBodied st)) (bw_write (out s) (closeMsg st)) (flog s)
        | CBodied st =>
            let b := bw_flush (out s) in
            if failed b then FSt (hold_m s) None (fset (pcs s) g Idle) b (ECloseRet g false :: flog s)
            else FSt (hold_m s) None (fset (pcs s) g CShut) b (ECloseSent g st :: flog s)
        (* http/ws/ws.go:128 *)
        | CShut => FSt (hold_m s) (hold_wio s) (fset (pcs s) g Idle) (Bw (pend (out s)) (failed (out s)) (Net (wire (net_of (out s))) (Some 0))) (ECloseRet g true :: flog s)
        end
    end.
  (* a schedule *)
  Definition fexec (s : fst_) (ls : list flabel) : fst_ := fold_left fstep ls s.
End Size.

(* ---- the frames that are read ---- *)
(* frame.Read: the bytes of the payload with the mask; http/ws/ws.go:115 *)
Fixpoint unmask (key : bytes) (i : nat) (p : bytes) : bytes :=
  match p with
  | [] => []
  | c :: r => (match key with [] => c | _ => chr (N.lxor (code c) (code (nth (i mod 4) key zero))) end) :: unmask key (S i) r
  end.
(* the loop for the length in NewFrameReader: the first of eight bytes loses its first bit; http/ws/ws.go:73 *)
Fixpoint readLength (n : nat) (first8 : bool) (acc : N) (s : bytes) : option (N * bytes) :=
  match n with
  | 0 => Some (acc, s)
  | S n' => match s with [] => None | b :: r => readLength n' false (acc * 256 + (if first8 then code b mod 128 else code b)) r end
  end.
(* What NewFrameReader and then reading all give, from the bytes that will come before the end of the connection: the kind of frame, the
   payload, and what follows; None: the connection ends before the payload.  http/ws/ws.go:73-83,115.  Fin and Rsv are not looked at.  If the connection ends within
   the payload, io.ReadAll (of an io.LimitReader) returns what came, without an error. *)
Definition readFrame (s : bytes) : option (N * bytes * bytes) :=
  match s with
  | b0 :: b1 :: r =>
      let l7 := (code b1 mod 128)%N in
      match (if (l7 <=? 125)%N then Some (l7, r) else readLength (if (l7 =? 126)%N then 2 else 8) (l7 =? 127)%N 0 r) with
      | None => None
      | Some (len, r1) =>
          let masked := (128 <=? code b1)%N in
          if masked && (length r1 <? 4) then None
          else
            let key := if masked then firstn 4 r1 else [] in
            let r2 := if masked then skipn 4 r1 else r1 in
            Some ((code b0 mod 16)%N, unmask key 0 (firstn (N.to_nat len) r2), skipn (N.to_nat len) r2)
      end
  | _ => None
  end.
(* http/ws/ws.go:87-113 *)
Definition kindOf (op : N) (p : bytes) : wframe :=
  if (op =? 0)%N then WContinuation else if (op =? 1)%N || (op =? 2)%N then WText p else if (op =? 8)%N then WClose else if (op =? 9)%N then WPing else if (op =? 10)%N then WPong else WOther op.
(* All frames, given the bytes until the peer ends the connection; n: how many frames at most.  http/ws/ws.go:72-121 *)
Fixpoint incoming (n : nat) (s : bytes) : list wframe :=
  match n with
  | 0 => []
  | S n' => match readFrame s with None => [WBroken] | Some (op, p, r) => kindOf op p :: incoming n' r end
  end.
