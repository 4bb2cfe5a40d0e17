(* Model of ReadAll in /repo/utils/io.go. *)
From Coq Require Import Bool Ascii String Arith List.
From Verif Require Import Prelude.
Import ListNotations.

(* What one call of Read gives: the bytes put in the buffer and the error.  utils/io.go:23 *)
Inductive rerr := REOF | ROther.
Record rd := Rd { rd_data : bytes; rd_err : option rerr }.

(* What ReadAll returns: the bytes, and which error (nil, "timeout", "ReadAll"); utils/io.go:34,37,39 *)
Inductive rkind := RNil | RTimeout | RFail.

(* Where the goroutine of utils/io.go:20-31 stands: at the head of the loop, in r.Read, over *)
Inductive gpc := GLoop | GRead | GOver.

(* The reader is the list of what its next calls of Read give.  delivered is what it has given so far, oldest
   first.  got is the channel of line 15. *)
Record st := St {
  script : list rd; delivered : list rd; out : bytes; got : option rerr; cancelled : bool;
  gpos : gpc; ret : option (bytes * rkind) }.

(* utils/io.go:14-18 *)
Definition init (r : list rd) : st := St r [] [] None false GLoop None.

(* LGo: the goroutine makes a step.  LCancel: the context is cancelled.  LDone, LErr: ReadAll returns because the context
   is cancelled, because the goroutine sent an error (utils/io.go:33,35). *)
Inductive label := LGo | LCancel | LDone | LErr.

(* One step; an impossible one leaves the state unchanged.  The bytes written by the goroutine are appended at once: the
   data race between out.Bytes() on a timeout and out.Write (lines 28, 34) is not modelled.  A Read that blocks is a GRead
   that makes no step. *)
Definition step (s : st) (l : label) : st :=
  match l with
  | LGo =>
      match gpos s with
      (* utils/io.go:22 *)
      | GLoop => St (script s) (delivered s) (out s) (got s) (cancelled s) (if cancelled s then GOver else GRead) (ret s)
      (* utils/io.go:23-28 *)
      | GRead =>
          match script s with
          | [] => s
          | r :: rest =>
              match rd_err r with
              | Some e => St rest (delivered s ++ [r]) (out s) (Some e) (cancelled s) GOver (ret s)
              | None => St rest (delivered s ++ [r]) (out s ++ rd_data r) (got s) (cancelled s) GLoop (ret s)
              end
          end
      | GOver => s
      end
  | LCancel => St (script s) (delivered s) (out s) (got s) true (gpos s) (ret s)
  (* utils/io.go:33-34 *)
  | LDone => if cancelled s then
      match ret s with
      | None => St (script s) (delivered s) (out s) (got s) (cancelled s) (gpos s) (Some (out s, RTimeout))
      | Some _ => s
      end else s
  (* utils/io.go:35-39 *)
  | LErr =>
      match got s, ret s with
      | Some e, None => St (script s) (delivered s) (out s) None (cancelled s) (gpos s)
                           (Some (out s, match e with REOF => RNil | ROther => RFail end))
      | _, _ => s
      end
  end.

(* a schedule (utils/io.go:20-40) *)
Fixpoint exec (s : st) (ls : list label) : st :=
  match ls with [] => s | l :: r => exec (step s l) r end.
