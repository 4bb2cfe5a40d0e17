(* Model of where stacks and sources come from: /repo/utils/stack.go (Stack, Caller), /repo/ctx/error.go (stack and the functions that call it),
   /repo/http/error.go (NewErrorf), the functions of /repo/ctx/log/log.go that find their caller, /repo/utils/sync/mutex.go:23. *)
From Coq Require Import Bool Ascii String Arith NArith ZArith List.
From Verif Require Import Prelude DecModel CtxModel ErrModel.
Import ListNotations.

(* A function that is running: its file, the line it is at, its name; runtime.Frame, used at utils/stack.go:16,36, ctx/error.go:67, ctx/log/log.go:206 *)
Record frame := Frame { f_file : bytes; f_line : N; f_func : bytes }.
(* The functions that are running, the innermost first: runtime.Caller(n) called by the first one gives the nth, starting with 0.
   Inlined calls count as calls, as in package runtime. *)
Definition frames := list frame.
(* runtime.Caller; utils/stack.go:16 *)
Definition Caller_ (st : frames) (n : nat) : option frame := nth_error st n.
(* the function that is running calls, at this line, one of this file and name *)
Definition call (st : frames) (line : N) (file func : bytes) : frames :=
  match st with
  | [] => [Frame file 0 func]
  | f :: r => Frame file 0 func :: Frame (f_file f) line (f_func f) :: r
  end.
(* "%s:%d"; utils/stack.go:20, ctx/error.go:71, ctx/log/log.go:207, utils/sync/mutex.go:24 *)
Definition fileline (f : frame) : bytes := f_file f ++ B ":" ++ dec (f_line f).

Section Stk.
  (* the directory of the module, as the compiler has recorded it *)
  Context (root : bytes).
  (* the loop of utils/stack.go:15-22 and of ctx/error.go:66-73 *)
  Fixpoint loop (st : frames) (above max : nat) : list bytes :=
    match max with
    | 0 => []
    | S m => match Caller_ st (above + 1) with None => [] | Some f => fileline f :: loop st (S above) m end
    end.
  (* utils/stack.go:13-24 Stack, called at this line of the function that is running *)
  Definition Stack (st : frames) (line : N) (above max : nat) : list bytes :=
    loop (call st line (root ++ B "/utils/stack.go") (B "utils.Stack")) above max.
  (* utils/stack.go:33-43 Caller; runtime.Callers counts itself: skip 1 is its caller *)
  Definition Caller (st : frames) (line : N) (above : nat) : frame :=
    match Caller_ (call st line (root ++ B "/utils/stack.go") (B "utils.Caller")) (above + 2 - 1) with Some f => f | None => Frame [] 0 [] end.

  (* ctx/error.go:64-75 stack *)
  Definition stack (st : frames) (line : N) (above max : nat) : list bytes :=
    loop (call st line (root ++ B "/ctx/error.go") (B "ctx.stack")) above max.
  Context (user_is : N -> gerr -> bool) (c : option context).
  (* ctx/error.go:50-62 maybeWrap, called at this line *)
  Definition maybeWrapAt (st : frames) (line : N) (fresh : N) (e : gerr) : res gerr :=
    maybeWrap user_is fresh (EInfo (stack (call st line (root ++ B "/ctx/error.go") (B "ctx.maybeWrap")) 59 2 100) c) e.
  (* ctx/error.go:14-16 NewErrorf, called at this line *)
  Definition NewErrorfAt (st : frames) (line : N) (fresh p : N) (msg : bytes) (wrapped : list gerr) : res gerr :=
    maybeWrapAt (call st line (root ++ B "/ctx/error.go") (B "ctx.NewErrorf")) 15 fresh (errorf p msg wrapped).
  (* ctx/error.go:19-24 WrapError, called at this line *)
  Definition WrapErrorAt (st : frames) (line : N) (fresh : N) (e : option gerr) : res (option gerr) :=
    match e with
    | None => Ok None
    | Some e => rbind (maybeWrapAt (call st line (root ++ B "/ctx/error.go") (B "ctx.WrapError")) 23 fresh e) (fun w => Ok (Some w))
    end.
  (* http/error.go:11-16 NewErrorf, called at this line *)
  Definition HttpErrorfAt (st : frames) (line : N) (code : Z) (fresh p : N) (msg : bytes) (wrapped : list gerr) : res gerr :=
    rbind (NewErrorfAt (call st line (root ++ B "/http/error.go") (B "http.NewErrorf")) 14 fresh p msg wrapped) (fun e => Ok (EHttp code (Some e))).

  (* ctx/log/log.go:205-208 caller *)
  Definition caller (st : frames) (line : N) (above : nat) : bytes :=
    match Caller_ (call st line (root ++ B "/ctx/log/log.go") (B "log.caller")) (above + 1) with Some f => fileline f | None => fileline (Frame [] 0 []) end.
  (* the src that Errorf, Warnf, Infof and Debugf give to doLog, called at this line; ctx/log/log.go:108-130 *)
  Inductive logger := Errorf | Warnf | Infof | Debugf.
  (* see above *)
  Definition src (l : logger) (st : frames) (line : N) : bytes :=
    match l with
    | Errorf => caller (call st line (root ++ B "/ctx/log/log.go") (B "log.Errorf")) 111 1
    | Warnf => caller (call st line (root ++ B "/ctx/log/log.go") (B "log.Warnf")) 117 1
    | Infof => caller (call st line (root ++ B "/ctx/log/log.go") (B "log.Infof")) 123 1
    | Debugf => caller (call st line (root ++ B "/ctx/log/log.go") (B "log.Debugf")) 129 1
    end.
  (* utils/sync/mutex.go:22-24: the holder that MetricsMutex.Lock notes, called at this line *)
  Definition holder (st : frames) (line : N) : bytes :=
    match Caller_ (call st line (root ++ B "/utils/sync/mutex.go") (B "sync.(*MetricsMutex).Lock")) 1 with Some f => fileline f | None => fileline (Frame [] 0 []) end.
  (* http/mux.go:60-66: the stack in the warning of a second WriteHeader, called at this line *)
  Definition duplicate (st : frames) (line : N) : list bytes :=
    Stack (call st line (root ++ B "/http/mux.go") (B "http.(*response).WriteHeader")) 62 1 10.
End Stk.
