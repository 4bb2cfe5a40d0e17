(* Model of the frame "disconnect", which ends a websocket connection: /repo/http/ws/conn.go:60-67. *)
From Coq Require Import Bool Ascii String Arith NArith ZArith List.
From Verif Require Import Prelude Utf8Model QuoteModel DecModel DurModel EncModel JsonModel CtxModel ErrModel MarModel WsModel.
Import ListNotations.

Section Disconnect.
  Context {V A H : Type}.
  Context (user_msg : N -> bytes) (status_text : Z -> bytes) (user_node : N -> res node) (isprint : N -> bool).
  (* bad: the error of enc.Unmarshal into a Frame, which has only the node to depend on (http/ws/rpc.go:27-30); again: the error of
     closing what is closed (http/ws/ws.go:123-129), from golang.org/x/net/websocket; i: the stack and context that ctx.NewErrorf
     adds (ctx/error.go) *)
  Context (bad : option node -> gerr) (again : gerr) (i : einfo).
  Context (f2i f2u : floatv -> Z).
  (* ctx.NewErrorf; http/ws/rpc.go:50,56, http/ws/channel.go:31 *)
  Definition newErrorf (m : bytes) : gerr := ECtx i (EBase 0 m).
  (* The error that Channel.onData returns, if it returns one (http/ws/channel.go:28-60): line 31 for no such method.  A method that
     panics is recovered, and the error is errors.New("panic") (line 57). *)
  Definition onData_error (ch : @chan V A H) (f : frame) : gerr :=
    match byPath (ch_byPath ch) (f_path f) with
    | None => newErrorf (B "no " ++ quote isprint (f_path f) ++ B " for channel " ++ quote isprint (f_chan f))
    | Some _ => EBase 0 (B "panic")
    end.
  (* the error that onFrame returns, if it returns one: http/ws/rpc.go:36-58 *)
  Definition onFrame_error (s : @rpc V A H) (f : frame) : gerr :=
    if beqb (f_type f) (B "close") then again
    else if beqb (f_type f) (B "new") || beqb (f_type f) (B "open") then newErrorf (B "unknown path: " ++ quote isprint (f_path f))
    else match mget beqb (r_chans s) (f_chan f) with Some ch => onData_error ch f | None => newErrorf (B "unknown channel") end.
  (* the error of the handler; http/ws/rpc.go:25-32 *)
  Definition handle_error (s : @rpc V A H) (n : option node) : gerr :=
    match frame_of f2i f2u n with None => bad n | Some f => onFrame_error s f end.
  (* http/ws/conn.go:62-65, and the deferred Close (line 51); enc.MustMarshal can panic, then only that Close is done *)
  Definition disconnect (s : @rpc V A H) (e : gerr) : rpc :=
    note (match merr user_msg status_text user_node e with
          | Ok d => send s (Frame [] [] (B "disconnect") (Some d))
          | Panic => s
          end) TClosed.
  (* http/ws/conn.go:52-69: what comes is handled one by one, up to the first error or panic *)
  Fixpoint serve (reg : @registry V A H) (s : @rpc V A H) (ns : list (option node)) : rpc :=
    match ns with
    | [] => s
    | n :: r =>
        match rpc_handle user_msg status_text user_node reg f2i f2u s n with
        | (s1, HNil) => serve reg s1 r
        | (s1, HError) => disconnect s1 (handle_error s n)
        | (s1, HPanic) => note s1 TClosed
        end
    end.
End Disconnect.
