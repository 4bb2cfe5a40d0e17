(* Model of log calls with errors whose tags need not be JSON: FormatMsg of /repo/ctx/log/log.go, where json.Marshal may fail.  (LogModel.FormatMsg takes tags to be JSON.) *)
From Coq Require Import Bool Ascii String Arith NArith ZArith List.
From Verif Require Import Prelude DurModel EncModel JsonModel CtxModel ErrModel LogModel LgModel.
Import ListNotations.

Section Call.
  (* as in LgModel *)
  Context (now : bytes) (err : bytes -> bytes) (short : bool) (user_ctx : N -> option einfo) (user_msg : N -> bytes) (status_text : Z -> bytes) (sprintf : bytes -> list arg -> bytes).
  Context (order : list (bytes * bytes) -> list (bytes * bytes)).

  (* the tags of one element of errs can be marshalled: encoding/json compacts what JSON.MarshalJSON returns, and fails if it is no JSON (ctx/log/log.go:190-192, ctx/error.go:80-82) *)
  Definition marshals (e : gerr) : bool :=
    match as_ctx user_ctx e with
    | Some i => match ectx i with Some c => forallb (fun e => jvalid (snd e)) (ksort (ExtractTags c)) | None => true end
    | None => true
    end.
  (* ctx/log/log.go:198 json.Marshal(errs); None: an error.  The tags are written as they are: that blanks in them are removed and <, >, & escaped is left out, it does not change what they mean *)
  Definition marshal_errs (es : list gerr) : option bytes :=
    if forallb marshals es then Some (group false 91 93 0 (map (err_json short user_ctx user_msg status_text) es)) else None.
  (* ctx/log/log.go:177-203 FormatMsg: the message and the tags after it *)
  Definition format (t : tags) (f : bytes) (args : list arg) : bytes * tags :=
    let '(t', as', es) := format_loop t args in
    (sprintf f as',
     match es with
     | [] => t'
     | _ => match marshal_errs es with Some j => mset beqb t' (B "error") j | None => t' end
     end).
  (* a log call: ctx/log/log.go:64-72, 108-148 *)
  Definition log_call (min lvl : Z) (src : bytes) (c : context) (f : bytes) (args : list arg) : res (option bytes) :=
    let '(m, t) := format (ExtractTags c) f args in log_attrs now err min lvl src m (order t).
End Call.
