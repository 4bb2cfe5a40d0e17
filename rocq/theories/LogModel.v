(* Model of /repo/ctx/log/log.go: rendering of log calls, and /repo/ctx/log/redacted.go. *)
From Coq Require Import Bool Ascii String Arith NArith ZArith List.
From Verif Require Import Prelude Utf8Model QuoteModel DecModel DurModel EncModel JsonModel CtxModel ErrModel.
Import ListNotations.

(* ctx/log/log.go:22 Tags: names to JSON texts *)
Definition tags := list (bytes * bytes).

(* An argument of a log call.  ARedacted: RedactedString (ctx/log/redacted.go:4).  ALoggable: any other Loggable
   (ctx/log/log.go:18-20), given by its LogAs method.  AErr: an error that is not Loggable.  AStr: a string.
   AOther: anything else. *)
Inductive arg :=
| ARedacted (s : bytes)
| ALoggable (logas : tags -> tags * arg)
| AErr (e : gerr)
| AStr (s : bytes)
| AOther (n : N).

Section Log.
  (* as in JsonModel.jstr; the methods of foreign errors; StatusText: as in ErrModel *)
  Context (short : bool) (user_ctx : N -> option einfo) (user_msg : N -> bytes) (status_text : Z -> bytes).
  (* fmt.Sprintf: any function of the format and the arguments; ctx/log/log.go:202 *)
  Context (sprintf : bytes -> list arg -> bytes).

  (* ctx/log/redacted.go:8-10 RedactedString.LogAs and the LogAs of others *)
  Definition LogAs (a : arg) (t : tags) : option (tags * arg) :=
    match a with
    | ARedacted _ => Some (t, AStr (B "***"))
    | ALoggable f => Some (f t)
    | _ => None
    end.

  (* one element of errs as JSON (ctx/log/log.go:186-193): keys in order, tags as they are *)
  Definition err_json (e : gerr) : bytes :=
    group false 123 125 0
     ((jstr short (B "error") ++ B ":" ++ jstr short (emsg user_msg status_text e)) ::
      match as_ctx user_ctx e with
      | None => []
      | Some i =>
          (jstr short (B "stack") ++ B ":" ++ group false 91 93 0 (map (jstr short) (estack i))) ::
          match ectx i with
          | None => []
          | Some c => [jstr short (B "tags") ++ B ":" ++ group false 123 125 0
                         (map (fun e => jstr short (fst e) ++ B ":" ++ snd e) (ksort (ExtractTags c)))]
          end
      end).

  (* ctx/log/log.go:179-196, the loop: the tags, the arguments as left in the slice, the errors *)
  Fixpoint format_loop (t : tags) (args : list arg) : tags * list arg * list gerr :=
    match args with
    | [] => (t, [], [])
    | a :: rest =>
        match LogAs a t with
        | Some (t', a') => let '(t'', as', es) := format_loop t' rest in (t'', a' :: as', es)
        | None => let '(t'', as', es) := format_loop t rest in
                  (t'', a :: as', match a with AErr e => e :: es | _ => es end)
        end
    end.

  (* ctx/log/log.go:177-203 FormatMsg: the message, the tags after it, and the caller's argument slice after it.
     json.Marshal of the errors never fails here: tags are taken to be valid JSON (WithTag lets a json.RawMessage through unchecked, ctx/tags.go:19-22). *)
  Definition FormatMsg (t : tags) (f : bytes) (args : list arg) : bytes * tags * list arg :=
    let '(t', as', es) := format_loop t args in
    let t'' := match es with
               | [] => t'
               | _ => mset beqb t' (B "error") (group false 91 93 0 (map err_json es))
               end in
    (sprintf f as', t'', as').

  (* ctx/log/log.go:63-73: what a slog logger (the default one included) is given by a call with context c *)
  Definition slog_call (c : context) (f : bytes) (args : list arg) : bytes * tags :=
    let '(m, t, _) := FormatMsg (ExtractTags c) f args in (m, t).

  (* ctx/log/log.go:75-81: what a LogFunc set with WithLogFunc is given *)
  Definition custom_call (f : bytes) (args : list arg) : bytes * list arg := (f, args).

  (* ctx/tags.go:16-41 WithTag with a RedactedString: json.Marshal sees a string *)
  Definition WithTag_redacted (c : context) (k s : bytes) : context := Tag c k (jstr short s).
End Log.
