(* Vocabulary of the statements about the contexts of requests: C157. *)
From Coq Require Import Bool Ascii String Arith NArith ZArith List.
From Verif Require Import Prelude DurModel JsonModel CtxModel CtxSpec RqModel.
Import ListNotations.

(* the context numbered n *)
Definition is_ctx (w : prog) (n : nat) (c : context) : Prop := nth_error (contexts (ops w)) n = Some c.
(* the CancelFunc of context n ends cancelCtx i *)
Definition ends_with (w : prog) (n i : nat) : Prop := exists c, nth_error (env (run (ops w))) n = Some (c, Some i).
(* the context given to Listen *)
Definition base (r : req) : nat := l_base (c_lis (r_con r)).
(* what tells one request from others *)
Definition own_tags (r : req) : list (bytes * bytes) :=
  [(B "http.addr", jstr false (l_addr (c_lis (r_con r)))); (B "http.remote", jstr false (c_remote (r_con r)))] ++
  (let t := [(B "ua", jstr false (r_ua r)); (B "path", jstr false (r_path r))] in if r_handle r then t ++ t else t).
(* whether a context has ended *)
Definition over (w : prog) (c : context) : option kind := Err (cells (run (ops w))) c.
