(* Model of the contexts of the requests that a Server of /repo/http serves: BaseContext and ConnContext (/repo/http/server.go:98-103), the handlers of
   /repo/http/server.go:44-57 and /repo/http/mux.go:21-35, and what net/http does between them, over the contexts of CtxModel. *)
From Coq Require Import Bool Ascii String Arith NArith ZArith List.
From Verif Require Import Prelude DurModel JsonModel CtxModel.
Import ListNotations.

(* A listener (http/server.go:96-147): its context, the context given to Listen, and the address.  Contexts are numbered as in CtxModel. *)
Record lis := Lis { l_ctx : nat; l_base : nat; l_addr : bytes }.
(* a connection (http/server.go:101-103): its context, and the rest *)
Record con := Con { c_ctx : nat; c_lis : lis; c_remote : bytes }.
(* A request: the context that its handler gets, the one that ends with the request (net/http), its connection, r.UserAgent(), r.URL.Path, and whether the
   handler was registered with Handle (http/mux.go:20) *)
Record req := Req { r_ctx : nat; r_own : nat; r_con : con; r_ua : bytes; r_path : bytes; r_handle : bool }.
(* the program: what was done with contexts, the listeners, connections and requests so far; http/server.go:96 *)
Record prog := Prog { ops : list op; liss : list lis; conns : list con; reqs : list req }.
(* What happens: anything else with contexts, also the end of a request or a connection (their CancelFunc is called by net/http); Listen with context n;
   a connection to listener l; a request over connection c *)
Inductive event := EOp (o : op) | EListen (n : nat) (addr : bytes) | EAccept (l : nat) (remote : bytes) | ERequest (c : nat) (ua path : bytes) (handle : bool).
(* the number of the next context *)
Definition next (w : prog) : nat := length (env (run (ops w))).
(* http/server.go:98-100 BaseContext; net/http then adds http.ServerContextKey *)
Definition listen_ops (k n : nat) (addr : bytes) : list op := [OTag n (B "http.addr") (jstr false addr); OValue k (inl 0%N) (Some 0%N)].
(* http/server.go:101-103 ConnContext; net/http then adds http.LocalAddrContextKey, and a CancelFunc for the connection *)
Definition accept_ops (k l : nat) (remote : bytes) : list op := [OTag l (B "http.remote") (jstr false remote); OValue k (inl 1%N) (Some 1%N); OCancel (S k)].
(* http/server.go:47-48, http/mux.go:24-25 *)
Definition tag_ops (c k : nat) (ua path : bytes) : list op := [OTag c (B "ua") (jstr false ua); OTag k (B "path") (jstr false path)].
(* net/http: a CancelFunc for the request; then http/server.go:44-57, and http/mux.go:21-35 for what Handle and HandleFunc registered *)
Definition request_ops (k c : nat) (ua path : bytes) (handle : bool) : list op :=
  [OCancel c] ++ tag_ops k (S k) ua path ++ (if handle then tag_ops (S (S k)) (S (S (S k))) ua path else []).
(* one event; numbers not used yet change nothing.  http/server.go:96 *)
Definition happen (w : prog) (e : event) : prog :=
  let k := next w in
  match e with
  | EOp o => Prog (ops w ++ [o]) (liss w) (conns w) (reqs w)
  | EListen n addr => if n <? k then Prog (ops w ++ listen_ops k n addr) (liss w ++ [Lis (S k) n addr]) (conns w) (reqs w) else w
  | EAccept l remote =>
      match nth_error (liss w) l with
      | Some x => Prog (ops w ++ accept_ops k (l_ctx x) remote) (liss w) (conns w ++ [Con (S (S k)) x remote]) (reqs w)
      | None => w
      end
  | ERequest c ua path h =>
      match nth_error (conns w) c with
      | Some x => Prog (ops w ++ request_ops k (c_ctx x) ua path h) (liss w) (conns w)
                    (reqs w ++ [Req (if h then S (S (S (S k))) else S (S k)) k x ua path h])
      | None => w
      end
  end.
(* a history; http/server.go:96 *)
Definition history (l : list event) : prog := fold_left happen l (Prog [] [] [] []).
