(* Model of the paths of Server of /repo/http: what NewServer, RegisterAPI, HandleRequest, Handle and the others register and document,
   and to which of them net/http's ServeMux (Go 1.20) gives a request.  Requests with the method CONNECT and OPTIONS * are left out. *)
From Coq Require Import Bool Ascii String Arith NArith List.
From Verif Require Import Prelude Utf8Model DurModel.
Import ListNotations.

(* the byte '/'; http/server.go:66 *)
Definition is_slash (c : ascii) : bool := N.eqb (code c) 47.
(* strings.Split(s, "/"), as path.Clean walks over the path; http/server.go:54 mux.ServeHTTP *)
Fixpoint segs (s : bytes) : list bytes :=
  match s with
  | [] => [[]]
  | c :: r => if is_slash c then [] :: segs r else match segs r with x :: l => (c :: x) :: l | [] => [[c]] end
  end.
(* the elements joined, each after a slash; under http/server.go:54 *)
Definition join (l : list bytes) : bytes := concat (map (fun x => "/"%char :: x) l).
(* one element of the path: "" and "." are dropped, ".." drops the one before; path.Clean, under http/server.go:54 *)
Definition push (st : list bytes) (x : bytes) : list bytes :=
  if beqb x [] || beqb x (B ".") then st else if beqb x (B "..") then tl st else x :: st.
(* path.Clean for a path that begins with a slash (Go's works in place; this one on the elements); under http/server.go:54 *)
Definition Clean (p : bytes) : bytes := match fold_left push (segs p) [] with [] => B "/" | st => join (rev st) end.
(* net/http cleanPath; under http/server.go:54 *)
Definition rooted (p : bytes) : bytes := match p with [] => B "/" | c :: _ => if is_slash c then p else "/"%char :: p end.
(* as above; under http/server.go:54 *)
Definition cleanPath (p : bytes) : bytes :=
  let np := Clean (rooted p) in
  if is_slash (last (rooted p) "/"%char) && negb (beqb np (B "/")) then np ++ B "/" else np.

(* strings.HasPrefix; under http/server.go:54 *)
Fixpoint has_prefix (p s : bytes) : bool :=
  match p, s with [], _ => true | x :: p', y :: s' => N.eqb (code x) (code y) && has_prefix p' s' | _ :: _, [] => false end.
(* net/http.ServeMux (http/server.go:23): the patterns with their handlers, those that end in a slash, the longest first, and whether
   there are patterns with a host *)
Record mux := Mux { exact : list (bytes * nat); trees : list (bytes * nat); hosts : bool }.
(* net/http appendSorted; under http/server.go:192 *)
Fixpoint insert (e : bytes * nat) (l : list (bytes * nat)) : list (bytes * nat) :=
  match l with [] => [e] | x :: r => if length (fst x) <? length (fst e) then e :: x :: r else x :: insert e r end.
(* does the pattern end in a slash; ServeMux.Handle, under http/server.go:192 *)
Definition is_tree (p : bytes) : bool := match p with [] => false | _ => is_slash (last p " "%char) end.
(* does it begin with one; ServeMux.Handle, under http/server.go:192 *)
Definition is_path (p : bytes) : bool := match p with [] => false | c :: _ => is_slash c end.
(* ServeMux.Handle; None: panic; under http/server.go:192, http/mux.go:21, http/call.go:28, http/monitor.go:17 *)
Definition handle (x : mux) (p : bytes) (n : nat) : option mux :=
  match p with
  | [] => None
  | _ :: _ => match mget beqb (exact x) p with
      | Some _ => None
      | None => Some (Mux (exact x ++ [(p, n)]) (if is_tree p then insert (p, n) (trees x) else trees x) (hosts x || negb (is_path p)))
      end
  end.
(* ServeMux.match; under http/server.go:54 *)
Definition lookup (x : mux) (path : bytes) : option nat :=
  match mget beqb (exact x) path with
  | Some n => Some n
  | None => match find (fun e => has_prefix (fst e) path) (trees x) with Some e => Some (snd e) | None => None end
  end.
(* ServeMux.handler; under http/server.go:54 *)
Definition handler (x : mux) (host path : bytes) : option nat :=
  match (if hosts x then lookup x (host ++ path) else None) with Some n => Some n | None => lookup x path end.
(* ServeMux.shouldRedirectRLocked; under http/server.go:54 *)
Definition has (x : mux) (p : bytes) : bool := match mget beqb (exact x) p with Some _ => true | None => false end.
(* as above; under http/server.go:54 *)
Definition slash_redirect (x : mux) (host path : bytes) : bool :=
  if has x path || has x (host ++ path) then false
  else match path with
       | [] => false
       | _ => if has x (path ++ B "/") || has x (host ++ path ++ B "/") then negb (is_slash (last path " "%char)) else false
       end.
(* what a request gets: a handler, a redirect to another path (301), 404; http/server.go:54 *)
Inductive answer := To (n : nat) | Redirect (path : bytes) | NotFound.
(* ServeMux.Handler for a request for this host (without port) and path; http/server.go:54,56 *)
Definition dispatch (x : mux) (host path : bytes) : answer :=
  let p := cleanPath path in
  if slash_redirect x host p then Redirect (p ++ B "/")
  else if negb (beqb p path) then Redirect p
  else match handler x host path with Some n => To n | None => NotFound end.

(* the server: its mux and OpenAPI.Paths, which say whose documentation is at a path; http/server.go:22-32 *)
Record srv := Srv { mx : mux; docs : list (bytes * nat) }.
(* What is called.  Register: RegisterAPI, where None is an object that api.NewServer does not take, else the paths of its urls, and
   whether schemas can be made of its fields (http/api.go:26-74).  Request: HandleRequest (http/server.go:161).  Handle: Handle or HandleFunc
   (http/mux.go:16-46).  Raw: those that do not document: CallHandler.Register (http/call.go:27), SetupPrometheus, SetupMonitoring
   (http/monitor.go:13-39), Mux() (http/server.go:92). *)
Inductive call := Register (op : option (list bytes)) (schemas : bool) | Request (p : bytes) | Handle (p : bytes) | Raw (ps : list bytes).
(* how the call ends; http/api.go:66,73 *)
Inductive outcome := Done | Failed | Panicked.
(* registers one path after the other until it panics (false); http/api.go:69-72, http/monitor.go:22-27 *)
Fixpoint handle_all (x : mux) (ps : list bytes) (n : nat) : mux * bool :=
  match ps with
  | [] => (x, true)
  | p :: r => match handle x p n with None => (x, false) | Some y => handle_all y r n end
  end.
(* api/handler.go:175-179, http/server.go:185, http/mux.go:44 *)
Definition document (d : list (bytes * nat)) (ps : list bytes) (n : nat) : list (bytes * nat) := fold_left (fun d p => mset beqb d p n) ps d.
(* The n-th call.  The server is left as it is when the call panics. *)
Definition step (s : srv) (n : nat) (c : call) : srv * outcome :=
  match c with
  (* http/api.go:26-74 *)
  | Register None _ | Register (Some []) _ => (s, Failed)
  | Register (Some ps) ok =>
      let (x, b) := handle_all (mx s) ps n in
      if b then if ok then (Srv x (document (docs s) ps n), Done) else (Srv x (docs s), Failed) else (Srv x (docs s), Panicked)
  (* http/server.go:161-189, http/mux.go:16-46 *)
  | Request p | Handle p =>
      match handle (mx s) p n with Some x => (Srv x (document (docs s) [p] n), Done) | None => (s, Panicked) end
  (* http/call.go:27, http/monitor.go:13-39, http/server.go:92 *)
  | Raw ps => let (x, b) := handle_all (mx s) ps n in (Srv x (docs s), if b then Done else Panicked)
  end.
(* http/server.go:39-89 NewServer: /live is number 0, /ready 1, /openapi.json 2 *)
Definition NewServer : srv :=
  Srv (Mux [(B "/live", 0); (B "/ready", 1); (B "/openapi.json", 2)] [] false) [].
(* the calls one after the other, the first with number n; http/server.go:39 *)
Fixpoint run (s : srv) (n : nat) (cs : list call) : srv :=
  match cs with [] => s | c :: r => run (fst (step s n c)) (S n) r end.
