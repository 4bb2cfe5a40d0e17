(* Model of /repo/http/mux.go, server.go, call.go, api.go and client.go, and of what they use of net/http. *)
From Coq Require Import Bool Ascii String Arith NArith ZArith List.
From Verif Require Import Prelude Utf8Model DecModel DurModel EncModel JsonModel CtxModel ErrModel MarModel ConfModel ApiModel.
Import ListNotations.

(* ---- writing responses ---- *)
(* The calls on a http.ResponseWriter; AddHeader is Header().Add.  http/mux.go:60-75, http/server.go:209-240,
   http/call.go:48-56.  Flush and Hijack are not modelled. *)
Inductive wcall := WriteHeader (code : Z) | Write (b : bytes) | AddHeader (k v : bytes).
(* http/mux.go:48-75 response: its code afterwards, and the calls on the ResponseWriter in it.  The code is set before the
   call, so it does not matter here if that panics.  The warning (line 63) is not modelled. *)
Definition resp1 (code : Z) (o : wcall) : Z * list wcall :=
  match o with
  | WriteHeader c => if (code =? 0)%Z then (c, [o]) else (code, [])
  | Write _ => (if (code =? 0)%Z then 200%Z else code, [o])
  | AddHeader _ _ => (code, [o])
  end.
(* one call after the other; see above *)
Fixpoint resp (code : Z) (l : list wcall) : Z * list wcall :=
  match l with
  | [] => (code, [])
  | o :: r => let (c1, o1) := resp1 code o in let (c2, o2) := resp c1 r in (c2, o1 ++ o2)
  end.

(* net/http's own ResponseWriter for one HTTP/1 request (net/http/server.go response), under http/mux.go:67,74.
   n_head: the method is HEAD.  n_hdr: the Header() map, in the order of the calls.  n_info: the informational responses sent.
   n_sent: the status and the headers at the time it was set.  n_body: the body sent. *)
Definition headers := list (bytes * bytes).
(* see above *)
Record net := Net { n_head : bool; n_hdr : headers; n_info : list Z; n_sent : option (Z * headers); n_body : bytes }.
(* net/http bodyAllowedForStatus, under http/mux.go:74 *)
Definition no_body (code : Z) : bool := ((100 <=? code) && (code <=? 199) || (code =? 204) || (code =? 304))%Z.
(* net/http response.WriteHeader, under http/mux.go:67; true: it panics *)
Definition net_header (n : net) (code : Z) : net * bool :=
  match n_sent n with
  | Some _ => (n, false)
  | None =>
      if ((code <? 100) || (999 <? code))%Z then (n, true)
      else if ((code <=? 199) && negb (code =? 101))%Z then (Net (n_head n) (n_hdr n) (n_info n ++ [code]) None (n_body n), false)
      else (Net (n_head n) (n_hdr n) (n_info n) (Some (code, n_hdr n)) (n_body n), false)
  end.
(* net/http response.Write, under http/mux.go:74.  The error it returns is not modelled. *)
Definition net_write (n : net) (b : bytes) : net :=
  let n' := fst (net_header n 200) in
  match n_sent n' with
  | Some (code, _) =>
      if no_body code || n_head n' then n' else Net (n_head n') (n_hdr n') (n_info n') (n_sent n') (n_body n' ++ b)
  | None => n'
  end.
(* see above *)
Definition net_call (n : net) (o : wcall) : net * bool :=
  match o with
  | WriteHeader c => net_header n c
  | Write b => (net_write n b, false)
  | AddHeader k v => (Net (n_head n) (n_hdr n ++ [(k, v)]) (n_info n) (n_sent n) (n_body n), false)
  end.
(* all the calls of a handler that recovers from the panics, and those of one that does not; http/server.go:51-57 *)
Definition net_all (n : net) (l : list wcall) : net := fold_left (fun n o => fst (net_call n o)) l n.
(* see above; true: it panicked *)
Fixpoint net_run (n : net) (l : list wcall) : net * bool :=
  match l with
  | [] => (n, false)
  | o :: r => match net_call n o with (n', true) => (n', true) | (n', false) => net_run n' r end
  end.
(* What the client gets.  Broken: net/http recovers from a panic of the handler and closes the connection; no response is
   complete.  net/http response.finishRequest sends 200 if no status was set.  What net/http adds (Date, Content-Length,
   Transfer-Encoding, a Content-Type if there is none) is a function of what is here. *)
Inductive reply := Reply (info : list Z) (status : Z) (hdr : headers) (body : bytes) | Broken.
(* see above; http/server.go:97-110 *)
Definition finish (n : net) : reply :=
  match n_sent n with
  | Some (code, h) => Reply (n_info n) code h (n_body n)
  | None => Reply (n_info n) 200 (n_hdr n) []
  end.

(* ---- requests ---- *)
(* What is used of a request: method, path, the Accept header ("" if none), Accept-Encoding, and the body: None is a nil Body,
   inr the error of reading it (wrapped by ctx.NewErrorf); http/server.go:59-62,197-203,233 *)
Record hreq := HReq { q_method : bytes; q_path : bytes; q_accept : bytes; q_encoding : option bytes; q_body : option (bytes + gerr) }.
(* A handler: its calls, and whether it panics after them; net/http.Handler, http/mux.go:20, http/server.go:66 *)
Definition hdlr := hreq -> list wcall * bool.
(* net/http, before the handler is called *)
Definition net0 (q : hreq) : net := Net (beqb (q_method q) (B "HEAD")) [] [] None [].
(* http/server.go:44-64 for a handler registered on the mux itself (pattern = None), as in lines 66,71,75,192, http/call.go:28, or by
   Handle and HandleFunc (http/mux.go:16-46) with this pattern.  The list is what is observed by http_request: method, path,
   code.  Which handler the mux takes is in RtModel. *)
Definition serve (pattern : option bytes) (h : hdlr) (q : hreq) : reply * list (bytes * bytes * Z) :=
  let (calls, died) := h q in
  match pattern with
  | None =>
      let (c, l) := resp 0 calls in
      let (n, panicked) := net_run (net0 q) l in
      if panicked || died then (Broken, []) else (finish n, [(q_method q, q_path q, c)])
  | Some path =>
      let (c1, l1) := resp 0 calls in
      let (c2, l2) := resp 0 l1 in
      let (n, panicked) := net_run (net0 q) l2 in
      if panicked || died then (Broken, []) else (finish n, [(q_method q, path, c1); (q_method q, q_path q, c2)])
  end.
(* http/server.go:66-68 *)
Definition live : hdlr := fun _ => ([WriteHeader 204], false).
(* http/server.go:34-37: int32(code) *)
Definition SetReady (code : Z) : Z := swrap W32 code.
(* http/server.go:70-73; code: what is stored *)
Definition ready (code : Z) : hdlr := fun _ => ([WriteHeader code], false).

(* ---- handleRequest ---- *)
(* what a request function returns, or a panic; http/server.go:191 *)
Inductive hout := HOut (out : bytes) | HErr (e : gerr) | HPanic.
(* strings.HasPrefix and strings.Contains; http/server.go:233 *)
Fixpoint prefixb (p s : bytes) : bool :=
  match p, s with [], _ => true | x :: p', y :: s' => N.eqb (code x) (code y) && prefixb p' s' | _ :: _, [] => false end.
(* see above *)
Fixpoint containsb (p s : bytes) : bool := prefixb p s || match s with [] => false | _ :: s' => containsb p s' end.
Section Handle.
  (* other error types and status texts, as in ErrModel; the encoding/json version, as in JsonModel *)
  Context (user_http : N -> option Z) (user_msg : N -> bytes) (status_text : Z -> bytes) (short : bool).
  (* what compress/gzip writes for a text, call by call; http/server.go:235-237 *)
  Context (gz : bytes -> list bytes).
  (* ctx.GetTracking(c); http/server.go:206 *)
  Context (tid : bytes).

  (* json.Marshal of a map of strings; http/server.go:211-214,217-220 *)
  Definition jmap (l : list (bytes * bytes)) : bytes := jenc short false 0 (NMap (map (fun e => (fst e, NStr (snd e))) l)).
  (* http/server.go:205-224 *)
  Definition fail (e : gerr) : list wcall :=
    let code := ErrorCode user_http (Some e) 500 in
    [WriteHeader code;
     Write (if (code <? 500)%Z then jmap [(B "error", emsg user_msg status_text e); (B "tracking", tid)] else jmap [(B "tracking", tid)])].
  (* http/server.go:226-244 *)
  Definition done (accept out : bytes) : list wcall :=
    match out with
    | [] => [WriteHeader 204]
    | _ =>
        AddHeader (B "Content-Type") (B "application/json") ::
        if (16 * 1024 <? N.of_nat (length out))%N && containsb (B "gzip") accept
        then AddHeader (B "Content-Encoding") (B "gzip") :: map Write (gz out)
        else [Write out]
    end.
  (* http/server.go:191-246 handleRequest; f is given the body only: the request and the context are fixed *)
  Definition handle_request (f : bytes -> hout) : hdlr := fun q =>
    match (match q_body q with
           | None => f []
           | Some (inl b) => f b
           | Some (inr e) => HErr (EHttp 400 (Some e))
           end) with
    | HErr e => (fail e, false)
    | HOut out => (done (q_accept q) out, false)
    | HPanic => ([], true)
    end.

  (* ---- CallHandler ---- *)
  (* http/call.go:73-79: Write and SetBody; bytes.Buffer *)
  Inductive ccall := CWrite (b : bytes) | CSetBody (b : bytes).
  (* the body afterwards; see above *)
  Definition cbody (l : list ccall) : bytes := fold_left (fun acc o => match o with CWrite b => acc ++ b | CSetBody b => b end) l [].
  (* http/call.go:27-62 Register; f: what the Handler function does.  It cannot read the body of the request: nothing gives it
     access to reqBody.  None: it panics.  MaxLength (line 16) is used nowhere. *)
  Definition call_handler (maxlength : Z) (f : option (list ccall * option gerr)) : hdlr := fun q =>
    match (match q_body q with
           | Some (inr e) => HErr (EHttp 400 (Some e))
           | _ => match f with None => HPanic | Some (_, Some e) => HErr e | Some (l, None) => HOut (cbody l) end
           end) with
    | HErr e => ([WriteHeader (ErrorCode user_http (Some e) 500)], false)
    | HOut [] => ([WriteHeader 204], false)
    | HOut out => ([WriteHeader 200; Write out], false)
    | HPanic => ([], true)
    end.
End Handle.

(* ---- API over HTTP ---- *)
(* api/json.go:31-51 ReadFrom; None is an error *)
Definition ReadFrom (j : bytes) : option data :=
  match j with
  | [] => Some []
  | _ => match Decode j with Good (Some (NMap m)) => Some m | _ => None end
  end.
(* ctx.NewErrorf with a message, around nothing: http/api.go:36,46 (the arguments are formatted with %v) *)
Definition cerror (m : bytes) : gerr := ECtx (EInfo [] None) (EBase 0 m).
(* what Do does; http/api.go:48 *)
Inductive dres := DOk (obj : list val) | DErr (e : gerr) | DPanic.
Section Api.
  Context (f2i f2u : floatv -> Z) (short : bool).
  (* the messages of http/api.go:36,46 *)
  Context (m1 : bytes -> bytes) (m2 : data -> bytes).
  (* http/api.go:31-62: the function registered for the urls.  req.UID is nil (line 42).  The defer of line 38 is not modelled;
     the body is read already.  A nil body (r.Body == nil) does not occur in a server. *)
  Definition api_request (ser : handler) (do : list val -> dres) (body : bytes) : hout :=
    match ReadFrom body with
    | None => HErr (cerror (m1 body))
    | Some d =>
        match Recv f2i f2u ser d None with
        | RPanic => HPanic
        | RErr => HErr (EHttp 400 (Some (cerror (m2 d))))
        | ROk obj =>
            match do obj with
            | DPanic => HPanic
            | DErr e => HErr e
            | DOk obj' =>
                match Send ser obj' with
                | Panic => HPanic
                | Ok d2 => match Encode short false (NMap d2) with Ok out => HOut out | Panic => HPanic end
                end
            end
        end
    end.
  (* http/client.go:62-73 Do and 106-125 of API, given what the server replied: what becomes of the object.  net/http skips the
     informational responses and follows no redirects here, as there is no Location header. *)
  Definition client_reply (cli : handler) (r : reply) (obj : list val) : rres :=
    match r with
    | Broken => RErr
    | Reply _ status _ body =>
        if (status =? 204)%Z then ROk obj
        else if (status =? 200)%Z then match ReadFrom body with None => RErr | Some d => ClientRecv f2i f2u cli d obj end
        else RErr
    end.
  Context (user_http : N -> option Z) (user_msg : N -> bytes) (status_text : Z -> bytes) (gz : bytes -> list bytes) (tid : bytes).
  (* http/client.go:75-126 API, to a server where the object's url is registered by RegisterAPI (http/api.go:26-74).  The
     object must have an url (a nil one panics at http/client.go:94,100).  A network that fails is not modelled. *)
  Definition http_call (cli ser : handler) (do : list val -> dres) (path : bytes) (obj : list val) : rres :=
    match ClientSend cli obj with
    | Panic => RPanic
    | Ok d =>
        match Encode short false (NMap d) with
        | Panic => RErr
        | Ok j =>
            client_reply cli
              (fst (serve None (handle_request user_http user_msg status_text short gz tid (api_request ser do))
                 (HReq (B "POST") path [] None (Some (inl j))))) obj
        end
    end.
End Api.
(* http/client.go:62-73 Do: the error for a response with this status, if any; line: its status line.  http/error.go:18-21. *)
Definition client_error (status : Z) (line : bytes) : option gerr :=
  if ((status =? 200) || (status =? 204))%Z then None else Some (EHttp status (Some (EBase 0 line))).
