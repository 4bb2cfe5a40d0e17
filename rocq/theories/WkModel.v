(* Model of the opening handshake of the websocket servers of /repo/http/ws/handler.go, with x/net/websocket (Server, hybi) and
   ParseRequestURI of net/url of Go 1.20. *)
From Coq Require Import Bool Ascii String Arith NArith List.
From Verif Require Import Prelude Utf8Model DurModel UrModel.
Import ListNotations.

(* What of a request is looked at: headers as Header.Get gives them, "" if there is none; q_uri is URL.RequestURI().
   http/ws/handler.go:64-65,95-96 *)
Record req := Req { q_method : bytes; q_tls : bool; q_host : bytes; q_uri : bytes; q_upgrade : bytes; q_connection : bytes;
                    q_key : bytes; q_version : bytes; q_protocol : bytes; q_origin : bytes }.
(* The handler runs, or the request is answered with this status and the connection is closed (x/net/websocket server.go newServerConn,
   serveWebSocket, under http/ws/handler.go:74,105) *)
Inductive answer := Open | Status (code : N).

(* net/url, under http/ws/handler.go:65,96 *)
Definition is_letter (c : ascii) : bool := let n := code c in (((97 <=? n) && (n <=? 122)) || ((65 <=? n) && (n <=? 90)))%N.
(* net/url, under http/ws/handler.go:65,96 *)
Definition is_digit (c : ascii) : bool := let n := code c in ((48 <=? n) && (n <=? 57))%N.
(* net/url, under http/ws/handler.go:65,96 *)
Definition one_of (s : bytes) (c : ascii) : bool := existsb (fun x => N.eqb (code x) (code c)) s.
(* net/url stringContainsCTLByte; under http/ws/handler.go:65,96 *)
Definition has_ctl (s : bytes) : bool := existsb (fun c => let n := code c in ((n <? 32) || (n =? 127))%N) s.
(* strings.Cut: what is before and after the first such byte; under http/ws/handler.go:65,96 *)
Fixpoint cut (d : ascii) (s : bytes) : option (bytes * bytes) :=
  match s with
  | [] => None
  | c :: r => if N.eqb (code c) (code d) then Some ([], r) else match cut d r with Some (a, b) => Some (c :: a, b) | None => None end
  end.
(* strings.LastIndex: what is before and after the last such byte; under http/ws/handler.go:65,96 *)
Fixpoint cut_last (d : ascii) (s : bytes) : option (bytes * bytes) :=
  match s with
  | [] => None
  | c :: r => match cut_last d r with Some (a, b) => Some (c :: a, b) | None => if N.eqb (code c) (code d) then Some ([], r) else None end
  end.
(* net/url getScheme, in its loop: the scheme so far and whether the byte is the first; None is an error, Some None that there is no
   scheme; under http/ws/handler.go:65,96 *)
Fixpoint scheme_loop (pre s : bytes) : option (option (bytes * bytes)) :=
  match s with
  | [] => Some None
  | c :: r =>
      if is_letter c then scheme_loop (pre ++ [c]) r
      else if is_digit c || one_of (B "+-.") c then match pre with [] => Some None | _ => scheme_loop (pre ++ [c]) r end
      else if N.eqb (code c) 58 then match pre with [] => None | _ => Some (Some (pre, r)) end
      else Some None
  end.
(* net/url encoding, those needed; under http/ws/handler.go:65,96 *)
Inductive mode := MHost | MZone | MPath.
(* net/url shouldEscape, for encodeHost and encodeZone; under http/ws/handler.go:65,96 *)
Definition escapes (c : ascii) : bool :=
  negb (is_letter c || is_digit c || one_of (B "!$&'()*+,;=:[]<>" ++ [chr 34]) c || one_of (B "-_.~") c).
(* net/url unescape: whether it returns no error; under http/ws/handler.go:65,96 *)
Fixpoint unescapes (m : mode) (s : bytes) : bool :=
  match s with
  | [] => true
  | c :: r =>
      if N.eqb (code c) 37 then
        match r with
        | a :: b :: r' =>
            match unhex a, unhex b with
            | Some x, Some y =>
                let p25 := N.eqb (code a) 50 && N.eqb (code b) 53 in
                match m with
                | MHost => negb (x <? 8)%N || p25
                | MZone => p25 || N.eqb (16 * x + y) 32 || negb (escapes (chr (16 * x + y)))
                | MPath => true
                end && unescapes m r'
            | _, _ => false
            end
        | _ => false
        end
      else match m with MPath => true | _ => (128 <=? code c)%N || negb (escapes c) end && unescapes m r
  end.
(* net/url validOptionalPort; under http/ws/handler.go:65,96 *)
Definition port_ok (s : bytes) : bool := match s with [] => true | c :: r => N.eqb (code c) 58 && forallb is_digit r end.
(* strings.Index(s, "%25"): what is before it, and the text from there; under http/ws/handler.go:65,96 *)
Fixpoint cut_zone (s : bytes) : option (bytes * bytes) :=
  match s with
  | [] => None
  | c :: r =>
      match s with
      | p :: a :: b :: _ => if N.eqb (code p) 37 && N.eqb (code a) 50 && N.eqb (code b) 53 then Some ([], s) else match cut_zone r with Some (x, y) => Some (c :: x, y) | None => None end
      | _ => None
      end
  end.
(* net/url parseHost: whether it returns no error; under http/ws/handler.go:65,96 *)
Definition parseHost (h : bytes) : bool :=
  match h with
  | c :: _ =>
      if N.eqb (code c) 91 then
        match cut_last "]"%char h with
        | None => false
        | Some (a, b) =>
            port_ok b &&
            match cut_zone a with
            | Some (x, y) => unescapes MHost x && unescapes MZone y && unescapes MHost ("]"%char :: b)
            | None => unescapes MHost h
            end
        end
      else match cut_last ":"%char h with Some (_, b) => port_ok (":"%char :: b) | None => true end && unescapes MHost h
  | [] => true
  end.
(* net/url validUserinfo; under http/ws/handler.go:65,96 *)
Definition user_ok (s : bytes) : bool := forallb (fun c => is_letter c || is_digit c || one_of (B "-._:~!$&'()*+,;=%@") c) s.
(* net/url parseAuthority: whether it returns no error; an unescape of the parts of user info is one of the whole; under http/ws/handler.go:65,96 *)
Definition parseAuthority (a : bytes) : bool :=
  match cut_last "@"%char a with
  | None => parseHost a
  | Some (u, h) =>
      parseHost h && user_ok u && match cut ":"%char u with None => unescapes MPath u | Some (n, p) => unescapes MPath n && unescapes MPath p end
  end.
(* net/url ParseRequestURI: whether it returns no error; under http/ws/handler.go:65,96 *)
Definition parses (s : bytes) : bool :=
  if has_ctl s then false
  else if beqb s [] then false
  else if beqb s (B "*") then true
  else
    match scheme_loop [] s with
    | None => false
    | Some sch =>
        let scheme := match sch with Some _ => true | None => false end in
        let rest := match sch with Some (_, r) => r | None => s end in
        let rest := match cut "?"%char rest with Some (a, _) => a | None => rest end in
        match rest with
        | c :: r =>
            if negb (N.eqb (code c) 47) then scheme
            else
              match r with
              | c2 :: auth =>
                  if scheme && N.eqb (code c2) 47 then
                    match cut "/"%char auth with
                    | Some (a, p) => parseAuthority a && unescapes MPath ("/"%char :: p)
                    | None => parseAuthority auth
                    end
                  else unescapes MPath rest
              | [] => true
              end
        | [] => scheme
        end
    end.

(* strings.ToLower of ASCII text; x/net/websocket hybi.go ReadHandshake, under http/ws/handler.go:74,105.  (Other letters are left alone
   here; of those, only the Kelvin sign becomes a letter of "websocket".) *)
Definition lower (s : bytes) : bytes := map (fun c => if ((65 <=? code c) && (code c <=? 90))%N then chr (code c + 32) else c) s.
(* strings.HasPrefix; under http/ws/handler.go:74,105 *)
Fixpoint starts (w s : bytes) : bool :=
  match w, s with [], _ => true | x :: w', c :: r => N.eqb (code x) (code c) && starts w' r | _, [] => false end.
(* strings.Contains; under http/ws/handler.go:74,105 *)
Fixpoint contains (w s : bytes) : bool := starts w s || match s with [] => false | _ :: r => contains w r end.
(* the number of commas: strings.Split gives one part more; under http/ws/handler.go:74,105 *)
Fixpoint commas (s : bytes) : nat := match s with [] => 0 | c :: r => (if N.eqb (code c) 44 then 1 else 0) + commas r end.

(* x/net/websocket hybi.go ReadHandshake: the status and no error, None: the error with the status; config.Protocol has as many texts
   as the header has parts; under http/ws/handler.go:74,105 *)
Definition ReadHandshake (q : req) : nat + N :=
  if negb (beqb (q_method q) (B "GET")) then inr 405%N
  else if negb (beqb (lower (q_upgrade q)) (B "websocket")) || negb (contains (B "upgrade") (lower (q_connection q))) then inr 400%N
  else if beqb (q_key q) [] then inr 400%N
  else if negb (beqb (q_version q) (B "13")) then inr 400%N
  else if negb (parses ((if q_tls q then B "wss" else B "ws") ++ B "://" ++ q_host q ++ q_uri q)) then inr 400%N
  else inl (if beqb (q_protocol q) [] then 0 else S (commas (q_protocol q))).
(* x/net/websocket Origin: None an error, Some false nil; under http/ws/handler.go:65,96 *)
Definition Origin (q : req) : option bool :=
  if beqb (q_origin q) [] then Some false else if parses (q_origin q) then Some true else None.
(* http/ws/handler.go:64-70 and 95-101 Handshake: whether it returns no error *)
Definition Handshake (q : req) : bool := match Origin q with Some true => true | _ => false end.
(* http/ws/handler.go:31,80 Server, with x/net/websocket server.go newServerConn and hybi.go AcceptHandshake *)
Definition serve (q : req) : answer :=
  match ReadHandshake q with
  | inr code => Status code
  | inl protocols =>
      if negb (Handshake q) then Status 403
      else if 1 <? protocols then Status 400
      else Open
  end.
