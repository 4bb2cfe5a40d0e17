(* Model of the calls of Client of /repo/http/client.go: Get, Post and API, with the connections that net/http keeps for them. *)
From Coq Require Import Bool Arith ZArith List.
From Verif Require Import Prelude.
Import ListNotations.

(* the calls modelled: http/client.go:25 Get, 45 Post, 75 API *)
Inductive kind := KGet | KPost | KApi.
(* What http.Client.Do has for the request (http/client.go:63): an error, or the response that is not informational and not a
   redirect that it follows.  The body as the server sends it; false: the connection breaks after these bytes. *)
Inductive answer := NoAnswer | Answer (status : Z) (body : bytes) (whole : bool).
(* what the caller gets (http/client.go:36,71,108): the content, an Error with the status, another error *)
Inductive result := ROk (b : bytes) | RStatus (status : Z) | RFail.
(* Where a call stands.  Ready: before http.Client.Do has a connection.  Sent: the request is out.  Got: Do of http/client.go:62-73
   returned the response without an error.  Read: io.ReadAll has returned (http/client.go:36,57; api/json.go:31).  Over: returned. *)
Inductive stage := Ready | Sent | Got (status : Z) (body : bytes) (whole : bool) | Read (r : option bytes) | Over (r : result).
(* a call: its context (http/client.go:26), whether it occupies a connection *)
Record call := Call { c_kind : kind; c_ctx : nat; c_stage : stage; c_held : bool }.
(* The program: how many connections it can have at a time (of those that are idle net/http closes or uses one, http/client.go:63), the
   calls in the order in which they began, the contexts that are done *)
Record st := St { limit : nat; calls : list call; dones : list nat }.
(* no call so far (http/client.go:18) *)
Definition init (n : nat) : st := St n [] [].

(* The responses for which net/http has http.NoBody and gives the connection back at once (http/client.go:63): by their status, and
   those without content *)
Definition nobody (status : Z) (body : bytes) (whole : bool) : bool :=
  (status =? 204)%Z || (status =? 304)%Z || (whole && match body with [] => true | _ => false end).
(* http/client.go:68: the statuses without an error *)
Definition good (status : Z) : bool := (status =? 200)%Z || (status =? 204)%Z.
(* the context is done (http/client.go:26) *)
Definition is_done (s : st) (c : nat) : bool := existsb (Nat.eqb c) (dones s).
(* how many connections are taken (http/client.go:63) *)
Definition taken (s : st) : nat := length (filter c_held (calls s)).

(* what happens: a call begins, gets a connection or not, gets its answer, reads the body (false: fails), closes it and returns; a
   context becomes done (http/client.go:25-126) *)
Inductive label := LCall (k : kind) (c : nat) | LDial (i : nat) | LAnswer (i : nat) (a : answer) | LRead (i : nat) (ok : bool)
                 | LClose (i : nat) | LCancel (c : nat).

(* the call i becomes x (http/client.go:25-126) *)
Definition set (s : st) (i : nat) (x : call) : st := St (limit s) (firstn i (calls s) ++ x :: skipn (S i) (calls s)) (dones s).

Section Client.
  (* whether Data.ReadFrom and Recv accept what was read (http/client.go:115,121; see HttpModel.client_reply) *)
  Context (use : bytes -> bool).
  (* one step; None: not possible *)
  Definition step (s : st) (l : label) : option st :=
    match l with
    (* http/client.go:25,45,75 *)
    | LCall k c => Some (St (limit s) (calls s ++ [Call k c Ready false]) (dones s))
    (* http/client.go:63: net/http gets a connection, or fails as the context is done or there is none *)
    | LDial i =>
        match nth_error (calls s) i with
        | Some (Call k c Ready h) =>
            if is_done s c || (limit s <=? taken s) then Some (set s i (Call k c (Over RFail) false))
            else Some (set s i (Call k c Sent true))
        | _ => None
        end
    (* http/client.go:63-72: with an error the connection is given up.  32, 53, 108: on an error of Do the callers return, the response
       is dropped; that of a done context is closed by net/http *)
    | LAnswer i a =>
        match nth_error (calls s) i with
        | Some (Call k c Sent h) =>
            match a with
            | NoAnswer => Some (set s i (Call k c (Over RFail) false))
            | Answer z b w =>
                if (z <? 200)%Z then None
                else
                  let h' := h && negb (nobody z b w) in
                  if good z then
                    match k with
                    (* 107-109 *)
                    | KApi => if (z =? 204)%Z then Some (set s i (Call k c (Over (ROk [])) h')) else Some (set s i (Call k c (Got z b w) h'))
                    | _ => Some (set s i (Call k c (Got z b w) h'))
                    end
                  else Some (set s i (Call k c (Over (RStatus z)) h'))
            end
        | _ => None
        end
    (* 35-37, 56-58, 111: at the end of the body, and when reading fails, net/http takes the connection back *)
    | LRead i ok =>
        match nth_error (calls s) i with
        | Some (Call k c (Got z b w) h) =>
            if nobody z b w then if ok then Some (set s i (Call k c (Read (Some [])) h)) else None
            else if ok then if w then Some (set s i (Call k c (Read (Some b)) false)) else None
            else if negb w || is_done s c then Some (set s i (Call k c (Read None) false)) else None
        | _ => None
        end
    (* 36, 57: the deferred Close.  112-118: without it when ReadFrom fails *)
    | LClose i =>
        match nth_error (calls s) i with
        | Some (Call k c (Read r) h) =>
            match k, r with
            | _, None => Some (set s i (Call k c (Over RFail) (match k with KApi => h | _ => false end)))
            | KApi, Some b => if use b then Some (set s i (Call k c (Over (ROk b)) false)) else Some (set s i (Call k c (Over RFail) h))
            | _, Some b => Some (set s i (Call k c (Over (ROk b)) false))
            end
        | _ => None
        end
    (* net/http closes the connections of requests whose context is done *)
    | LCancel c =>
        Some (St (limit s) (map (fun x => if Nat.eqb (c_ctx x) c then Call (c_kind x) (c_ctx x) (c_stage x) false else x) (calls s)) (c :: dones s))
    end.
  (* any order of steps (http/client.go:25-126) *)
  Fixpoint exec (s : st) (ls : list label) : option st :=
    match ls with [] => Some s | l :: r => match step s l with Some s' => exec s' r | None => None end end.
End Client.
