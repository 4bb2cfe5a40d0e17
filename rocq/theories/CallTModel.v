(* Model of CallHandler (/repo/http/call.go:13-62) as to time: reading the body of a request with utils.ReadAll (/repo/utils/io.go:13-41) under a context with
   timeout, beside the read deadline of the server (/repo/http/server.go:107). *)
From Coq Require Import ZArith Bool Ascii List.
Import ListNotations.
Open Scope Z_scope.

(* http/call.go:13-18, as far as it is about time and length *)
Record CallHandler := CH { MaxLength : Z; ReadTimeout : Z }.
(* time.Second, in the nanoseconds of a time.Duration *)
Definition Second : Z := 1000000000.
(* http/call.go:20-25 *)
Definition readTimeout (h : CallHandler) : Z := if ReadTimeout h >? 0 then ReadTimeout h else 30 * Second.
(* http/server.go:107: net/http lets the reading of a whole request take so long *)
Definition serverTimeout : Z := 30 * Second.

(* what a read of the body ended with; utils/io.go:23-27 *)
Inductive rd := REof | RErr.
(* the goroutine of ReadAll: at c.Err() (utils/io.go:22), in Read (line 23), it has put something in the channel (line 25), it has left *)
Inductive gor := Check | Reading | Put (r : rd) | Left.
(* the goroutine of the request: in the select of ReadAll (utils/io.go:32), in Handler that was called at this time (http/call.go:44), Handler has returned
   and its reply was sent, the request was answered with 400 without Handler (http/call.go:41,48) *)
Inductive mn := Select | Handling (at_ : Z) | Replied (at_ : Z) | Refused.
(* now: time since the handler of the server was called; body: what the client has sent of the body, and wire: of this what is not read; fin: this is all of it;
   broken: the connection is; gone: the context of the request is done, ended: the one with timeout is; out: the buffer of ReadAll *)
Record st := St { now : Z; body : list ascii; wire : list ascii; fin : bool; broken : bool; gone : bool; ended : bool; out : list ascii; g : gor; main : mn }.
(* at the start of the handler (http/call.go:28-39); some of the body may have been sent with the head of the request *)
Definition start (b : list ascii) (f : bool) : st := St 0 b b f false false false [] Check Select.

(* who makes a step *)
Inductive who := Time | Client | Outside | Server | Func.
Section Steps.
  (* spent: how long the head of the request took *)
  Context (h : CallHandler) (spent : Z).
  (* Left out: Close of the body waits for a Read that is in progress (utils/io.go:17); the reading of what is buffered after a deadline is allowed. *)
  Inductive step : who -> st -> st -> Prop :=
  (* time passes *)
  | t_tick s d : 0 < d -> step Time s (St (now s + d) (body s) (wire s) (fin s) (broken s) (gone s) (ended s) (out s) (g s) (main s))
  (* the client sends a part of the body, or has sent all, or the connection breaks *)
  | c_send s b : fin s = false -> step Client s (St (now s) (body s ++ b) (wire s ++ b) false (broken s) (gone s) (ended s) (out s) (g s) (main s))
  | c_fin s : step Client s (St (now s) (body s) (wire s) true (broken s) (gone s) (ended s) (out s) (g s) (main s))
  | c_break s : step Outside s (St (now s) (body s) (wire s) (fin s) true (gone s) (ended s) (out s) (g s) (main s))
  (* the context of the request ends (http/call.go:29), and with it the one made of it *)
  | c_gone s : step Outside s (St (now s) (body s) (wire s) (fin s) (broken s) true true (out s) (g s) (main s))
  (* http/call.go:31: the timer *)
  | t_fire s : readTimeout h <= now s -> step Server s (St (now s) (body s) (wire s) (fin s) (broken s) (gone s) true (out s) (g s) (main s))
  (* utils/io.go:22 *)
  | g_check s : g s = Check -> step Server s (St (now s) (body s) (wire s) (fin s) (broken s) (gone s) (ended s) (out s) (if ended s then Left else Reading) (main s))
  (* utils/io.go:21,23,28: some bytes *)
  | g_read s a b : g s = Reading -> wire s = a ++ b -> a <> [] -> Z.of_nat (length a) <= 8192 ->
      step Server s (St (now s) (body s) b (fin s) (broken s) (gone s) (ended s) (out s ++ a) Check (main s))
  (* utils/io.go:23-26: the last bytes may come with io.EOF, then they are dropped *)
  | g_last s : g s = Reading -> fin s = true -> Z.of_nat (length (wire s)) <= 8192 ->
      step Server s (St (now s) (body s) [] true (broken s) (gone s) (ended s) (out s) (Put REof) (main s))
  (* utils/io.go:23-26: the connection is broken, the deadline of the server is over (http/server.go:107), the body was closed (utils/io.go:17) *)
  | g_fail s : g s = Reading -> broken s = true \/ serverTimeout - spent <= now s \/ main s <> Select ->
      step Server s (St (now s) (body s) (wire s) (fin s) (broken s) (gone s) (ended s) (out s) (Put RErr) (main s))
  (* utils/io.go:33-34, http/call.go:40-41,47-49 *)
  | m_done s : main s = Select -> ended s = true -> step Server s (St (now s) (body s) (wire s) (fin s) (broken s) (gone s) true (out s) (g s) Refused)
  (* utils/io.go:35-37, http/call.go:44; nothing looks at MaxLength *)
  | m_eof s : main s = Select -> g s = Put REof -> step Server s (St (now s) (body s) (wire s) (fin s) (broken s) (gone s) (ended s) (out s) Left (Handling (now s)))
  (* utils/io.go:39, http/call.go:40-41,32 *)
  | m_err s : main s = Select -> g s = Put RErr -> step Server s (St (now s) (body s) (wire s) (fin s) (broken s) (gone s) true (out s) Left Refused)
  (* http/call.go:44-45,32: Handler returns *)
  | m_return s t : main s = Handling t -> step Func s (St (now s) (body s) (wire s) (fin s) (broken s) (gone s) true (out s) (g s) (Replied t)).
  (* any number of steps, by those who may *)
  Inductive steps (may : who -> Prop) : st -> st -> Prop :=
  | none s : steps may s s
  | more s1 s2 s3 x : steps may s1 s2 -> may x -> step x s2 s3 -> steps may s1 s3.
End Steps.
