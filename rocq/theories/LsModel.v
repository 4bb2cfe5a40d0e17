(* Model of Server.Listen of /repo/http/server.go: the goroutines that it starts, with net/http's Server, over the machine of
   /repo/shutdown (ShutModel). *)
From Coq Require Import Bool Arith ZArith List.
From Verif Require Import Prelude ReqModel.
From Verif Require ShutModel.
Import ListNotations.

(* Where the goroutine of http/server.go:122-135 stands.  GStart: before shutdown.Hold.  GHeld: before Serve registers the listener.
   GLoop: registered, before the first Accept.  GAccept: in Accept.  GRet: Serve has returned.  GOver: the hold is released. *)
Inductive gpc := GStart | GHeld | GLoop | GAccept | GRet | GOver.
(* Where the goroutine of http/server.go:137-142 stands.  WNew: waits for the shutdown.  WIn: Shutdown has set inShutdown.
   WWait: it has closed the listeners and waits for Serve.  WPoll: it closes idle connections until there is none.  WOver: over *)
Inductive wpc := WNew | WIn | WWait | WPoll | WOver.
(* A connection that was accepted: without a request so far, in a handler, between two requests, closed (http/server.go:131 Serve) *)
Inductive cst := CNew | CActive | CIdle | CClosed.
(* A call of Listen (http/server.go:96-146): the two goroutines, whether ch is written and Listen has returned, inShutdown of
   http.Server, whether the listener is open, the connections *)
Record srv := Srv { v_go : gpc; v_sd : wpc; v_ch : bool; v_ret : bool; v_in : bool; v_open : bool; v_conns : list cst }.
(* The program: the package shutdown and the calls of Listen, for which net.Listen succeeded (http/server.go:96) *)
Record pst := Pst { sh : ShutModel.st; srvs : nat -> option srv }.
(* no call of Listen so far (http/server.go:96) *)
Definition pinit : pst := Pst ShutModel.init (fun _ => None).

(* the processes of the machine of shutdown that take and release the hold of Listen i (http/server.go:123) *)
Definition hid (i : nat) : nat := 3 * i.
(* as above (http/server.go:123) *)
Definition rid (i : nat) : nat := 3 * i + 1.
(* the processes of everyone else (http/server.go:123) *)
Definition other (r : nat) : bool := Nat.eqb (r mod 3) 2.
(* a step of everyone else (http/server.go:123,138) *)
Definition outside (l : ShutModel.label) : bool :=
  match l with
  | ShutModel.LTick _ | ShutModel.LTimer _ | ShutModel.LSignal => true
  | ShutModel.LBegin r | ShutModel.LBeginStep r | ShutModel.LHold r _ | ShutModel.LHoldGo r | ShutModel.LDone r | ShutModel.LWait r
  | ShutModel.LAcquire r | ShutModel.LCloseD r | ShutModel.LSigWait r | ShutModel.LSigDone r | ShutModel.LSigTake r => other r
  | ShutModel.LRelease r h => other r && other h
  | ShutModel.LRelEnd r => true
  | ShutModel.LSigLoop w d => other w && other d
  end.

(* the steps of one server that leave the package shutdown alone, see vstep *)
Inductive vlabel :=
| VServe | VFirst | VConn | VClosedL | VFailL | VReturn
| VStarted | VCloseLn | VGroup | VPoll (old : nat -> bool) | VQuiet | VTimeout
| VRequest (c : nat) | VAnswer (c : nat).
(* the steps, see pstep *)
Inductive plabel := Sh (l : ShutModel.label) | VListen (i : nat) | VHold (i : nat) | VRel (i : nat) | V (i : nat) (l : vlabel).

(* bookkeeping (http/server.go:96-146) *)
Definition set_srv (s : pst) (i : nat) (v : srv) : pst := Pst (sh s) (fset (srvs s) i (Some v)).
(* setters of a call of Listen (http/server.go:96-146) *)
Definition go_to (v : srv) (g : gpc) : srv := Srv g (v_sd v) (v_ch v) (v_ret v) (v_in v) (v_open v) (v_conns v).
(* as above (http/server.go:96-146) *)
Definition sd_to (v : srv) (w : wpc) : srv := Srv (v_go v) w (v_ch v) (v_ret v) (v_in v) (v_open v) (v_conns v).
(* as above (http/server.go:96-146) *)
Definition shut_ln (v : srv) : srv := Srv (v_go v) (v_sd v) (v_ch v) (v_ret v) (v_in v) false (v_conns v).
(* as above (http/server.go:96-146) *)
Definition set_conns (v : srv) (l : list cst) : srv := Srv (v_go v) (v_sd v) (v_ch v) (v_ret v) (v_in v) (v_open v) l.
(* the c-th connection in another state (http/server.go:131) *)
Fixpoint upd (c : nat) (x : cst) (l : list cst) : list cst :=
  match c, l with
  | _, [] => []
  | 0, _ :: r => x :: r
  | S c, y :: r => y :: upd c x r
  end.
(* closeIdleConns: idle ones, and those that have had no request for five seconds (old); http/server.go:141 *)
Fixpoint close_idle (k : nat) (old : nat -> bool) (l : list cst) : list cst :=
  match l with
  | [] => []
  | x :: r => match x with CIdle => CClosed | CNew => if old k then CClosed else CNew | _ => x end :: close_idle (S k) old r
  end.

(* One atomic step of a server; started says whether the shutdown has begun.  A step that is not possible in the state leaves it
   unchanged.  net/http is that of Go 1.20. *)
Definition vstep (started : bool) (v : srv) (l : vlabel) : srv :=
  match l with
  (* http/server.go:131: Serve registers the listener, or closes it and returns ErrServerClosed if Shutdown was called *)
  | VServe => match v_go v with GHeld => if v_in v then shut_ln (go_to v GRet) else go_to v GLoop | _ => v end
  (* http/server.go:127-129,155-158: the first Accept writes to ch *)
  | VFirst => match v_go v with GLoop => Srv GAccept (v_sd v) true (v_ret v) (v_in v) (v_open v) (v_conns v) | _ => v end
  (* http/server.go:157: Accept returns a connection; Serve starts a goroutine for it *)
  | VConn => match v_go v with GAccept => if v_open v then set_conns v (v_conns v ++ [CNew]) else v | _ => v end
  (* http/server.go:157: Accept fails as the listener is closed, and Serve returns *)
  | VClosedL => match v_go v with GAccept => if v_open v then v else go_to v GRet | _ => v end
  (* http/server.go:157: Accept fails for another reason that is not temporary; Serve closes the listener and returns *)
  | VFailL => match v_go v with GAccept => shut_ln (go_to v GRet) | _ => v end
  (* http/server.go:145 *)
  | VReturn => if v_ch v then Srv (v_go v) (v_sd v) (v_ch v) true (v_in v) (v_open v) (v_conns v) else v
  (* http/server.go:138-141: the shutdown has begun; Shutdown sets inShutdown *)
  | VStarted =>
      match v_sd v with
      | WNew => if started then Srv (v_go v) WIn (v_ch v) (v_ret v) true (v_open v) (v_conns v) else v
      | _ => v
      end
  (* http/server.go:141: Shutdown closes the listener if it is registered *)
  | VCloseLn =>
      match v_sd v with
      | WIn => match v_go v with GLoop | GAccept => shut_ln (sd_to v WWait) | _ => sd_to v WWait end
      | _ => v
      end
  (* http/server.go:141: Serve is not running, Shutdown goes on to the connections *)
  | VGroup => match v_go v, v_sd v with (GStart | GHeld | GRet | GOver), WWait => sd_to v WPoll | _, _ => v end
  (* http/server.go:141: it closes connections without a request *)
  | VPoll old => match v_sd v with WPoll => set_conns v (close_idle 0 old (v_conns v)) | _ => v end
  (* http/server.go:141-142: no connection is left *)
  | VQuiet =>
      match v_sd v with
      | WPoll => if forallb (fun x => match x with CClosed => true | _ => false end) (v_conns v) then sd_to v WOver else v
      | _ => v
      end
  (* http/server.go:139-142: 30 seconds have passed, or c is cancelled *)
  | VTimeout => match v_sd v with WPoll => sd_to v WOver | _ => v end
  (* http/server.go:131: a request comes on connection c and its handler starts *)
  | VRequest c =>
      match nth_error (v_conns v) c with
      | Some CNew | Some CIdle => set_conns v (upd c CActive (v_conns v))
      | _ => v
      end
  (* http/server.go:131: the handler returns; the connection is kept unless Shutdown was called *)
  | VAnswer c =>
      match nth_error (v_conns v) c with
      | Some CActive => set_conns v (upd c (if v_in v then CClosed else CIdle) (v_conns v))
      | _ => v
      end
  end.
(* One atomic step of the program (http/server.go:96-146) *)
Definition pstep (s : pst) (l : plabel) : res pst :=
  if ShutModel.exited (sh s) then Ok s else
  match l with
  | Sh l => if outside l then rbind (ShutModel.step (sh s) l) (fun t => Ok (Pst t (srvs s))) else Ok s
  (* http/server.go:115-145: net.Listen has succeeded, the goroutines are started *)
  | VListen i => match srvs s i with None => Ok (set_srv s i (Srv GStart WNew false false false true [])) | Some _ => Ok s end
  (* http/server.go:123 Hold *)
  | VHold i =>
      match srvs s i with
      | Some v => match v_go v with
                  | GStart => rbind (ShutModel.step (sh s) (ShutModel.LHold (hid i) false)) (fun t => Ok (set_srv (Pst t (srvs s)) i (go_to v GHeld)))
                  | _ => Ok s
                  end
      | None => Ok s
      end
  (* http/server.go:123: the deferred Release *)
  | VRel i =>
      match srvs s i with
      | Some v => match v_go v with
                  | GRet => rbind (ShutModel.step (sh s) (ShutModel.LRelease (rid i) (hid i))) (fun t => Ok (set_srv (Pst t (srvs s)) i (go_to v GOver)))
                  | _ => Ok s
                  end
      | None => Ok s
      end
  (* http/server.go:122-158 *)
  | V i l => match srvs s i with Some v => Ok (set_srv s i (vstep (ShutModel.ch (sh s)) v l)) | None => Ok s end
  end.
(* a schedule: any list of steps (http/server.go:96-146) *)
Fixpoint pexec (s : pst) (ls : list plabel) : res pst :=
  match ls with
  | [] => Ok s
  | l :: rest => rbind (pstep s l) (fun s1 => pexec s1 rest)
  end.
