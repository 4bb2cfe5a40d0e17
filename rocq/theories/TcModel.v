(* Model of /repo/http/ws/test.go, the test client, over the machine of /repo/http/ws (WsModel), and of the form in which frames are
   sent (http/ws/conn.go:72-74). *)
From Coq Require Import Bool Ascii String Arith NArith ZArith List.
From Verif Require Import Prelude Utf8Model DecModel DurModel EncModel JsonModel CtxModel ErrModel MarModel WsModel WsSpec.
Import ListNotations.

(* ---- frames as nodes ---- *)
(* a field that is left out if it is empty (enc/handler.go:292-315, http/ws/channel.go:62-73) *)
Definition opt_field (name json : bytes) (n : node) : list (bytes * bytes * node) :=
  if is_empty n then [] else [((name, json), n)].
(* enc.Marshal of a Frame, http/ws/conn.go:73, http/ws/channel.go:62-73; Data is marshalled to itself, nil to Nil (enc/handler.go:175-196) *)
Definition frame_node (f : frame) : node :=
  NPairs (opt_field (B "Channel") (B "channel") (NStr (f_chan f)) ++ opt_field (B "Path") (B "path") (NStr (f_path f)) ++
          ((B "Type", B "type"), NStr (f_type f)) :: opt_field (B "Data") (B "data") (match f_data f with Some n => n | None => NNil end)).
(* Conn.Send over a real connection: the text of the message; http/ws/conn.go:72-74, http/ws/ws.go:40-41 *)
Definition wire (f : frame) : res bytes := Encode false false (frame_node f).
(* Data after enc.Marshal and enc.Unmarshal, http/ws/test.go:37,47-50: what was left out is nil, the rest is as it was *)
Definition arrived (d : option node) : option node :=
  match d with Some n => if is_empty n then None else Some n | None => None end.
(* a frame after that *)
Definition arrive (f : frame) : frame := Frame (f_chan f) (f_path f) (f_type f) (arrived (f_data f)).

(* ---- the test client ---- *)
(* an error of a call: from a frame of the server, http/ws/test.go:100; from the callback, http/ws/test.go:107-113 *)
Inductive result := RNil | RRemote (n : node) | RBack (e : N).
(* a call of the function that Open returned: it waits, has returned, or has returned because its context is done;
   http/ws/test.go:116-130 *)
Inductive kst := KWait | KRet (r : result) | KGone.
(* see above; with the channel and the path *)
Record tcall := TCallRec { k_chan : bytes; k_path : bytes; k_st : kst }.
Section Client.
  Context {V A H : Type}.
  Context (user_msg : N -> bytes) (status_text : Z -> bytes) (user_node : N -> res node) (reg : @registry V A H).
  (* t_rpc, t_live: the connection of the server, and whether its Loop runs.  t_in: frames sent to it.  t_out: frames that the server
     writes, the first of them is being written if t_half, with its result already in the channel ech.  t_ech: by channel the content of
     ech, which has room for one.  t_calls: all calls, oldest first.  t_open: the map byChan is being written.  http/ws/test.go:12-21,92-137.
     That t_in has room for ten frames only, so that Send has to wait, is not modelled. *)
  Record tst := Tst { t_rpc : @rpc V A H; t_live : bool; t_in : list frame; t_out : list frame; t_half : bool;
                      t_ech : list (bytes * option result); t_calls : list tcall; t_open : bool }.
  (* http/ws/test.go:60-72 NewTest *)
  Definition tinit (h : H) : tst := Tst (Rpc [] [] h []) true [] [] false [] [] false.
  (* TOpen1, TOpen2: Open, before and after writing the map.  TCall: a call is made.  TServe: the server handles a frame.  TPush, TBack:
     the server writes a frame; the result of the callback onData.  TTake: a call gets its result.  TGone: its context is done.
     TShut: Close.  TStop: the context of the server is done.  TEnv: what the objects share is changed. *)
  Inductive tlabel :=
  | TOpen1 | TOpen2 (ch path : bytes) (data : option node) | TCall (ch path : bytes) (data : option node)
  | TServe | TPush | TBack (r : option N) | TTake (k : nat) | TGone (k : nat) | TShut | TStop | TEnv (h : H).
  (* what is in ech after a send that does not wait; http/ws/test.go:102-105,109-112 *)
  Definition offer (m : list (bytes * option result)) (ch : bytes) (r : result) : list (bytes * option result) :=
    match mget beqb m ch with Some None => mset beqb m ch (Some r) | _ => m end.
  (* the k-th call in another state (http/ws/test.go:125-130) *)
  Fixpoint set_call (k : nat) (x : kst) (l : list tcall) : list tcall :=
    match k, l with
    | _, [] => []
    | 0, c :: r => TCallRec (k_chan c) (k_path c) x :: r
    | S k, c :: r => c :: set_call k x r
    end.
  (* the frames sent between two states of the server, oldest first; http/ws/conn.go:72-74 *)
  Definition news (s s' : @rpc V A H) : list frame := skipn (length (sent (r_log s))) (sent (r_log s')).
  (* http/ws/test.go:99-100 *)
  Definition result_of (d : option node) : result := match arrived d with None => RNil | Some n => RRemote n end.

  (* One atomic step.  A step that is not possible in the state leaves it unchanged.  A panic ends the program. *)
  Definition tstep (s : tst) (l : tlabel) : res tst :=
    match l with
    (* http/ws/test.go:95: a map that is written by two goroutines at once ends the program *)
    | TOpen1 => if t_open s then Panic else Ok (Tst (t_rpc s) (t_live s) (t_in s) (t_out s) (t_half s) (t_ech s) (t_calls s) true)
    (* http/ws/test.go:93-95,131-136; chID is new *)
    | TOpen2 ch path data =>
        match t_open s, mget beqb (t_ech s) ch with
        | true, None =>
            Ok (Tst (t_rpc s) (t_live s) (t_in s ++ [Frame ch path (B "open") data]) (t_out s) (t_half s) (mset beqb (t_ech s) ch None) (t_calls s) false)
        | _, _ => Ok s
        end
    (* http/ws/test.go:116-124 *)
    | TCall ch path data =>
        match mget beqb (t_ech s) ch with
        | Some _ => Ok (Tst (t_rpc s) (t_live s) (t_in s ++ [Frame ch path [] data]) (t_out s) (t_half s) (t_ech s) (t_calls s ++ [TCallRec ch path KWait]) (t_open s))
        | None => Ok s
        end
    (* http/ws/conn.go:53-68: the frames it sends are written before it goes on; a panic outside of a method is not recovered *)
    | TServe =>
        match t_live s, t_out s, t_in s with
        | true, [], f :: r =>
            match onFrame user_msg status_text user_node reg (t_rpc s) (arrive f) with
            | FNil s' => Ok (Tst s' true r (news (t_rpc s) s') false (t_ech s) (t_calls s) (t_open s))
            | FError s' => Ok (Tst s' false r (news (t_rpc s) s') false (t_ech s) (t_calls s) (t_open s))
            | FDies _ => Panic
            end
        | _, _, _ => Ok s
        end
    (* http/ws/test.go:43-57,95-106: a map that is read while it is written ends the program *)
    | TPush =>
        match t_half s, t_out s with
        | false, f :: r =>
            if t_open s then Panic
            else match mget beqb (t_ech s) (f_chan f) with
                 | None => Ok (Tst (t_rpc s) (t_live s) (t_in s) r false (t_ech s) (t_calls s) false)
                 | Some _ =>
                     Ok (Tst (t_rpc s) (t_live s) (t_in s) (f :: r) true
                       (if beqb (f_type f) (B "return") || beqb (f_type f) (B "error") then offer (t_ech s) (f_chan f) (result_of (f_data f)) else t_ech s)
                       (t_calls s) false)
                 end
        | _, _ => Ok s
        end
    (* http/ws/test.go:107-114 *)
    | TBack r =>
        match t_half s, t_out s with
        | true, f :: rest =>
            Ok (Tst (t_rpc s) (t_live s) (t_in s) rest false
              (match r with Some e => offer (t_ech s) (f_chan f) (RBack e) | None => t_ech s end) (t_calls s) (t_open s))
        | _, _ => Ok s
        end
    (* http/ws/test.go:125-127 *)
    | TTake k =>
        match nth_error (t_calls s) k with
        | Some (TCallRec ch _ KWait) =>
            match mget beqb (t_ech s) ch with
            | Some (Some r) =>
                Ok (Tst (t_rpc s) (t_live s) (t_in s) (t_out s) (t_half s) (mset beqb (t_ech s) ch None) (set_call k (KRet r) (t_calls s)) (t_open s))
            | _ => Ok s
            end
        | _ => Ok s
        end
    (* http/ws/test.go:128-129 *)
    | TGone k =>
        match nth_error (t_calls s) k with
        | Some (TCallRec ch _ KWait) => Ok (Tst (t_rpc s) (t_live s) (t_in s) (t_out s) (t_half s) (t_ech s) (set_call k KGone (t_calls s)) (t_open s))
        | _ => Ok s
        end
    (* http/ws/test.go:25-28,43-45,84-86: no frame is written any more *)
    | TShut =>
        Ok (Tst (if is_closed (t_rpc s) then t_rpc s else note (t_rpc s) TClosed) (t_live s) (t_in s)
              (if t_half s then firstn 1 (t_out s) else []) (t_half s) (t_ech s) (t_calls s) (t_open s))
    (* http/ws/conn.go:54-55 *)
    | TStop => match t_out s with [] => Ok (Tst (t_rpc s) false (t_in s) [] (t_half s) (t_ech s) (t_calls s) (t_open s)) | _ => Ok s end
    (* the fields of the registered object are shared, http/ws/reflect.go:27 *)
    | TEnv h =>
        Ok (Tst (Rpc (r_chans (t_rpc s)) (r_objs (t_rpc s)) h (r_log (t_rpc s))) (t_live s) (t_in s) (t_out s) (t_half s) (t_ech s) (t_calls s) (t_open s))
    end.
  (* a schedule (http/ws/test.go:60-137) *)
  Fixpoint texec (s : tst) (ls : list tlabel) : res tst :=
    match ls with [] => Ok s | l :: rest => rbind (tstep s l) (fun s1 => texec s1 rest) end.
End Client.
Arguments tst : clear implicits.
