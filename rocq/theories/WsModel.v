(* Model of /repo/http/ws: conn.go, ws.go, rpc.go, channel.go, handler.go and reflect.go. *)
From Coq Require Import Bool Ascii String Arith NArith ZArith List.
From Verif Require Import Prelude Utf8Model DecModel DurModel EncModel JsonModel CtxModel ErrModel MarModel.
Import ListNotations.

(* ---- Conn.Loop ---- *)
(* What the peer sends: a frame with this payload (text or binary), the other kinds of frames, or an error of the connection,
   after which nothing comes.  http/ws/ws.go:72-121. *)
Inductive wframe := WText (j : bytes) | WContinuation | WClose | WPing | WPong | WOther (kind : N) | WBroken.
(* wsImpl.Read (http/ws/ws.go:64-70): a node (nil for no text), an error, or a panic *)
Inductive rd := RNode (n : option node) | RFail | RPanic.
(* http/ws/ws.go:64-121; cancelled: c.Err() is not nil *)
Definition wsRead (cancelled : bool) (w : wframe) : rd :=
  match w with
  | WBroken => RFail
  | _ =>
      if cancelled then RFail
      else match w with
           | WText j => match Decode j with Good n => RNode n | _ => RFail end
           | WContinuation | WClose | WBroken => RFail
           | WPing | WPong | WOther _ => RPanic
           end
  end.

(* what a handler does: returns nil, an error, or panics; http/ws/conn.go:60 *)
Inductive hres := HNil | HError | HPanic.
(* What happened: the handler was called with a node, it ended; the frame "disconnect" was sent; the connection was closed; Loop
   returned (or panicked).  http/ws/conn.go:51-67. *)
Inductive event := EStart (n : option node) | EEnd (n : option node) (r : hres) | EDisconnect | EClose | EReturn.
Section Loop.
  (* the handler and all it changes; http/ws/conn.go:16 *)
  Context {hstate : Type} (handle : hstate -> option node -> hstate * hres).
  (* the goroutine of http/ws/conn.go:28-50: in Read, waiting to pass on a node, ended (the inbox is closed) *)
  Inductive reader := InRead | Have (n : option node) | Ended.
  (* http/ws/conn.go:52-69: waiting in the select, in the handler, returned *)
  Inductive loop := Waiting | Handling (n : option node) | Over.
  (* input: what the peer still sends; cancelled: c is done; hs: the state of the handler; log: newest first *)
  Record st := St { input : list wframe; rdr : reader; lp : loop; cancelled : bool; hs : hstate; log : list event }.
  (* http/ws/conn.go:26-52 *)
  Definition start (i : list wframe) (h : hstate) : st := St i InRead Waiting false h [].
  (* LRead: Read returns the next frame.  LReadFail: Read fails, because the connection was closed or broke.  LPass: the node goes
     through the inbox, and the handler is called.  LDrop: the goroutine sees that c is done.  LFinish: the handler ends; sendable: if it returned an error, enc.MustMarshal of
     it (line 64) does not panic.  LCancel: c
     becomes done.  LDone, LEof: Loop sees that c is done, or that the inbox is closed.  LClose: somebody calls Close; reads may go
     on, as frames can be in the buffer. *)
  Inductive label := LRead | LReadFail | LPass | LDrop | LFinish (sendable : bool) | LCancel | LDone | LEof | LClose.
  (* One atomic step.  An impossible one leaves the state unchanged.  A panic of the goroutine ends the program; one of the handler
     does not (net/http recovers), but ends Loop, with the deferred Close (http/ws/conn.go:51). *)
  Definition step (s : st) (l : label) : res st :=
    match l with
    (* http/ws/conn.go:31-42 *)
    | LRead =>
        match rdr s, input s with
        | InRead, w :: i =>
            match wsRead (cancelled s) w with
            | RNode n => Ok (St i (Have n) (lp s) (cancelled s) (hs s) (log s))
            | RFail => Ok (St i Ended (lp s) (cancelled s) (hs s) (log s))
            | RPanic => Panic
            end
        | _, _ => Ok s
        end
    (* http/ws/conn.go:31-40 *)
    | LReadFail => match rdr s with InRead => Ok (St (input s) Ended (lp s) (cancelled s) (hs s) (log s)) | _ => Ok s end
    (* http/ws/conn.go:43,56-60 *)
    | LPass =>
        match rdr s, lp s with
        | Have n, Waiting => Ok (St (input s) InRead (Handling n) (cancelled s) (hs s) (EStart n :: log s))
        | _, _ => Ok s
        end
    (* http/ws/conn.go:44-46 *)
    | LDrop => match rdr s with Have _ => if cancelled s then Ok (St (input s) Ended (lp s) true (hs s) (log s)) else Ok s | _ => Ok s end
    (* http/ws/conn.go:60-67 *)
    | LFinish sendable =>
        match lp s with
        | Handling n =>
            match handle (hs s) n with
            | (h, HNil) => Ok (St (input s) (rdr s) Waiting (cancelled s) h (EEnd n HNil :: log s))
            | (h, HError) => Ok (St (input s) (rdr s) Over (cancelled s) h (EReturn :: EClose :: (if sendable then [EDisconnect] else []) ++ EEnd n HError :: log s))
            | (h, HPanic) => Ok (St (input s) (rdr s) Over (cancelled s) h (EReturn :: EClose :: EEnd n HPanic :: log s))
            end
        | _ => Ok s
        end
    | LCancel => Ok (St (input s) (rdr s) (lp s) true (hs s) (log s))
    (* http/ws/conn.go:54-55 *)
    | LDone =>
        match lp s with
        | Waiting => if cancelled s then Ok (St (input s) (rdr s) Over true (hs s) (EReturn :: EClose :: log s)) else Ok s
        | _ => Ok s
        end
    (* http/ws/conn.go:56-58 *)
    | LEof =>
        match lp s, rdr s with
        | Waiting, Ended => Ok (St (input s) Ended Over (cancelled s) (hs s) (EReturn :: EClose :: log s))
        | _, _ => Ok s
        end
    (* http/ws/conn.go:21-23 *)
    | LClose => Ok (St (input s) (rdr s) (lp s) (cancelled s) (hs s) (EClose :: log s))
    end.
  (* a schedule *)
  Fixpoint exec (s : st) (ls : list label) : res st :=
    match ls with [] => Ok s | l :: rest => rbind (step s l) (fun s1 => exec s1 rest) end.
End Loop.
Arguments st : clear implicits.

(* ---- registering ---- *)
(* http/ws/channel.go:62-72 *)
Record frame := Frame { f_chan : bytes; f_path : bytes; f_type : bytes; f_data : option node }.
Section Rpc.
  (* field values, arguments of methods, and what is not part of an object: what its fields point to *)
  Context {V A H : Type}.
  (* What a method does with ws.C (http/ws/channel.go:79-99).  The channel itself is not accessible outside of the package. *)
  Inductive act := AReply (path : bytes) (n : node) | AClose.
  (* what a method returns, or a panic; http/ws/reflect.go:82-94 *)
  Inductive mout := MNil | MError (e : gerr) | MPanic.
  (* A method: how its argument is unmarshalled (http/ws/reflect.go:74-81; an error of enc.Unmarshal), and what it does with the
     fields of its object. *)
  Record meth := Meth { m_dec : option node -> A + gerr; m_run : list V -> H -> A -> list V * H * list act * mout }.
  (* reflect.Method: the name, how many arguments with the receiver, whether the second is a ws.C; http/ws/reflect.go:131-156 *)
  Record gmeth := GMeth { g_name : bytes; g_in : nat; g_ctx : bool; g_meth : meth }.
  (* A field: exported or not, the zero value of its type, the value in the registered object, reflect.Value.IsZero.  The object is
     shared with those who registered it: its value can change. *)
  Record gfield := GField { gf_exported : bool; gf_zero : V; gf_value : H -> V; gf_iszero : V -> bool }.
  (* What is registered: a pointer to a struct, a struct, a pointer to something else (or nil), or something else;
     http/ws/reflect.go:104-111,119 *)
  Inductive gobj := GPtr (name : bytes) (fields : list gfield) (methods : list gmeth) | GStruct (name : bytes) | GOtherPtr | GOther.
  (* http/ws/reflect.go:14-20,64-68,97-100: a field with index, value and whether it is exported.  The reflect.Value refers to the
     field of the registered object (line 121): it is read when it is used (line 27). *)
  Record builder := Builder { b_name : bytes; b_zero : list V; b_fields : list (nat * (H -> V) * bool); b_init : option meth; b_methods : list (bytes * meth) }.
  (* http/ws/reflect.go:166-171; strings.ToLower of the first byte: what is not ASCII alone is not UTF-8, and becomes U+FFFD *)
  Definition toLowerFirst (s : bytes) : bytes :=
    match s with
    | [] => []
    | c :: r => (if (65 <=? code c)%N && (code c <=? 90)%N then [chr (code c + 32)] else if (code c <? 128)%N then [c] else [chr 239; chr 191; chr 189]) ++ r
    end.
  (* http/ws/reflect.go:119-128 *)
  Fixpoint inits (h : H) (i : nat) (fs : list gfield) : list (nat * (H -> V) * bool) :=
    match fs with
    | [] => []
    | f :: r => (if gf_iszero f (gf_value f h) then [] else [(i, gf_value f, gf_exported f)]) ++ inits h (S i) r
    end.
  (* http/ws/reflect.go:131-162: exposed, and not Init *)
  Definition exposed (m : gmeth) : bool := ((g_in m =? 2) || (g_in m =? 3)) && g_ctx m.
  (* see above *)
  Definition is_init (m : gmeth) : bool := beqb (g_name m) (B "Init").
  (* http/ws/reflect.go:102-164 *)
  Definition inspect (h : H) (o : gobj) : res (option builder) :=
    match o with
    | GOther => Ok None
    | GStruct _ => Panic     (* line 108: the value in an interface is not addressable *)
    | GOtherPtr => Panic     (* line 119: no fields *)
    | GPtr name fs ms =>
        let e := filter exposed ms in
        Ok (Some (Builder (toLowerFirst name) (map gf_zero fs) (inits h 0 fs)
          (last (map (fun m => Some (g_meth m)) (filter is_init e)) None)
          (map (fun m => (toLowerFirst (g_name m), g_meth m)) (filter (fun m => negb (is_init m)) e))))
    end.
  (* the RpcHandler's byPath; http/ws/handler.go:17-19 *)
  Definition registry := list (bytes * builder).
  (* http/ws/handler.go:114-136; None is an error *)
  Definition Register (h : H) (r : registry) (o : gobj) : res (option registry) :=
    match inspect h o with
    | Panic => Panic
    | Ok None => Ok None
    | Ok (Some b) => Ok (Some (mset beqb r (b_name b) b))
    end.

  (* ---- RpcConn ---- *)
  (* http/ws/channel.go:12-16 *)
  Record chan := Chan { ch_id : bytes; ch_obj : nat; ch_byPath : list (bytes * meth) }.
  (* What was done: an object of a registered path was made for a channel, its Init returned, a method with this name was called on an object for a
     frame, a frame was sent, the connection was closed.  http/ws/reflect.go:24,31,42, http/ws/conn.go:21-23,72-74. *)
  Inductive trace := TNew (ch path : bytes) (o : nat) | TReady (ch path : bytes) (o : nat) | TCall (ch : bytes) (o : nat) (m : bytes)
    | TSent (f : frame) | TClosed.
  (* the channels by id (http/ws/rpc.go:15), all objects ever made, what they share, what was done (newest first) *)
  Record rpc := Rpc { r_chans : list (bytes * chan); r_objs : list (list V); r_heap : H; r_log : list trace }.
  (* http/ws/conn.go:72-74, http/ws/ws.go:39-62: after Close it is an error, and nothing is sent; http/ws/conn.go:21-23 *)
  Definition is_closed (s : rpc) : bool := existsb (fun t => match t with TClosed => true | _ => false end) (r_log s).
  (* see above *)
  Definition note (s : rpc) (t : trace) : rpc := Rpc (r_chans s) (r_objs s) (r_heap s) (t :: r_log s).
  (* see above *)
  Definition send (s : rpc) (f : frame) : rpc := if is_closed s then s else note s (TSent f).
  (* http/ws/channel.go:79-99 *)
  Definition do_act (id : bytes) (s : rpc) (a : act) : rpc :=
    match a with AReply path n => send s (Frame id path [] (Some n)) | AClose => if is_closed s then s else note s TClosed end.
  (* other error types and status texts, as in ErrModel, and enc.MustMarshal of another error type *)
  Context (user_msg : N -> bytes) (status_text : Z -> bytes) (user_node : N -> res node).
  (* enc.MustMarshal of an error, http/ws/reflect.go:48: enc/handler.go:176-193,277-318.  No field of the errors of the standard
     library is exported; http/error.go:18-21. *)
  Fixpoint merr (e : gerr) : res node :=
    match e with
    | ECtx _ e' | ECtxP _ _ e' => Ok (NStr (emsg user_msg status_text e'))
    | EBase _ _ | EWrap _ _ _ | EWraps _ _ _ | EEOD | EGate _ => Ok (NPairs [])
    | EHttp c o | EHttpP _ c o =>
        rbind (match o with None => Ok NNil | Some e' => merr e' end)
          (fun n => Ok (NPairs [((B "Code", B "Code"), NInt c); ((B "Err", B "Err"), n)]))
    | EUser p _ => user_node p
    end.
  (* http/ws/reflect.go:70-95, for object o on channel id; name: the method, None for Init *)
  Definition call (s : rpc) (id : bytes) (o : nat) (name : option bytes) (m : meth) (req : option node) : rpc * mout :=
    match m_dec m req, nth_error (r_objs s) o with
    | inr e, _ => (s, MError e)
    | inl a, None => (s, MPanic)
    | inl a, Some fs =>
        match m_run m fs (r_heap s) a with
        | (fs', h', acts, out) =>
            let s1 := Rpc (r_chans s) (upd (r_objs s) o fs') h' (match name with Some n => TCall id o n :: r_log s | None => r_log s end) in
            (fold_left (do_act id) acts s1, out)
        end
    end.
  (* the result of onFrame: nil, an error, or a panic *)
  Inductive fres := FNil (s : rpc) | FError (s : rpc) | FDies (s : rpc).
  (* http/ws/reflect.go:23-62 and http/ws/handler.go:120-134: the channel is stored first, and its methods are set after Init; an
     error of build is ignored (line 128-133).  Setting a field that is not exported panics (line 27); which fields of that new object
     were set before cannot be seen. *)
  Definition open (s : rpc) (b : builder) (f : frame) : fres :=
    let id := f_chan f in let o := length (r_objs s) in
    let s1 := Rpc (mset beqb (r_chans s) id (Chan id o [])) (r_objs s) (r_heap s) (r_log s) in
    let fs := fold_left (fun l x => upd l (fst (fst x)) (snd (fst x) (r_heap s))) (b_fields b) (b_zero b) in
    let s2 := Rpc (r_chans s1) (r_objs s1 ++ [fs]) (r_heap s1) (TNew id (f_path f) o :: r_log s1) in
    if existsb (fun x => negb (snd x)) (b_fields b) then FDies s2
    else
      match (match b_init b with None => (s2, MNil) | Some m => call s2 id o None m (f_data f) end) with
      | (s3, MNil) => FNil (Rpc (mset beqb (r_chans s3) id (Chan id o (b_methods b))) (r_objs s3) (r_heap s3) (TReady id (f_path f) o :: r_log s3))
      | (s3, MError _) => FNil s3
      | (s3, MPanic) => FDies s3
      end.
  (* the method under a name: the last one that was put there; http/ws/reflect.go:38-59 *)
  Definition byPath (l : list (bytes * meth)) (p : bytes) : option meth := mget beqb (rev l) p.
  (* ctx.NewErrorf(c, "ws[%s|%s]: %v", id, name, err).Error(); http/ws/reflect.go:50 *)
  Definition call_error (id name : bytes) (e : gerr) : bytes := B "ws[" ++ id ++ B "|" ++ name ++ B "]: " ++ emsg user_msg status_text e.
  (* http/ws/channel.go:28-60 with http/ws/reflect.go:41-58 *)
  Definition onData (s : rpc) (ch : chan) (f : frame) : fres :=
    match byPath (ch_byPath ch) (f_path f) with
    | None => FError s
    | Some m =>
        match call s (ch_id ch) (ch_obj ch) (Some (f_path f)) m (f_data f) with
        | (s1, MNil) => FNil (send s1 (Frame (ch_id ch) (f_path f) (B "return") None))
        | (s1, MError e) =>
            match merr e with
            | Panic => FError s1
            | Ok n =>
                let s2 := send s1 (Frame (ch_id ch) (f_path f) (B "return") (Some n)) in
                FNil (send s2 (Frame (ch_id ch) [] (B "error") (Some (NStr (call_error (ch_id ch) (f_path f) e)))))
            end
        | (s1, MPanic) => FError s1
        end
    end.
  Context (reg : registry).
  (* http/ws/rpc.go:36-58 *)
  Definition onFrame (s : rpc) (f : frame) : fres :=
    if beqb (f_type f) (B "close") then if is_closed s then FError s else FNil (note s TClosed)
    else if beqb (f_type f) (B "new") || beqb (f_type f) (B "open") then
      match mget beqb reg (f_path f) with Some b => open s b f | None => FError s end
    else match mget beqb (r_chans s) (f_chan f) with Some ch => onData s ch f | None => FError s end.
  (* http/ws/channel.go:19-26 Channel.Close.  Nothing calls it, and nothing outside of the package can. *)
  Definition channelClose (s : rpc) (ch : chan) : rpc :=
    send (Rpc (mdel beqb (r_chans s) (ch_id ch)) (r_objs s) (r_heap s) (r_log s)) (Frame (ch_id ch) [] (B "close") None).
  (* enc.Unmarshal into a Frame (http/ws/rpc.go:26-30): the texts as in MarModel, and any node for Data (enc/handler.go:103-109) *)
  Context (f2i f2u : floatv -> Z).
  Definition frame_ty : ty :=
    TStruct [(Fld (B "Channel") true (B "channel,omitempty"), TStr); (Fld (B "Path") true (B "path,omitempty"), TStr); (Fld (B "Type") true (B "type"), TStr)].
  (* see above; None is an error *)
  Definition frame_of (n : option node) : option frame :=
    let n' := match n with Some x => x | None => NNil end in
    match Unmarshal f2i f2u None frame_ty n' (zero frame_ty) with
    | (UOk (VStruct [VStr c; VStr p; VStr t]), _) => Some (Frame c p t (match n' with NMap l => mget beqb l (B "data") | _ => None end))
    | _ => None
    end.
  (* http/ws/rpc.go:25-32, as the handler of Loop *)
  Definition rpc_handle (s : rpc) (n : option node) : rpc * hres :=
    match frame_of n with
    | None => (s, HError)
    | Some f => match onFrame s f with FNil s1 => (s1, HNil) | FError s1 => (s1, HError) | FDies s1 => (s1, HPanic) end
    end.
End Rpc.
