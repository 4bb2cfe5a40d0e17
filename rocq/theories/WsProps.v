(* C46-C48, C85-C91: websocket connections and their channels. *)
From Coq Require Import Bool Ascii String Arith NArith ZArith List Lia.
From Verif Require Import Prelude PreludeFacts Utf8Model DecModel DurModel DurProofs KvProofs EncModel JsonModel CtxModel ErrModel MarModel WsModel WsSpec WsProofs WsRpc WsReg.
Import ListNotations.

(* ---- C46: frames are handled in order, one at a time ---- *)
(* Under every schedule, the messages given to the handler are the first of those that the peer sent, in the same order. *)
Theorem C46_order : forall (S : Type) (handle : S -> option node -> S * hres) i h0 ls s,
  exec handle (start i h0) ls = Ok s -> prefix (starts (log s)) (msgs i).
Proof.
  intros S handle i h0 ls s E. destruct (linv_exec handle i h0 ls s E) as ((rest & H1 & _) & _). eexists. exact H1.
Qed.
Print Assumptions C46_order.
(* Whenever the handler is called, all calls before have returned, all of them nil, and Loop has not returned. *)
Theorem C46_serial : forall (S : Type) (handle : S -> option node -> S * hres) i h0 ls s,
  exec handle (start i h0) ls = Ok s ->
  forall l1 n l2, log s = l1 ++ EStart n :: l2 ->
  starts l2 = map fst (ends l2) /\ (forall m r, In (m, r) (ends l2) -> r = HNil) /\ ~ In EReturn l2.
Proof. intros S handle i h0 ls s E. destruct (linv_exec handle i h0 ls s E) as (_ & _ & _ & _ & _ & Hs). exact Hs. Qed.
Print Assumptions C46_serial.
(* The state of the handler is that after calling it with these messages one after the other. *)
Theorem C46_state : forall (S : Type) (handle : S -> option node -> S * hres) i h0 ls s,
  exec handle (start i h0) ls = Ok s ->
  called handle h0 (map fst (ends (log s))) = (hs s, map snd (ends (log s))) /\ prefix (map fst (ends (log s))) (starts (log s)).
Proof. intros S handle i h0 ls s E. destruct (linv_exec handle i h0 ls s E) as (_ & H2 & H3 & _). split; [exact H3|]. eexists. exact H2. Qed.
Print Assumptions C46_state.
(* If the context is not cancelled and no read fails but for what the peer sends, Loop returns only after an error of the handler or
   when all messages were given to it. *)
Theorem C46_all : forall (S : Type) (handle : S -> option node -> S * hres) i h0 ls s,
  Forall (fun l => l <> LReadFail /\ l <> LCancel) ls -> exec handle (start i h0) ls = Ok s -> In EReturn (log s) ->
  (exists m r, In (m, r) (ends (log s)) /\ r <> HNil) \/ starts (log s) = msgs i.
Proof. exact @loop_all. Qed.
Print Assumptions C46_all.
(* "none after Close" is false: a frame that arrived already is handled after the connection was closed *)
Theorem C46_close_refuted : forall (S : Type) (handle : S -> option node -> S * hres) h0 h1 h2 a b n m,
  Decode a = Good n -> Decode b = Good m -> handle h0 n = (h1, HNil) -> handle h1 m = (h2, HNil) ->
  exists ls s, exec handle (start [WText a; WText b] h0) ls = Ok s /\ log s = [EEnd m HNil; EStart m; EEnd n HNil; EClose; EStart n].
Proof.
  intros S handle h0 h1 h2 a b n m Ha Hb H1 H2. exists [LRead; LPass; LClose; LFinish true; LRead; LPass; LFinish true]. unfold start.
  cbn [exec step rbind rdr input lp cancelled hs log wsRead]. rewrite Ha. cbn [exec step rbind rdr input lp cancelled hs log wsRead]. rewrite H1.
  cbn [exec step rbind rdr input lp cancelled hs log wsRead]. rewrite Hb. cbn [exec step rbind rdr input lp cancelled hs log wsRead]. rewrite H2. cbn [rbind]. eexists. split; reflexivity.
Qed.
Print Assumptions C46_close_refuted.
(* a counter of messages that fails on the third: the fourth is not handled *)
Example C46_ex :
  let handle (k : nat) (_ : option node) := (k + 1, if k =? 2 then HError else HNil) in
  let i := [WText (B "1"); WText (B "2"); WText (B "3"); WText (B "4"); WClose] in
  match exec handle (start i 0) [LRead; LPass; LRead; LFinish true; LPass; LRead; LFinish true; LPass; LRead; LFinish true; LPass; LFinish true; LRead] with
  | Ok s => starts (log s) = [Some (NDigits (B "1")); Some (NDigits (B "2")); Some (NDigits (B "3"))] /\ length (msgs i) = 4 /\ In EReturn (log s) /\ In EDisconnect (log s) /\ hs s = 3
  | Panic => False
  end.
Proof. vm_compute. repeat split; auto. Qed.

(* ---- C85: what a peer sends does not stop the server ---- *)
Theorem C85_no_panic_partial : forall (S : Type) (handle : S -> option node -> S * hres) i h0 ls,
  (forall w, In w i -> ~ unsupported w) -> exec handle (start i h0) ls <> Panic.
Proof. intros S handle i h0 ls Hi. now apply exec_no_panic. Qed.
Print Assumptions C85_no_panic_partial.
(* A ping, a pong or a frame of an unknown kind stops the whole program, also after messages that were handled. *)
Theorem C85_ping_refuted : forall (S : Type) (handle : S -> option node -> S * hres) a w b h0,
  (forall x, In x a -> exists j n, x = WText j /\ Decode j = Good n) -> (forall h n, snd (handle h n) = HNil) -> unsupported w ->
  exists ls, exec handle (start (a ++ w :: b) h0) ls = Panic.
Proof.
  intros S handle a w b h0 Ha Hn Hw. destruct (read_all handle a (w :: b) h0 Ha (start (a ++ w :: b) h0) eq_refl eq_refl eq_refl eq_refl eq_refl Hn) as (ls & s & E & Hi & Hr & Hl & Hc).
  exists (ls ++ [LRead]). rewrite exec_app, E. cbn [rbind exec step]. rewrite Hr, Hi, Hc. destruct w; cbn in Hw; try tauto; reflexivity.
Qed.
Print Assumptions C85_ping_refuted.
Example C85_ex : exec (fun (s : nat) (_ : option node) => (s, HNil)) (start [WText (B "1"); WPing] 0) [LRead; LPass; LFinish true; LRead] = Panic /\
  (forall w, In w [WText (B "1"); WContinuation; WClose] -> ~ unsupported w).
Proof. split; [reflexivity|]. intros w [<-|[<-|[<-|[]]]]; cbn; tauto. Qed.

(* ---- C91: the goroutine of Loop ends ---- *)
(* Once the context is done the goroutine is two steps from its end, in every state. *)
Theorem C91_ends_partial : forall (S : Type) (handle : S -> option node -> S * hres) i h0 ls s,
  exec handle (start i h0) ls = Ok s -> cancelled s = true -> exists s', exec handle (start i h0) (ls ++ [LDrop; LReadFail]) = Ok s' /\ rdr s' = Ended.
Proof. intros S handle i h0 ls s E Hc. rewrite exec_app, E. cbn [rbind]. now apply reader_ends. Qed.
Print Assumptions C91_ends_partial.
(* Until then it does not, even if Loop returned: it waits to pass on a message. *)
Theorem C91_leak_refuted : forall (S : Type) (handle : S -> option node -> S * hres) h0 h1 a b n m,
  Decode a = Good n -> Decode b = Good m -> handle h0 n = (h1, HError) ->
  exists ls s, exec handle (start [WText a; WText b] h0) ls = Ok s /\ In EReturn (log s) /\
    forall ls' s', ~ In LCancel ls' -> exec handle s ls' = Ok s' -> rdr s' = Have m.
Proof.
  intros S handle h0 h1 a b n m Ha Hb H1. exists [LRead; LPass; LRead; LFinish true]. unfold start.
  cbn [exec step rbind rdr input lp cancelled hs log wsRead]. rewrite Ha. cbn [exec step rbind rdr input lp cancelled hs log wsRead]. rewrite Hb.
  cbn [exec step rbind rdr input lp cancelled hs log wsRead]. rewrite H1. cbn [rbind]. eexists. split; [reflexivity|]. split; [now left|].
  intros ls' s' Hl E. eapply reader_stuck; [| | |exact Hl|exact E]; reflexivity.
Qed.
Print Assumptions C91_leak_refuted.
Example C91_ex : match exec (fun (k : nat) (_ : option node) => (k, HError)) (start [WText (B "1"); WText (B "2")] 0) [LRead; LPass; LRead; LFinish true; LCancel; LDrop; LReadFail] with
  | Ok s => rdr s = Ended /\ cancelled s = true | Panic => False end.
Proof. vm_compute. auto. Qed.

(* ---- C47: a channel only reaches its own object ---- *)
Section Rpc.
  Context {V A H : Type} (user_msg : N -> bytes) (status_text : Z -> bytes) (user_node : N -> res node).
  Notation onFrame := (onFrame user_msg status_text user_node).
  Notation reach := (reach user_msg status_text user_node).
  Notation frames := (frames user_msg status_text user_node).
  Implicit Types (s : @rpc V A H) (reg : @registry V A H).

  (* What a frame calls: only for a request, only the method it names, and on the object its channel has. *)
  Theorem C47_own : forall reg s f d x o m, reach reg s -> r_log (after (onFrame reg s f)) = d ++ r_log s -> In (TCall x o m) d ->
    request f = true /\ x = f_chan f /\ m = f_path f /\ exists p, owner (r_log s) x = Some (p, o).
  Proof.
    intros reg s f d x o m Hs E Hin. destruct (frame_grows user_msg status_text user_node reg s f Hs) as (d' & E' & Hd). rewrite E in E'. apply app_inv_tail in E'. subst d'.
    rewrite Forall_forall in Hd. destruct (Hd _ Hin) as [[]|[[_ [Hx|Hx]]|[Hr (p & o' & Ho & Hx)]]]; try discriminate. injection Hx as -> -> ->. eauto.
  Qed.
  (* No object has two channels. *)
  Theorem C47_distinct : forall reg s x p y q o, reach reg s -> owner (r_log s) x = Some (p, o) -> owner (r_log s) y = Some (q, o) -> x = y.
  Proof. intros reg s x p y q o. apply owner_distinct. Qed.
  (* A frame leaves the other channels with their objects and methods, and these objects unchanged. *)
  Theorem C47_isolated : forall reg s f y, reach reg s -> y <> f_chan f ->
    mget beqb (r_chans (after (onFrame reg s f))) y = mget beqb (r_chans s) y /\ owner (r_log (after (onFrame reg s f))) y = owner (r_log s) y /\
    forall p o, owner (r_log s) y = Some (p, o) -> nth_error (r_objs (after (onFrame reg s f))) o = nth_error (r_objs s) o.
  Proof. intros reg s f y. apply frame_isolated. Qed.
  (* A request runs the method of that name of the registered type, on the object of the channel. *)
  Theorem C47_called : forall reg s f p o b m a fs fs' h' acts out,
    reach reg s -> request f = true -> owner (r_log s) (f_chan f) = Some (p, o) -> mget beqb reg p = Some b ->
    byPath (b_methods b) (f_path f) = Some m -> m_dec m (f_data f) = inl a -> nth_error (r_objs s) o = Some fs -> m_run m fs (r_heap s) a = (fs', h', acts, out) ->
    nth_error (r_objs (after (onFrame reg s f))) o = Some fs' /\ r_heap (after (onFrame reg s f)) = h' /\
    exists d, r_log (after (onFrame reg s f)) = d ++ TCall (f_chan f) o (f_path f) :: r_log s.
  Proof. intros reg s f p o b m a fs fs' h' acts out. apply request_object. Qed.
  (* An unknown channel, path or method ends the connection; nothing is called, sent or changed. *)
  Theorem C47_unknown : forall reg s f, reach reg s ->
    (request f = true /\ (owner (r_log s) (f_chan f) = None \/ exists p o b, owner (r_log s) (f_chan f) = Some (p, o) /\ mget beqb reg p = Some b /\ byPath (b_methods b) (f_path f) = None)) \/
    (opening f = true /\ mget beqb reg (f_path f) = None) ->
    onFrame reg s f = FError s.
  Proof.
    intros reg s f Hs [[Hr [Ho|(p & o & b & Ho & Hb & Hm)]]|[Ho Hp]].
    - now apply unknown_channel.
    - eapply no_method; eauto.
    - rewrite opening_onFrame by assumption. now rewrite Hp.
  Qed.
  (* "type" is false: a frame of an unknown type is a request like any other *)
  Theorem C47_type_refuted : forall reg s x p ty d, negb (beqb ty (B "close") || beqb ty (B "new") || beqb ty (B "open")) = true ->
    onFrame reg s (Frame x p ty d) = onFrame reg s (Frame x p [] d).
  Proof. intros reg s x p ty d Ht. rewrite !request_onFrame by (exact Ht || reflexivity). reflexivity. Qed.

  (* ---- C48: closing a channel ---- *)
  (* A close frame removes no channel; it closes the connection, and from then on nothing is answered on any channel. *)
  Theorem C48_close_refuted : forall reg s f, f_type f = B "close" -> is_closed s = false ->
    exists s', onFrame reg s f = FNil s' /\ r_chans s' = r_chans s /\ is_closed s' = true /\ forall g, sent (r_log (after (onFrame reg s' g))) = sent (r_log s').
  Proof.
    intros reg s f Ht Hc. exists (note s TClosed). rewrite frame_close by (rewrite Ht; reflexivity). rewrite Hc. repeat apply conj; try reflexivity. intros g. now apply closed_sent.
  Qed.
  (* Channel.Close removes that channel and no other *)
  Theorem C48_channel_partial : forall reg s ch f, NoDup (map fst (r_chans s)) -> request f = true ->
    (f_chan f = ch_id ch -> onFrame reg (channelClose s ch) f = FError (channelClose s ch)) /\
    (f_chan f <> ch_id ch -> mget beqb (r_chans (channelClose s ch)) (f_chan f) = mget beqb (r_chans s) (f_chan f)) /\
    r_objs (channelClose s ch) = r_objs s /\ (is_closed s = false -> sent (r_log (channelClose s ch)) = sent (r_log s) ++ [Frame (ch_id ch) [] (B "close") None]).
  Proof.
    intros reg s ch f Hn Hr. unfold channelClose. set (s1 := Rpc _ _ _ _). destruct (send_same s1 (Frame (ch_id ch) [] (B "close") None)) as (E1 & E2 & _). repeat apply conj.
    - intros Hf. rewrite request_onFrame by assumption. rewrite E1. unfold s1 at 1. cbn [r_chans]. rewrite Hf, (mget_mdel_eq beqb beqb_ok) by assumption. reflexivity.
    - intros Hf. rewrite E1. unfold s1. cbn [r_chans]. apply (mget_mdel_ne beqb beqb_ok). congruence.
    - rewrite E2. reflexivity.
    - intros Hc. now destruct (send_sent s1 (Frame (ch_id ch) [] (B "close") None) Hc) as [-> _].
  Qed.

  (* ---- C86: a failing Init ---- *)
  (* If the argument of Init cannot be read, the frame counts as handled; the client is told nothing. *)
  Theorem C86_silent_refuted : forall reg s f b m e, opening f = true -> mget beqb reg (f_path f) = Some b ->
    existsb (fun x => negb (snd x)) (b_fields b) = false -> b_init b = Some m -> m_dec m (f_data f) = inr e ->
    exists s', onFrame reg s f = FNil s' /\ sent (r_log s') = sent (r_log s).
  Proof.
    intros reg s f b m e Ho Hb He Hi Hd. rewrite opening_onFrame by assumption. rewrite Hb. unfold open. rewrite He, Hi. unfold call. rewrite Hd. eexists. split; reflexivity.
  Qed.
  (* But whether its argument cannot be read or Init itself fails: the frame counts as handled, nothing but replies of Init is sent, and
     no method can be called on the channel. *)
  Theorem C86_unusable_partial : forall reg s f b m e, reach reg s -> opening f = true -> mget beqb reg (f_path f) = Some b ->
    existsb (fun x => negb (snd x)) (b_fields b) = false -> b_init b = Some m ->
    (m_dec m (f_data f) = inr e \/ exists a, m_dec m (f_data f) = inl a /\ forall fs h, exists r, m_run m fs h a = (r, MError e)) ->
    exists s', onFrame reg s f = FNil s' /\ owner (r_log s') (f_chan f) = None /\
      (is_closed s' = false -> exists l, sent (r_log s') = sent (r_log s) ++ l /\ Forall (fun g => f_chan g = f_chan f /\ f_type g = []) l) /\
      forall g, request g = true -> f_chan g = f_chan f -> onFrame reg s' g = FError s'.
  Proof.
    intros reg s f b m e Hs Ho Hb He Hi Hx. pose proof (reach_frame user_msg status_text user_node reg s f Hs) as Hs'.
    assert (E : exists s', onFrame reg s f = FNil s' /\ owner (r_log s') (f_chan f) = None).
    { rewrite opening_onFrame by assumption. rewrite Hb. unfold open. rewrite He, Hi. set (s2 := Rpc _ _ _ _).
      assert (Ho2 : owner (r_log s2) (f_chan f) = None) by (unfold s2; cbn [r_log owner]; now rewrite beqb_refl).
      destruct (call s2 (f_chan f) (length (r_objs s)) None m (f_data f)) as [s3 out] eqn:Ec. destruct (call_spec _ _ _ _ _ _ _ _ Ec) as (_ & _ & _ & d & Ed & Hd).
      assert (Ho3 : owner (r_log s3) (f_chan f) = None).
      { rewrite Ed, owner_plain; [exact Ho2|]. eapply Forall_impl; [|exact Hd]. intros t [Ht|(n & En & _)]; [eapply quiet_plain; eauto|discriminate]. }
      assert (Hout : out = MError e).
      { unfold call in Ec. destruct Hx as [Hx|(a & Hx & Hrun)]; rewrite Hx in Ec; [congruence|]. unfold s2 in Ec. cbn [r_objs] in Ec. rewrite nth_error_app2, Nat.sub_diag in Ec by lia. cbn [nth_error] in Ec.
        match type of Ec with context [m_run m ?a1 ?a2 a] => destruct (Hrun a1 a2) as [[[x1 x2] x3] E1]; rewrite E1 in Ec end. congruence. }
      rewrite Hout. eauto. }
    destruct E as (s' & E & Ho'). rewrite E in Hs'. cbn [after] in Hs'. exists s'. repeat apply conj; auto.
    - intros Hc. rewrite opening_onFrame, Hb in E by assumption. pose proof (open_sent s b f) as Hsent. rewrite E in Hsent. exact (Hsent Hc).
    - intros g Hg Hgc. apply unknown_channel; auto. now rewrite Hgc.
  Qed.

  (* ---- C89: every request is answered ---- *)
  (* The return frames sent are for the requests received, in the same order, on the same channels and for the same methods. *)
  Theorem C89_answers_partial : forall reg h fs s, frames reg (Rpc [] [] h []) fs = Some s -> is_closed s = false ->
    map route (filter return_ (sent (r_log s))) = map route (filter request fs).
  Proof. intros reg h fs s E Hc. apply (frames_returns _ _ _ reg fs _ s (reach_start _ _ _ _ h) E Hc). Qed.
  (* For one request: replies of the method, the return frame, and after an error (and only then) its text. *)
  Theorem C89_order_partial : forall reg s f s', reach reg s -> request f = true -> onFrame reg s f = FNil s' -> is_closed s' = false ->
    exists replies ret rest, sent (r_log s') = sent (r_log s) ++ replies ++ ret :: rest /\
      Forall (fun g => f_chan g = f_chan f /\ f_type g = []) replies /\ f_type ret = B "return" /\ route ret = route f /\
      ((f_data ret = None /\ rest = []) \/ (f_data ret <> None /\ exists msg, rest = [Frame (f_chan f) [] (B "error") (Some (NStr msg))])).
  Proof.
    intros reg s f s' Hs Hr E Hc. destruct (owner (r_log s) (f_chan f)) as [[p o]|] eqn:Eo.
    - destruct (known_channel user_msg status_text user_node reg s f p o Hs Hr Eo) as (_ & b & _ & Ef & _). rewrite Ef in E. exact (onData_sent _ _ _ s _ f s' E Hc).
    - rewrite unknown_channel in E by assumption. discriminate.
  Qed.

  (* ---- C90: an error of a method does not end the connection ---- *)
  Theorem C90_open_partial : forall reg s f p o b m e, reach reg s -> request f = true -> owner (r_log s) (f_chan f) = Some (p, o) ->
    mget beqb reg p = Some b -> byPath (b_methods b) (f_path f) = Some m ->
    (m_dec m (f_data f) = inr e \/ exists a fs x, m_dec m (f_data f) = inl a /\ nth_error (r_objs s) o = Some fs /\ m_run m fs (r_heap s) a = (x, MError e)) ->
    marshalable user_node e -> exists s', onFrame reg s f = FNil s'.
  Proof. intros reg s f p o b m e Hs Hr Ho Hb Hm He. exact (proj1 (error_open user_msg status_text user_node reg s f p o b m e Hs Hr Ho Hb Hm He)). Qed.
  (* an error of a type that enc.Marshal does not know how to handle: *os.PathError, for its Err is a syscall.Errno, of kind uintptr *)
  Theorem C90_type_refuted : forall reg s f p o b m n c, reach reg s -> request f = true -> owner (r_log s) (f_chan f) = Some (p, o) ->
    mget beqb reg p = Some b -> byPath (b_methods b) (f_path f) = Some m -> user_node n = Panic ->
    (exists a fs x, m_dec m (f_data f) = inl a /\ nth_error (r_objs s) o = Some fs /\ m_run m fs (r_heap s) a = (x, MError (EUser n c))) ->
    exists s', onFrame reg s f = FError s'.
  Proof. intros reg s f p o b m n c Hs Hr Ho Hb Hm Hn He. apply (proj2 (error_open user_msg status_text user_node reg s f p o b m (EUser n c) Hs Hr Ho Hb Hm (or_intror He))). exact Hn. Qed.

  (* ---- C87: registered types can be opened ---- *)
  (* a struct that is not behind a pointer, or a pointer to something else: no error, but a panic *)
  Theorem C87_register_refuted : forall (h : H) reg n, Register h reg (GStruct n) = Panic /\ Register h reg GOtherPtr = Panic.
  Proof. intros h reg n. split; reflexivity. Qed.
  (* a field that is not exported and not zero: Register returns nil, but opening panics *)
  Theorem C87_unexported_refuted : forall (h : H) n ms z v s f p, lowered n p -> opening f = true -> f_path f = p ->
    exists r1, Register h [] (GPtr n [GField false z v (fun _ => false)] ms) = Ok (Some r1) /\ exists s', onFrame r1 s f = FDies s'.
  Proof.
    intros h n ms z v s f p Hp Ho Hf. eexists. split; [reflexivity|]. rewrite opening_onFrame by assumption. cbn [Register inspect mset mget b_name].
    rewrite Hf, (lowered_lower n p Hp), beqb_refl. unfold open. cbn. eauto.
  Qed.
  (* The object is not a copy of the registered one at the time of Register, nor at the time of opening. *)
  Theorem C87_time_refuted : forall (zero_ v1 v2 : V) (h1 h2 : H) (val1 val2 : H -> V) (isz : V -> bool) n s f p,
    isz zero_ = true -> isz v1 = false -> val1 h1 = v1 -> val1 h2 = v2 -> val2 h1 = zero_ -> val2 h2 = v2 ->
    lowered n p -> opening f = true -> f_path f = p -> r_heap s = h2 ->
    exists r1, Register h1 [] (GPtr n [GField true zero_ val1 isz; GField true zero_ val2 isz] []) = Ok (Some r1) /\
    exists s', onFrame r1 s f = FNil s' /\ nth_error (r_objs s') (length (r_objs s)) = Some [v2; zero_].
  Proof.
    intros zero_ v1 v2 h1 h2 val1 val2 isz n s f p Hz H1 E1 E2 E3 E4 Hp Ho Hf Hh. eexists. split; [reflexivity|]. rewrite opening_onFrame by assumption. cbn [Register inspect mset mget b_name].
    rewrite Hf, (lowered_lower n p Hp), beqb_refl. unfold open. cbn [b_fields b_zero b_init inits gf_iszero gf_value gf_exported gf_zero map filter last]. rewrite E1, E3, H1, Hz.
    cbn [app existsb snd negb orb fold_left fst upd]. rewrite Hh, E2. eexists. split; [reflexivity|]. cbn [r_objs]. rewrite nth_error_app2, Nat.sub_diag by lia. reflexivity.
  Qed.
  (* If all fields that are not zero are exported, and the registered object does not change, every channel opened gets a new object
     with the same fields, to which Init is applied. *)
  Theorem C87_copy_partial : forall (h : H) reg n fs ms reg1 p s f,
    Register h reg (GPtr n fs ms) = Ok (Some reg1) -> lowered n p ->
    (forall x, In x fs -> gf_exported x = true \/ gf_iszero x (gf_value x h) = true) ->
    (forall x v, In x fs -> gf_iszero x v = true -> v = gf_zero x) ->
    (forall x, In x fs -> gf_value x (r_heap s) = gf_value x h) ->
    (forall m, In m ms -> g_name m <> B "Init") ->
    opening f = true -> f_path f = p ->
    exists s', onFrame reg1 s f = FNil s' /\ owner (r_log s') (f_chan f) = Some (p, length (r_objs s)) /\
      r_objs s' = r_objs s ++ [map (fun x => gf_value x h) fs].
  Proof.
    intros h reg n fs ms reg1 p s f Hreg Hp Hex Hz Hsame Hno Ho Hf. destruct (Register_get h reg n fs ms reg1 p Hreg Hp) as (b & Hb & Hg).
    rewrite (open_fresh user_msg status_text user_node h reg1 n fs ms p s f b Hb Hg Hex Hz Hsame Ho Hf).
    destruct (inspect_ok h n fs ms) as (b' & Hb' & _ & _ & _ & _ & Hi & _). rewrite Hb in Hb'. injection Hb' as <-. rewrite (Hi Hno). eexists. split; [reflexivity|]. cbn [r_log r_objs owner]. rewrite beqb_refl. auto.
  Qed.
  Theorem C87_init_partial : forall (h : H) reg n fs ms reg1 p s f m a fs' h' acts,
    Register h reg (GPtr n fs ms) = Ok (Some reg1) -> lowered n p ->
    (forall x, In x fs -> gf_exported x = true \/ gf_iszero x (gf_value x h) = true) ->
    (forall x v, In x fs -> gf_iszero x v = true -> v = gf_zero x) ->
    (forall x, In x fs -> gf_value x (r_heap s) = gf_value x h) ->
    NoDup (map g_name ms) -> In m ms -> g_name m = B "Init" -> (g_in m = 2 \/ g_in m = 3) /\ g_ctx m = true ->
    opening f = true -> f_path f = p ->
    m_dec (g_meth m) (f_data f) = inl a -> m_run (g_meth m) (map (fun x => gf_value x h) fs) (r_heap s) a = (fs', h', acts, MNil) ->
    exists s', onFrame reg1 s f = FNil s' /\ owner (r_log s') (f_chan f) = Some (p, length (r_objs s)) /\ r_objs s' = r_objs s ++ [fs'] /\ r_heap s' = h'.
  Proof.
    intros h reg n fs ms reg1 p s f m a fs' h' acts Hreg Hp Hex Hz Hsame Hnd Hin Hm He Ho Hf Hd Hrun. destruct (Register_get h reg n fs ms reg1 p Hreg Hp) as (b & Hb & Hg).
    rewrite (open_fresh user_msg status_text user_node h reg1 n fs ms p s f b Hb Hg Hex Hz Hsame Ho Hf).
    destruct (inspect_ok h n fs ms) as (b' & Hb' & _ & _ & _ & Hi & _). rewrite Hb in Hb'. injection Hb' as <-. rewrite (Hi m Hnd Hin Hm He). unfold call. rewrite Hd. cbn [r_objs r_heap r_chans r_log].
    rewrite nth_error_app2, Nat.sub_diag by lia. cbn [nth_error]. unfold fresh_obj. rewrite Hrun. eexists. split; [reflexivity|]. cbn [r_log r_objs r_heap owner]. rewrite beqb_refl.
    match goal with |- context [fold_left (do_act ?i) acts ?s1] => destruct (acts_same i acts s1) as (_ & E2 & E3 & _) end. rewrite E2, E3. cbn [r_objs r_heap]. repeat apply conj; auto.
    now rewrite upd_app_r.
  Qed.

  (* ---- C88: what is registered can be reached ---- *)
  (* Types whose names start with an ASCII character are found under that name with the first letter in lower case, unless another is
     registered later for which that is the same; then all methods that take a ws.C, and possibly one argument, can be called under
     their names with the first letter in lower case, if all method names start with one of A-Z. *)
  Theorem C88_reachable_partial : forall (h : H) n fs ms l1 l2 reg p,
    register_all h [] (l1 ++ GPtr n fs ms :: l2) = Some reg -> lowered n p ->
    (forall n' fs' ms', In (GPtr n' fs' ms') l2 -> match n' with c :: _ => (code c < 128)%N | [] => True end /\ ~ lowered n' p) ->
    exists b, mget beqb reg p = Some b /\
      forall m q, NoDup (map g_name ms) -> (forall x, In x ms -> match g_name x with c :: _ => (65 <= code c <= 90)%N | [] => False end) ->
        In m ms -> g_name m <> B "Init" -> (g_in m = 2 \/ g_in m = 3) /\ g_ctx m = true -> lowered (g_name m) q -> byPath (b_methods b) q = Some (g_meth m).
  Proof.
    intros h n fs ms l1 l2 reg p E Hp Hl. destruct (register_all_get h n fs ms l1 l2 reg p E Hp Hl) as (b & Hb & Hg). exists b. split; [exact Hg|].
    destruct (inspect_ok h n fs ms) as (b' & Hb' & _ & _ & _ & _ & _ & Hm & _). rewrite Hb in Hb'. injection Hb' as <-. exact Hm.
  Qed.
  (* and no others: not Init, nor a method with other arguments *)
  Theorem C88_only : forall (h : H) reg n fs ms reg1 p b q x, Register h reg (GPtr n fs ms) = Ok (Some reg1) -> lowered n p -> mget beqb reg1 p = Some b ->
    byPath (b_methods b) q = Some x -> exists m, In m ms /\ g_name m <> B "Init" /\ ((g_in m = 2 \/ g_in m = 3) /\ g_ctx m = true) /\ g_meth m = x.
  Proof.
    intros h reg n fs ms reg1 p b q x Hreg Hp Hg Hx. destruct (Register_get h reg n fs ms reg1 p Hreg Hp) as (b0 & Hb & Hg'). rewrite Hg in Hg'. injection Hg' as <-.
    destruct (inspect_ok h n fs ms) as (b' & Hb' & _ & _ & _ & _ & _ & _ & Ho). rewrite Hb in Hb'. injection Hb' as <-. destruct (Ho q x Hx) as (m & H1 & H2 & H3 & _ & H4). eauto.
  Qed.
  (* Two types whose names only differ in the case of the first letter: the first one cannot be opened any more, without an error. *)
  Theorem C88_case_refuted : forall (h : H) fs ms fs' ms', exists reg b,
    register_all h [] [GPtr (B "Chat") fs ms; GPtr (B "chat") fs' ms'] = Some reg /\ map fst reg = [B "chat"] /\
    mget beqb reg (B "chat") = Some b /\ inspect h (GPtr (B "chat") fs' ms') = Ok (Some b).
  Proof. intros h fs ms fs' ms'. eexists _, _. repeat split; reflexivity. Qed.
  (* Methods with first letters other than ASCII (here É and Ή in UTF-8) can have the same name, which is not UTF-8. *)
  Theorem C88_ascii_refuted : forall (h : H) n fs (m1 m2 : @gmeth V A H) r, exposed m1 = true -> exposed m2 = true ->
    g_name m1 = [chr 0xC3; chr 0x89] ++ r -> g_name m2 = [chr 0xCE; chr 0x89] ++ r ->
    exists b, inspect h (GPtr n fs [m1; m2]) = Ok (Some b) /\ map fst (b_methods b) = [[chr 239; chr 191; chr 189; chr 0x89] ++ r; [chr 239; chr 191; chr 189; chr 0x89] ++ r] /\
      forall q x, byPath (b_methods b) q = Some x -> x = g_meth m2.
  Proof.
    intros h n fs m1 m2 r E1 E2 N1 N2.
    assert (F : filter (fun m => negb (is_init m)) (filter exposed [m1; m2]) = [m1; m2]).
    { cbn [filter]. rewrite E1, E2. cbn [filter]. unfold is_init. rewrite N1, N2.
      replace (beqb ([chr 0xC3; chr 0x89] ++ r) (B "Init")) with false by (symmetry; apply beqb_neq; discriminate).
      replace (beqb ([chr 0xCE; chr 0x89] ++ r) (B "Init")) with false by (symmetry; apply beqb_neq; discriminate). reflexivity. }
    eexists. split; [reflexivity|]. cbn [b_methods]. rewrite F. cbn [map fst]. rewrite N1, N2. split; [reflexivity|].
    intros q x. unfold byPath. cbn [map rev app mget].
    replace (toLowerFirst (chr 0xC3 :: chr 0x89 :: r)) with (toLowerFirst (chr 0xCE :: chr 0x89 :: r)) by reflexivity.
    destruct (beqb q _); [|discriminate]. congruence.
  Qed.
End Rpc.
Print Assumptions C47_own.
Print Assumptions C47_distinct.
Print Assumptions C47_isolated.
Print Assumptions C47_called.
Print Assumptions C47_unknown.
Print Assumptions C47_type_refuted.
Print Assumptions C48_close_refuted.
Print Assumptions C48_channel_partial.
Print Assumptions C86_silent_refuted.
Print Assumptions C86_unusable_partial.
Print Assumptions C87_register_refuted.
Print Assumptions C87_unexported_refuted.
Print Assumptions C87_time_refuted.
Print Assumptions C87_copy_partial.
Print Assumptions C87_init_partial.
Print Assumptions C88_reachable_partial.
Print Assumptions C88_only.
Print Assumptions C88_case_refuted.
Print Assumptions C88_ascii_refuted.
Print Assumptions C89_answers_partial.
Print Assumptions C89_order_partial.
Print Assumptions C90_open_partial.
Print Assumptions C90_type_refuted.

(* ---- a type with a counter N and a pointer to a number, which is what is shared ---- *)
Definition arg (d : option node) : nat + gerr :=
  match d with None => inl 0 | Some (NInt z) => inl (Z.to_nat z) | Some _ => inr (EBase 0 (B "not a number")) end.
Definition reply1 (k : nat) : list act := [AReply (B "value") (NInt (Z.of_nat k))].
Definition m_add := @Meth nat nat nat arg (fun fs h a => ([hd 0 fs + a], h, reply1 (hd 0 fs + a), MNil)).
Definition m_init := @Meth nat nat nat arg (fun fs h a => if 100 <? a then (fs, h, [], MError (EBase 0 (B "too many"))) else ([hd 0 fs + a], h, [], MNil)).
Definition m_inc := @Meth nat nat nat arg (fun fs h a => (fs, h + 1, [], MNil)).
Definition m_get := @Meth nat nat nat arg (fun fs h a => (fs, h, reply1 h, MNil)).
Definition m_bye := @Meth nat nat nat arg (fun fs h a => (fs, h, [AClose], MNil)).
Definition m_fail := @Meth nat nat nat arg (fun fs h a => (fs, h, [], MError (if a =? 0 then EBase 0 (B "no") else EUser 7 None))).
Definition counter : @gobj nat nat nat :=
  GPtr (B "Counter") [GField true 0 (fun _ => 5) (fun v => v =? 0)]
    [GMeth (B "Add") 3 true m_add; GMeth (B "Bye") 2 true m_bye; GMeth (B "Fail") 3 true m_fail; GMeth (B "Get") 2 true m_get; GMeth (B "Hidden") 2 false m_get; GMeth (B "Inc") 2 true m_inc; GMeth (B "Init") 3 true m_init].
Definition creg : @registry nat nat nat := match register_all 0 [] [counter] with Some r => r | None => [] end.
Definition um (_ : N) : bytes := B "user".
Definition stx (_ : Z) : bytes := B "".
Definition un (_ : N) : res node := Panic.
Definition new (x : string) (k : Z) : frame := Frame (B x) (B "counter") (B "new") (Some (NInt k)).
Definition req (x m : string) (k : Z) : frame := Frame (B x) (B m) [] (Some (NInt k)).
Definition run1 (fs : list frame) : option (@rpc nat nat nat) := frames um stx un creg (Rpc [] [] 0 []) fs.
Definition out_ (fs : list frame) : list frame := match run1 fs with Some s => sent (r_log s) | None => [] end.

Lemma frames_reach {V A H} um' stx' un' reg (fs : list frame) : forall s s' : @rpc V A H, reach um' stx' un' reg s -> frames um' stx' un' reg s fs = Some s' -> reach um' stx' un' reg s'.
Proof.
  induction fs as [|f fs IH]; intros s s' Hs E; cbn [frames] in E; [injection E as <-; exact Hs|]. pose proof (reach_frame _ _ _ _ s f Hs) as Hx. destruct (onFrame um' stx' un' reg s f); [|discriminate..]. eauto.
Qed.
Lemma run1_reach fs s : run1 fs = Some s -> reach um stx un creg s.
Proof. apply frames_reach. constructor. Qed.

(* what is behind a pointer in the registered object is shared: a request on a changes what b answers *)
Theorem C47_shared_refuted :
  map f_data (filter (fun f => beqb (f_path f) (B "value")) (out_ [new "a" 1; new "b" 2; req "b" "get" 0])) = [Some (NInt 0)] /\
  map f_data (filter (fun f => beqb (f_path f) (B "value")) (out_ [new "a" 1; new "b" 2; req "a" "inc" 0; req "b" "get" 0])) = [Some (NInt 1)].
Proof. vm_compute. auto. Qed.
Print Assumptions C47_shared_refuted.
(* Two counters, one opened again: each request changes its own. *)
Lemma see {X} (g : @rpc nat nat nat -> X) fs x : option_map g (run1 fs) = Some x -> exists s, run1 fs = Some s /\ reach um stx un creg s /\ g s = x.
Proof.
  destruct (run1 fs) as [s|] eqn:E; cbn [option_map]; [|discriminate]. intro Hx. exists s. split; [reflexivity|]. split; [exact (run1_reach fs s E)|].
  apply (f_equal (fun o => match o with Some y => y | None => x end)) in Hx. exact Hx.
Qed.
Definition refused (s : @rpc nat nat nat) (f : frame) : bool := match onFrame um stx un creg s f with FError _ => true | _ => false end.
Example C47_ex : exists s, run1 [new "a" 1; new "b" 2; req "a" "add" 10; new "a" 3; req "b" "add" 20; req "a" "add" 30] = Some s /\ reach um stx un creg s /\
  (owner (r_log s) (B "a"), owner (r_log s) (B "b"), r_objs s, refused s (req "c" "add" 1), refused s (req "a" "hidden" 1), refused s (req "b" "add" 1)) =
  (Some (B "counter", 2), Some (B "counter", 1), [[16]; [27]; [38]], true, true, false).
Proof. apply see. vm_compute. reflexivity. Qed.
(* a close frame for a: b is not answered any more *)
Example C48_ex : out_ [new "a" 1; new "b" 2; Frame (B "a") [] (B "close") None; req "b" "add" 1] = [] /\ length (out_ [new "a" 1; new "b" 2; req "b" "add" 1]) = 2.
Proof. vm_compute. auto. Qed.
(* Init refuses 200: nothing is sent, and the next request on the channel ends the connection *)
Example C86_ex : out_ [new "a" 200] = [] /\ (exists s, run1 [new "a" 200] = Some s /\ reach um stx un creg s /\ refused s (req "a" "add" 1) = true) /\ run1 [new "a" 200; req "a" "add" 1] = None.
Proof. split; [vm_compute; reflexivity|]. split; [apply see; vm_compute; reflexivity|vm_compute; reflexivity]. Qed.
(* a struct with a field that is set and one that is not *)
Example C87_ex : match run1 [new "a" 1] with Some s => r_objs s = [[6]] | None => False end /\
  Register 0 [] counter = Ok (Some creg) /\ lowered (B "Counter") (B "counter").
Proof. split; [vm_compute; reflexivity|]. split; [vm_compute; reflexivity|]. cbn [lowered B]. repeat split. left. repeat split; discriminate. Qed.
Example C88_ex : option_map (fun b => map (fun n => match byPath (b_methods b) (B n) with Some _ => true | None => false end) ["add"; "inc"; "init"; "hidden"; "Add"]%string) (mget beqb creg (B "counter")) =
  Some [true; true; false; false; false].
Proof. vm_compute. reflexivity. Qed.
(* a method that closes the connection is not answered *)
Theorem C89_close_refuted : exists s, run1 [new "a" 1; req "a" "bye" 0] = Some s /\ reach um stx un creg s /\ sent (r_log s) = [].
Proof. apply see. vm_compute. reflexivity. Qed.
Print Assumptions C89_close_refuted.
Example C89_ex : map (fun f => (f_type f, route f)) (out_ [new "a" 1; req "a" "add" 2; new "b" 1; req "b" "fail" 0; req "a" "inc" 0]) =
  [(B "", (B "a", B "value")); (B "return", (B "a", B "add")); (B "return", (B "b", B "fail")); (B "error", (B "b", B "")); (B "return", (B "a", B "inc"))].
Proof. vm_compute. reflexivity. Qed.
(* errors.New and one of a type that cannot be marshalled *)
Example C90_ex : (exists s, run1 [new "a" 1; req "a" "fail" 0; req "a" "add" 1] = Some s /\ reach um stx un creg s /\ is_closed s = false) /\ run1 [new "a" 1; req "a" "fail" 1] = None /\ marshalable un (EHttp 400 (Some (ECtx (EInfo [] None) (EUser 7 None)))).
Proof. split; [apply see; vm_compute; reflexivity|]. split; [vm_compute; reflexivity|exact I]. Qed.
