(* Theorems about the frame that ends a websocket connection: C129. *)
From Coq Require Import Bool Ascii String Arith NArith ZArith List Lia.
From Verif Require Import Prelude PreludeFacts Utf8Model QuoteModel DecModel DurModel DurProofs KvProofs EncModel JsonModel CtxModel ErrModel MarModel WsModel WsSpec WsRpc WlSpec WlProps WdModel WdSpec.
Import ListNotations.

Section Facts.
  Context {V A H : Type}.
  Context (user_msg : N -> bytes) (status_text : Z -> bytes) (user_node : N -> res node) (isprint : N -> bool).
  Context (bad : option node -> gerr) (again : gerr) (i : einfo) (f2i f2u : floatv -> Z).

  (* ---- stacks, tags and causes ---- *)
  Lemma like_error (a b : @rpc V A H) n : like_st a b ->
    handle_error isprint bad again i f2i f2u a n = handle_error isprint bad again i f2i f2u b n.
  Proof.
    intros (H1 & _). unfold handle_error. destruct (frame_of f2i f2u n) as [f|]; [|reflexivity]. unfold onFrame_error.
    destruct (beqb _ _); [reflexivity|]. destruct (_ || _); [reflexivity|].
    pose proof (like_mget like_chan _ _ (f_chan f) H1) as Q.
    destruct (mget beqb (r_chans a) (f_chan f)) as [c|], (mget beqb (r_chans b) (f_chan f)) as [c'|]; try contradiction; [|reflexivity].
    destruct Q as (E1 & E2 & E3). unfold onData_error, byPath. pose proof (like_mget like_meth _ _ (f_path f) (like_rev _ _ _ E3)) as Q.
    destruct (mget beqb (rev (ch_byPath c)) (f_path f)), (mget beqb (rev (ch_byPath c')) (f_path f)); try contradiction; reflexivity.
  Qed.
  Lemma like_disconnect (a b : @rpc V A H) e : like_st a b ->
    like_st (disconnect user_msg status_text user_node a e) (disconnect user_msg status_text user_node b e).
  Proof.
    intros Hs. unfold disconnect. assert (G : forall x y : @rpc V A H, like_st x y -> like_st (note x TClosed) (note y TClosed)).
    { intros x y (H1 & H2 & H3 & H4). repeat split; cbn; auto. congruence. }
    apply G. destruct (merr _ _ _ e); [apply like_send, Hs|exact Hs].
  Qed.
  Lemma like_serve reg reg' ns : like_types reg reg' -> forall a b : @rpc V A H, like_st a b ->
    like_st (serve user_msg status_text user_node isprint bad again i f2i f2u reg a ns)
            (serve user_msg status_text user_node isprint bad again i f2i f2u reg' b ns).
  Proof.
    intros Hr. induction ns as [|n ns IH]; intros a b Hs; [exact Hs|]. cbn [serve]. rewrite (like_error a b n Hs). unfold rpc_handle.
    destruct (frame_of f2i f2u n) as [f|]; [|apply like_disconnect, Hs].
    pose proof (like_frame user_msg status_text user_node reg reg' a b f Hr Hs) as Q.
    destruct (onFrame _ _ _ reg a f), (onFrame _ _ _ reg' b f); try contradiction; cbn [like_res] in Q; [apply IH, Q|apply like_disconnect, Q|].
    destruct Q as (H1 & H2 & H3 & H4). repeat split; cbn; auto. congruence.
  Qed.

  (* ---- when an error can come, and with which text ---- *)
  Lemma onFrame_fails reg (s s1 : @rpc V A H) f : onFrame user_msg status_text user_node reg s f = FError s1 ->
    beqb (f_type f) (B "close") = true -> is_closed s1 = true.
  Proof. unfold onFrame. intros E Hc. rewrite Hc in E. destruct (is_closed s) eqn:K; inversion E. now subst. Qed.

  (* ---- the other frames ---- *)
  Definition quiet (s : @rpc V A H) : Prop := Forall (fun f => farewell f = false) (sent (r_log s)).
  Lemma quiet_send s f : quiet s -> farewell f = false -> quiet (send s f).
  Proof. unfold quiet, send. intros Q F. destruct (is_closed s); [exact Q|]. cbn [note r_log sent]. apply Forall_app. split; [exact Q|]. constructor; [exact F|constructor]. Qed.
  Lemma quiet_act id s a : quiet s -> quiet (do_act id s a).
  Proof. intros Q. destruct a; cbn [do_act]; [apply quiet_send; [exact Q|reflexivity]|]. destruct (is_closed s); exact Q. Qed.
  Lemma quiet_acts id l : forall s, quiet s -> quiet (fold_left (do_act id) l s).
  Proof. induction l as [|a l IH]; intros s Q; [exact Q|]. apply IH, quiet_act, Q. Qed.
  Lemma quiet_call s id o name m req : quiet s -> quiet (fst (call s id o name m req)).
  Proof.
    intros Q. unfold call. destruct (m_dec m req); [|exact Q]. destruct (nth_error (r_objs s) o); [|exact Q].
    destruct (m_run m _ _ _) as [[[? ?] ?] ?]. apply quiet_acts. unfold quiet. cbn [r_log]. destruct name; exact Q.
  Qed.
  Lemma quiet_open s b f : quiet s -> quiet (after (open s b f)).
  Proof.
    intros Q. unfold open. destruct (existsb _ _); [exact Q|]. destruct (b_init b) as [m|]; [|exact Q].
    match goal with |- context [call ?x _ _ _ _ _] => pose proof (quiet_call x (f_chan f) (length (r_objs s)) None m (f_data f) Q) as K end.
    cbn [r_chans r_objs r_heap r_log] in *. destruct (call _ _ _ _ _ _) as [s1 [|e|]]; exact K.
  Qed.
  Lemma quiet_onData s ch f : quiet s -> quiet (after (onData user_msg status_text user_node s ch f)).
  Proof.
    intros Q. unfold onData. destruct (byPath _ _) as [m|]; [|exact Q].
    pose proof (quiet_call s (ch_id ch) (ch_obj ch) (Some (f_path f)) m (f_data f) Q) as K. destruct (call _ _ _ _ _ _) as [s1 [|e|]]; cbn [fst] in K.
    - apply quiet_send; [exact K|reflexivity].
    - destruct (merr _ _ _ e); [|exact K]. apply quiet_send; [apply quiet_send; [exact K|]|]; reflexivity.
    - exact K.
  Qed.
  Lemma quiet_frame reg s f : quiet s -> quiet (after (onFrame user_msg status_text user_node reg s f)).
  Proof.
    intros Q. unfold onFrame. destruct (beqb _ _); [destruct (is_closed s); exact Q|]. destruct (_ || _).
    - destruct (mget _ _ _); [apply quiet_open, Q|exact Q].
    - destruct (mget _ _ _); [apply quiet_onData, Q|exact Q].
  Qed.
  Lemma quiet_last (l : list frame) : Forall (fun f => farewell f = false) l -> forall a f b x, l ++ x = a ++ f :: b -> length x <= 1 -> farewell f = true -> b = [].
  Proof.
    induction 1 as [|y l Hy Hl IH]; intros a f b x E L F; cbn [app] in E.
    - subst x. rewrite app_length in L. cbn [length] in L. destruct b; [reflexivity|cbn [length] in L; lia].
    - destruct a as [|z a]; cbn [app] in E; injection E as E1 E2; [congruence|]. exact (IH _ _ _ _ E2 L F).
  Qed.
  Lemma serve_last reg ns : forall s : @rpc V A H, quiet s ->
    exists l x, sent (r_log (serve user_msg status_text user_node isprint bad again i f2i f2u reg s ns)) = l ++ x /\
      Forall (fun f => farewell f = false) l /\ length x <= 1.
  Proof.
    induction ns as [|n ns IH]; intros s Q.
    { exists (sent (r_log s)), []. rewrite app_nil_r. repeat split; [exact Q|cbn; lia]. }
    assert (D : forall s1 e, quiet s1 -> exists l x, sent (r_log (disconnect user_msg status_text user_node s1 e)) = l ++ x /\
      Forall (fun f => farewell f = false) l /\ length x <= 1).
    { intros s1 e K. unfold disconnect. destruct (merr _ _ _ e) as [d|].
      - unfold send. destruct (is_closed s1).
        + exists (sent (r_log s1)), []. cbn [note r_log sent]. rewrite app_nil_r. repeat split; [exact K|cbn; lia].
        + eexists (sent (r_log s1)), [_]. cbn [note r_log sent]. repeat split; [exact K|cbn; lia].
      - exists (sent (r_log s1)), []. cbn [note r_log sent]. rewrite app_nil_r. repeat split; [exact K|cbn; lia]. }
    cbn [serve]. unfold rpc_handle. destruct (frame_of f2i f2u n) as [f|]; [|apply D, Q].
    pose proof (quiet_frame reg s f Q) as K. destruct (onFrame _ _ _ reg s f) as [s1|s1|s1]; cbn [after] in K; [apply IH, K|apply D, K|].
    exists (sent (r_log s1)), []. cbn [note r_log sent]. rewrite app_nil_r. repeat split; [exact K|cbn; lia].
  Qed.
End Facts.

(* C129: the stacks, tags and causes of errors do not get to a client, whatever it sends, and whatever ends the connection. *)
Theorem C129_all_partial : forall {V A H} user_msg status_text user_node isprint bad again i f2i f2u (reg reg' : @registry V A H) h ns,
  like_types reg reg' ->
  everything user_msg status_text user_node isprint bad again i f2i f2u reg h ns =
  everything user_msg status_text user_node isprint bad again i f2i f2u reg' h ns.
Proof.
  intros V A H user_msg status_text user_node isprint bad again i f2i f2u reg reg' h ns Hr. unfold everything.
  destruct (like_serve user_msg status_text user_node isprint bad again i f2i f2u reg reg' ns Hr (Rpc [] [] h []) (Rpc [] [] h [])) as (_ & _ & _ & E);
    [repeat split; constructor|]. now rewrite E.
Qed.
Print Assumptions C129_all_partial.

(* C129: what a client is told at the end it could know: for what it sent there are three possible frames, the same for all servers. *)
Theorem C129_disconnect : forall user_msg status_text user_node isprint bad again f2i f2u n, exists l : list frame, length l <= 3 /\
  forall V A H (reg : @registry V A H) i s s1,
    rpc_handle user_msg status_text user_node reg f2i f2u s n = (s1, HError) ->
    let s' := serve user_msg status_text user_node isprint bad again i f2i f2u reg s [n] in
    is_closed s' = true /\ (sent (r_log s') = sent (r_log s1) \/ exists f, In f l /\ sent (r_log s') = sent (r_log s1) ++ [f]).
Proof.
  intros user_msg status_text user_node isprint bad again f2i f2u n.
  set (fw := fun d => Frame [] [] (B "disconnect") (Some d)).
  assert (D : forall V A H (s1 : @rpc V A H) e d, merr user_msg status_text user_node e = Ok d ->
    is_closed (disconnect user_msg status_text user_node s1 e) = true /\
    (sent (r_log (disconnect user_msg status_text user_node s1 e)) = sent (r_log s1) \/
     sent (r_log (disconnect user_msg status_text user_node s1 e)) = sent (r_log s1) ++ [fw d])).
  { intros V A H s1 e d M. unfold disconnect. rewrite M. split; [reflexivity|]. unfold send. destruct (is_closed s1); [now left|now right]. }
  destruct (frame_of f2i f2u n) as [f|] eqn:Ef.
  - destruct (beqb (f_type f) (B "close")) eqn:Ec; [|destruct (beqb (f_type f) (B "new") || beqb (f_type f) (B "open")) eqn:Eo].
    + exists []. split; [cbn; lia|]. intros V A H reg i s s1 E. cbn zeta. cbn [serve]. rewrite E. unfold rpc_handle in E. rewrite Ef in E.
      destruct (onFrame _ _ _ reg s f) as [t|t|t] eqn:Ev; inversion E; subst t. pose proof (onFrame_fails _ _ _ _ _ _ _ Ev Ec) as K.
      split; [reflexivity|]. left. unfold disconnect, send. rewrite K. destruct (merr _ _ _ _); reflexivity.
    + exists [fw (NStr (B "unknown path: " ++ quote isprint (f_path f)))]. split; [cbn; lia|]. intros V A H reg i s s1 E. cbn zeta. cbn [serve]. rewrite E.
      unfold handle_error, onFrame_error. rewrite Ef, Ec, Eo. match goal with |- context [disconnect _ _ _ s1 ?e] => destruct (D V A H s1 e _ eq_refl) as [K1 K2] end. split; [exact K1|].
      destruct K2 as [K2|K2]; [now left|right]. eexists. split; [left; reflexivity|exact K2].
    + exists [fw (NStr (B "unknown channel")); fw (NStr (B "no " ++ quote isprint (f_path f) ++ B " for channel " ++ quote isprint (f_chan f))); fw (NPairs [])].
      split; [cbn; lia|]. intros V A H reg i s s1 E. cbn zeta. cbn [serve]. rewrite E.
      unfold handle_error, onFrame_error. rewrite Ef, Ec, Eo. unfold onData_error.
      destruct (mget beqb (r_chans s) (f_chan f)) as [ch|]; [destruct (byPath (ch_byPath ch) (f_path f))|];
        match goal with |- context [disconnect _ _ _ s1 ?e] => destruct (D V A H s1 e _ eq_refl) as [K1 K2] end; (split; [exact K1|]; destruct K2 as [K2|K2]; [now left|right]; eexists; split; [|exact K2]); cbn; auto.
  - exists (match merr user_msg status_text user_node (bad n) with Ok d => [fw d] | Panic => [] end).
    split; [destruct (merr _ _ _ _); cbn; lia|]. intros V A H reg i s s1 E. cbn zeta. cbn [serve]. rewrite E.
    unfold handle_error. rewrite Ef. destruct (merr user_msg status_text user_node (bad n)) as [d|] eqn:M.
    + destruct (D V A H s1 _ _ M) as [K1 K2]. split; [exact K1|]. destruct K2 as [K2|K2]; [now left|right]. eexists. split; [left; reflexivity|exact K2].
    + split; [reflexivity|]. left. unfold disconnect. now rewrite M.
Qed.
Print Assumptions C129_disconnect.

(* After that frame a client gets nothing more. *)
Theorem C129_last : forall {V A H} user_msg status_text user_node isprint bad again i f2i f2u (reg : @registry V A H) h ns a f b,
  everything user_msg status_text user_node isprint bad again i f2i f2u reg h ns = a ++ f :: b -> farewell f = true -> b = [].
Proof.
  intros V A H user_msg status_text user_node isprint bad again i f2i f2u reg h ns a f b E F.
  destruct (serve_last user_msg status_text user_node isprint bad again i f2i f2u reg ns (Rpc [] [] h [])) as (l & x & E1 & Q & L); [constructor|].
  unfold everything in E. rewrite E1 in E. exact (quiet_last l Q a f b x E L F).
Qed.
Print Assumptions C129_last.

(* a node that opens a channel of type "t", one that calls its method, one that calls what is not there *)
Definition wd_node (path type : bytes) : option node :=
  Some (NMap [(B "channel", NStr (B "1")); (B "path", NStr path); (B "type", NStr type)]).
Definition wd_meth (o : mout) : @meth unit unit unit := Meth (fun _ => inl tt) (fun fs h _ => (fs, h, [AReply (B "log") (NInt 1)], o)).
Definition wd_reg (o : mout) : @registry unit unit unit := [(B "t", Builder (B "t") [] [] None [(B "do", wd_meth o)])].
Definition wd_gets (o : mout) (ns : list (option node)) : list frame :=
  everything (fun _ => []) (fun _ => []) (fun _ => Panic) (fun _ => true) (fun _ => EEOD) EEOD (EInfo [] None) (fun _ => 0%Z) (fun _ => 0%Z) (wd_reg o) tt ns.
Example C129_ex2 :
  wd_gets MPanic [wd_node (B "t") (B "new"); wd_node (B "do") []; wd_node (B "do") []] =
    [Frame (B "1") (B "log") [] (Some (NInt 1)); Frame [] [] (B "disconnect") (Some (NPairs []))] /\
  wd_gets MNil [wd_node (B "t") (B "new"); wd_node (B "do") []; wd_node (B "x") []; wd_node (B "do") []] =
    [Frame (B "1") (B "log") [] (Some (NInt 1)); Frame (B "1") (B "do") (B "return") None;
     Frame [] [] (B "disconnect") (Some (NStr (B "no ""x"" for channel ""1""")))].
Proof. split; vm_compute; reflexivity. Qed.
