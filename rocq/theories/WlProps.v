(* Theorems about the errors of methods that are called over a websocket: C129. *)
From Coq Require Import Bool Ascii String Arith NArith ZArith List Lia.
From Verif Require Import Prelude PreludeFacts Utf8Model DecModel DurModel DurProofs KvProofs EncModel JsonModel CtxModel ErrModel MarModel WsModel WsSpec WsRpc WlSpec.
Import ListNotations.

Section Leak.
  Context {V A H : Type}.
  Context (user_msg : N -> bytes) (status_text : Z -> bytes) (user_node : N -> res node).

  Lemma like_msg e e' : like e e' -> emsg user_msg status_text e = emsg user_msg status_text e'.
  Proof. induction 1; cbn [emsg]; congruence. Qed.
  Lemma like_merr e e' : like e e' -> merr user_msg status_text user_node e = merr user_msg status_text user_node e'.
  Proof.
    induction 1; cbn [merr]; try reflexivity.
    - now rewrite (like_msg _ _ H0).
    - now rewrite (like_msg _ _ H0).
    - now rewrite IHlike.
    - now rewrite IHlike.
  Qed.

  (* channels and states that differ only in such methods *)
  Definition like_chan (a b : @chan V A H) : Prop := ch_id a = ch_id b /\ ch_obj a = ch_obj b /\ Forall2 like_named (ch_byPath a) (ch_byPath b).
  Definition like_st (a b : @rpc V A H) : Prop :=
    Forall2 (fun x y => fst x = fst y /\ like_chan (snd x) (snd y)) (r_chans a) (r_chans b) /\
    r_objs a = r_objs b /\ r_heap a = r_heap b /\ r_log a = r_log b.
  Lemma like_mget {X Y} (R : X -> Y -> Prop) (l : list (bytes * X)) (l' : list (bytes * Y)) k :
    Forall2 (fun x y => fst x = fst y /\ R (snd x) (snd y)) l l' ->
    match mget beqb l k, mget beqb l' k with Some x, Some y => R x y | None, None => True | _, _ => False end.
  Proof.
    induction 1 as [|[a x] [b y] l l' [E1 E2] F IH]; cbn [mget]; [exact Logic.I|]. cbn [fst snd] in *. subst b. destruct (beqb k a); [exact E2|exact IH].
  Qed.
  Lemma like_mset {X Y} (R : X -> Y -> Prop) (l : list (bytes * X)) (l' : list (bytes * Y)) k x y :
    Forall2 (fun x y => fst x = fst y /\ R (snd x) (snd y)) l l' -> R x y ->
    Forall2 (fun x y => fst x = fst y /\ R (snd x) (snd y)) (mset beqb l k x) (mset beqb l' k y).
  Proof.
    intros F Hr. induction F as [|[a u] [b v] l l' [E1 E2] F IH]; cbn [mset]; [constructor; auto|]. cbn [fst snd] in *. subst b.
    destruct (beqb k a); constructor; auto.
  Qed.
  Lemma like_rev {X Y} (R : X -> Y -> Prop) l l' : Forall2 R l l' -> Forall2 R (rev l) (rev l').
  Proof. induction 1; cbn [rev]; [constructor|]. apply Forall2_app; auto. Qed.
  Lemma like_send a b f : like_st a b -> like_st (send a f) (send b f).
  Proof.
    intros (H1 & H2 & H3 & H4). unfold send, is_closed. rewrite H4. destruct (existsb _ _); repeat split; auto. cbn. congruence.
  Qed.
  Lemma like_act id a b x : like_st a b -> like_st (do_act id a x) (do_act id b x).
  Proof.
    intros Hs. destruct x; cbn [do_act]; [apply like_send, Hs|]. destruct Hs as (H1 & H2 & H3 & H4).
    unfold is_closed. rewrite H4. destruct (existsb _ _); repeat split; auto. cbn. congruence.
  Qed.
  Lemma like_acts id l a b : like_st a b -> like_st (fold_left (do_act id) l a) (fold_left (do_act id) l b).
  Proof. revert a b. induction l as [|x l IH]; intros a b Hs; [exact Hs|]. apply IH, like_act, Hs. Qed.
  Lemma like_call a b id o name m m' req : like_st a b -> like_meth m m' ->
    like_st (fst (call a id o name m req)) (fst (call b id o name m' req)) /\ like_out (snd (call a id o name m req)) (snd (call b id o name m' req)).
  Proof.
    intros Hs [Hd Hm]. unfold call. pose proof Hs as (H1 & H2 & H3 & H4). specialize (Hd req). unfold like_dec in Hd.
    destruct (m_dec m req) as [x|e], (m_dec m' req) as [x'|e']; try contradiction; [subst x'|cbn; auto].
    rewrite H2. destruct (nth_error (r_objs b) o) as [fs|]; [|cbn; auto]. rewrite H3. specialize (Hm fs (r_heap b) x).
    destruct (m_run m fs (r_heap b) x) as [[[f1 h1] l1] o1], (m_run m' fs (r_heap b) x) as [[[f2 h2] l2] o2]. cbn [fst snd] in Hm. destruct Hm as [E Ho].
    injection E as -> -> ->. cbn [fst snd]. split; [|exact Ho]. apply like_acts. repeat split; cbn; auto. destruct name; congruence.
  Qed.
  Definition like_res (a b : @fres V A H) : Prop :=
    match a, b with FNil s, FNil t | FError s, FError t | FDies s, FDies t => like_st s t | _, _ => False end.
  Lemma like_onData a b c c' f : like_st a b -> like_chan c c' ->
    like_res (onData user_msg status_text user_node a c f) (onData user_msg status_text user_node b c' f).
  Proof.
    intros Hs (E1 & E2 & E3). unfold onData, byPath. pose proof (like_mget like_meth _ _ (f_path f) (like_rev _ _ _ E3)) as Q. unfold like_named in Q.
    destruct (mget beqb (rev (ch_byPath c)) (f_path f)) as [m|], (mget beqb (rev (ch_byPath c')) (f_path f)) as [m'|]; try contradiction; [|exact Hs].
    rewrite E1, E2. pose proof (like_call a b (ch_id c') (ch_obj c') (Some (f_path f)) m m' (f_data f) Hs Q) as [Q1 Q2].
    destruct (call a _ _ _ m _) as [s1 o1], (call b _ _ _ m' _) as [s2 o2]. cbn [fst snd] in *.
    destruct o1 as [|e|], o2 as [|e'|]; try contradiction; cbn [like_res]; [apply like_send, Q1| |exact Q1].
    cbn [like_out] in Q2. rewrite (like_merr _ _ Q2). destruct (merr _ _ _ e') as [n|]; [|exact Q1]. unfold call_error. rewrite (like_msg _ _ Q2).
    cbn [like_res]. apply like_send, like_send, Q1.
  Qed.
  Lemma like_open a b x y f : like_st a b -> like_type x y -> like_res (open a x f) (open b y f).
  Proof.
    intros Hs (E1 & E2 & E3 & E4). unfold open. rewrite E1, E2. destruct Hs as (H1 & H2 & H3 & H4). rewrite H2, H3, H4.
    set (id := f_chan f). set (o := length (r_objs b)). set (fs := fold_left _ _ _).
    assert (C : like_st (Rpc (mset beqb (r_chans a) id (Chan id o [])) (r_objs b ++ [fs]) (r_heap b) (TNew id (f_path f) o :: r_log b))
                        (Rpc (mset beqb (r_chans b) id (Chan id o [])) (r_objs b ++ [fs]) (r_heap b) (TNew id (f_path f) o :: r_log b))).
    { repeat split; cbn; auto. apply (like_mset like_chan); [exact H1|]. repeat split; constructor. }
    cbn [r_chans r_objs r_heap r_log]. destruct (existsb _ (b_fields y)); [exact C|].
    unfold like_opt in E3. destruct (b_init x) as [m|], (b_init y) as [m'|]; try contradiction.
    - pose proof (like_call _ _ id o None m m' (f_data f) C E3) as [Q1 Q2].
      destruct (call _ id o None m _) as [s1 o1], (call _ id o None m' _) as [s2 o2]. cbn [fst snd] in *.
      destruct o1 as [|e|], o2 as [|e'|]; try contradiction; cbn [like_res]; try exact Q1.
      destruct Q1 as (K1 & K2 & K3 & K4). repeat split; cbn; auto; [|congruence]. apply (like_mset like_chan); [exact K1|]. repeat split; auto.
    - cbn [like_res]. repeat split; cbn; auto. apply (like_mset like_chan); [apply (like_mset like_chan); [exact H1|]|]; repeat split; auto; constructor.
  Qed.
  Lemma like_frame reg reg' a b f : like_types reg reg' -> like_st a b ->
    like_res (onFrame user_msg status_text user_node reg a f) (onFrame user_msg status_text user_node reg' b f).
  Proof.
    intros Hr Hs. unfold onFrame. pose proof Hs as (H1 & H2 & H3 & H4). destruct (beqb (f_type f) (B "close")).
    { unfold is_closed. rewrite H4. destruct (existsb _ _); [exact Hs|]. repeat split; cbn; auto. congruence. }
    destruct (_ || _).
    - pose proof (like_mget like_type _ _ (f_path f) Hr) as Q. destruct (mget beqb reg (f_path f)), (mget beqb reg' (f_path f)); try contradiction; [|exact Hs].
      apply like_open; auto.
    - pose proof (like_mget like_chan _ _ (f_chan f) H1) as Q.
      destruct (mget beqb (r_chans a) (f_chan f)), (mget beqb (r_chans b) (f_chan f)); try contradiction; [|exact Hs]. apply like_onData; auto.
  Qed.
End Leak.

(* C129: the stacks, tags and causes of errors do not get to a client, whatever frames it sends. *)
Theorem C129_partial : forall {V A H} user_msg status_text user_node (reg reg' : @registry V A H) h fs,
  like_types reg reg' -> gets user_msg status_text user_node reg h fs = gets user_msg status_text user_node reg' h fs.
Proof.
  intros V A H user_msg status_text user_node reg reg' h fs Hr. unfold gets.
  assert (G : forall fs a b, like_st a b ->
    like_st (fold_left (fun s f => after (onFrame user_msg status_text user_node reg s f)) fs a)
            (fold_left (fun s f => after (onFrame user_msg status_text user_node reg' s f)) fs b)).
  { clear fs. induction fs as [|f fs IH]; intros a b Hs; [exact Hs|]. cbn [fold_left]. apply IH.
    pose proof (like_frame user_msg status_text user_node reg reg' a b f Hr Hs) as Q.
    destruct (onFrame _ _ _ reg a f), (onFrame _ _ _ reg' b f); try contradiction; exact Q. }
  destruct (G fs (Rpc [] [] h []) (Rpc [] [] h [])) as (_ & _ & _ & E); [repeat split; constructor|]. now rewrite E.
Qed.
Print Assumptions C129_partial.

(* C129 is false of the code: whatever a method returns as an error, its message is sent, also if it would be an internal error over HTTP. *)
Theorem C129_text_refuted : forall {V A H} user_msg status_text user_node (s s1 : @rpc V A H) ch f m e,
  byPath (ch_byPath ch) (f_path f) = Some m -> call s (ch_id ch) (ch_obj ch) (Some (f_path f)) m (f_data f) = (s1, MError e) ->
  is_closed s1 = false -> marshalable user_node e ->
  exists r before, sent (r_log (after (onData user_msg status_text user_node s ch f))) =
    sent (r_log s1) ++ [r; Frame (ch_id ch) [] (B "error") (Some (NStr (before ++ emsg user_msg status_text e)))].
Proof.
  intros V A H user_msg status_text user_node s s1 ch f m e Hm Hc Hl He. unfold onData. rewrite Hm, Hc.
  destruct (merr_ok user_msg status_text user_node e He) as (n & M). rewrite M. unfold send. rewrite Hl.
  assert (E : is_closed (note s1 (TSent (Frame (ch_id ch) (f_path f) (B "return") (Some n)))) = false) by exact Hl.
  rewrite E. cbn [after note r_log sent]. eexists. exists (B "ws[" ++ ch_id ch ++ B "|" ++ f_path f ++ B "]: ").
  unfold call_error. rewrite <- !app_assoc. reflexivity.
Qed.
Print Assumptions C129_text_refuted.

(* two servers with one type "t" and one method "do", which returns e *)
Definition wl_meth (e : gerr) : @meth unit unit unit := Meth (fun _ => inl tt) (fun fs h _ => (fs, h, [AReply (B "log") (NInt 1)], MError e)).
Definition wl_reg (e : gerr) : @registry unit unit unit := [(B "t", Builder (B "t") [] [] None [(B "do", wl_meth e)])].
Definition wl_frames : list frame := [Frame (B "1") (B "t") (B "new") None; Frame (B "1") (B "do") [] None].
Definition wl_gets (e : gerr) : list frame := gets (fun _ => []) (fun _ => []) (fun _ => Panic) (wl_reg e) tt wl_frames.
(* so a client can tell internal errors apart that over HTTP it could not (C42) *)
Theorem C129_refuted : forall m m', m <> m' -> wl_gets (EBase 1 m) <> wl_gets (EBase 1 m') /\
  ErrorCode (fun _ => None) (Some (EBase 1 m)) 500 = 500%Z /\ ErrorCode (fun _ => None) (Some (EBase 1 m')) 500 = 500%Z.
Proof.
  intros m m' Hm. split; [|split; reflexivity]. intros E. apply Hm. unfold wl_gets in E. cbv -[app B] in E. injection E. intros Q. 
  repeat (apply app_inv_head in Q). exact Q.
Qed.
Print Assumptions C129_refuted.

Example C129_ex : let e := ECtx (EInfo [B "main.go:1"] None) (EWrap 1 (B "no rows") (EBase 2 (B "secret"))) in
  let e' := ECtx (EInfo [B "x.go:7"] (Some (CtxModel.Tag Root (B "user") (B "7")))) (EWrap 3 (B "no rows") EEOD) in
  like_types (wl_reg e) (wl_reg e') /\ like e e' /\ length (wl_gets e) = 3.
Proof.
  cbn zeta. assert (L : like (ECtx (EInfo [B "main.go:1"] None) (EWrap 1 (B "no rows") (EBase 2 (B "secret"))))
    (ECtx (EInfo [B "x.go:7"] (Some (CtxModel.Tag Root (B "user") (B "7")))) (EWrap 3 (B "no rows") EEOD))) by repeat constructor.
  split; [|split; [exact L|vm_compute; reflexivity]]. constructor; [|constructor]. repeat split; try (constructor; fail). constructor; [|constructor]. repeat split; exact L.
Qed.
