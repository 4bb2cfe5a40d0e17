(* Proofs about the channels of http/ws. *)
From Coq Require Import Bool Ascii String Arith NArith ZArith List Lia.
From Verif Require Import Prelude PreludeFacts Utf8Model DecModel DurModel DurProofs KvProofs EncModel JsonModel CtxModel ErrModel MarModel WsModel WsSpec.
Import ListNotations.

Lemma is_closed_app {V A H} (s : @rpc V A H) d l : r_log s = d ++ l -> is_closed s =
  existsb (fun t => match t with TClosed => true | _ => false end) d || existsb (fun t => match t with TClosed => true | _ => false end) l.
Proof. unfold is_closed. intros ->. apply existsb_app. Qed.
Lemma sent_app d : forall l, sent (d ++ l) = sent l ++ sent d.
Proof. induction d as [|t d IH]; intros l; cbn [app sent]; [now rewrite app_nil_r|]. destruct t; rewrite IH; auto. now rewrite app_assoc. Qed.
Lemma made_app d : forall l, made (d ++ l) = made d ++ made l.
Proof. induction d as [|t d IH]; intros l; cbn [app made]; [reflexivity|]. destruct t; rewrite IH; reflexivity. Qed.

(* entries that neither open a channel nor call a method *)
Definition quiet (id : bytes) (t : trace) : Prop := match t with TSent f => f_chan f = id | TClosed => True | _ => False end.
Definition plain (t : trace) : Prop := match t with TNew _ _ _ | TReady _ _ _ => False | _ => True end.
Lemma quiet_plain id t : quiet id t -> plain t.
Proof. destruct t; cbn; tauto. Qed.
Lemma owner_plain x d : Forall plain d -> forall l, owner (d ++ l) x = owner l x.
Proof. induction 1 as [|t d Ht _ IH]; intros l; cbn [app owner]; [reflexivity|]. destruct t; cbn in Ht; try tauto; auto. Qed.
Lemma made_plain d : Forall plain d -> made d = [].
Proof. induction 1 as [|t d Ht _ IH]; cbn [made]; [reflexivity|]. destruct t; cbn in Ht; try tauto; auto. Qed.
Lemma beqb_neq_ l a b : a <> b -> beqb a b = l -> l = false.
Proof. intros Hne <-. now apply beqb_neq. Qed.

(* where the objects are from *)
Lemma owner_made l x p o : (forall y q n, In (TReady y q n) l -> In (TNew y q n) l) -> owner l x = Some (p, o) -> In (TNew x p o) l.
Proof.
  intros Hr Ho. apply Hr. clear Hr. induction l as [|t l IH]; cbn [owner] in Ho; [discriminate|].
  destruct t as [y q n|y q n|y n m|f|]; try (right; auto; fail).
  - destruct (beqb y x); [discriminate|]. right; auto.
  - destruct (beqb y x) eqn:E; [|right; auto]. apply beqb_eq in E. injection Ho as -> ->. left. congruence.
Qed.
Lemma made_in l x p o : In (TNew x p o) l -> In o (made l).
Proof. induction l as [|t l IH]; [intros []|]. intros [E|E]; [subst; now left|]. destruct t; cbn [made]; auto. right; auto. Qed.
Lemma made_inj l : NoDup (made l) -> forall x p y q o, In (TNew x p o) l -> In (TNew y q o) l -> x = y /\ p = q.
Proof.
  induction l as [|t l IH]; intros Hn x p y q o; [intros []|].
  destruct t as [z r n|z r n|z n m|f|]; cbn [made] in Hn; try (intros [E|E1] [E'|E2]; try discriminate; eapply IH; eauto; fail).
  apply NoDup_cons_iff in Hn as [Hn1 Hn2]. intros [E|E1] [E'|E2]; [split; congruence| | |eauto].
  - injection E as <- <- <-. destruct Hn1. eapply made_in; eauto.
  - injection E' as <- <- <-. destruct Hn1. eapply made_in; eauto.
Qed.

Section Rpc.
  Context {V A H : Type} (user_msg : N -> bytes) (status_text : Z -> bytes) (user_node : N -> res node) (reg : @registry V A H).
  Notation rpc := (@rpc V A H).
  Notation onFrame := (onFrame user_msg status_text user_node reg).
  Notation onData := (onData user_msg status_text user_node).
  Notation reach := (reach user_msg status_text user_node reg).

  Implicit Types s : rpc.
  (* s' has more in its log, all of it so *)
  Definition grows (P : trace -> Prop) (s s' : rpc) : Prop := exists d, r_log s' = d ++ r_log s /\ Forall P d.
  Lemma grows_refl P s : grows P s s.
  Proof. exists []. split; [reflexivity|constructor]. Qed.
  Lemma grows_trans P s1 s2 s3 : grows P s1 s2 -> grows P s2 s3 -> grows P s1 s3.
  Proof. intros (d1 & E1 & H1) (d2 & E2 & H2). exists (d2 ++ d1). split; [rewrite E2, E1; apply app_assoc|]. apply Forall_app; auto. Qed.
  Lemma grows_mono (P Q : trace -> Prop) s s' : (forall t, P t -> Q t) -> grows P s s' -> grows Q s s'.
  Proof. intros HPQ (d & E & HP). exists d. split; [exact E|]. eapply Forall_impl; eauto. Qed.
  Lemma grows_closed P s s' : grows P s s' -> is_closed s = true -> is_closed s' = true.
  Proof. intros (d & E & _) Hc. rewrite (is_closed_app s' d _ E). unfold is_closed in Hc. rewrite Hc. apply orb_true_r. Qed.

  Lemma send_same s f : r_chans (send s f) = r_chans s /\ r_objs (send s f) = r_objs s /\ r_heap (send s f) = r_heap s.
  Proof. unfold send. destruct (is_closed s); auto. Qed.
  Lemma send_grows s f : grows (quiet (f_chan f)) s (send s f).
  Proof. unfold send. destruct (is_closed s); [apply grows_refl|]. exists [TSent f]. split; [reflexivity|]. repeat constructor. Qed.
  Lemma send_sent s f : is_closed s = false -> sent (r_log (send s f)) = sent (r_log s) ++ [f] /\ is_closed (send s f) = false.
  Proof. intros Hc. unfold send. rewrite Hc. cbn [note r_log sent]. split; [reflexivity|]. unfold is_closed in *. cbn [r_log note existsb]. exact Hc. Qed.
  Lemma send_closed s f : is_closed s = true -> send s f = s.
  Proof. unfold send. intros ->. reflexivity. Qed.

  (* ---- what methods do with the channel ---- *)
  Lemma acts_same id acts : forall s, r_chans (fold_left (do_act id) acts s) = r_chans s /\ r_objs (fold_left (do_act id) acts s) = r_objs s /\
    r_heap (fold_left (do_act id) acts s) = r_heap s /\ grows (quiet id) s (fold_left (do_act id) acts s).
  Proof.
    induction acts as [|a acts IH]; intros s; cbn [fold_left]; [repeat apply conj; try reflexivity; apply grows_refl|].
    destruct (IH (do_act id s a)) as (H1 & H2 & H3 & H4).
    assert (Ha : r_chans (do_act id s a) = r_chans s /\ r_objs (do_act id s a) = r_objs s /\ r_heap (do_act id s a) = r_heap s /\ grows (quiet id) s (do_act id s a)).
    { destruct a as [p n|]; cbn [do_act].
      - destruct (send_same s (Frame id p [] (Some n))) as (G1 & G2 & G3). repeat apply conj; auto. apply send_grows.
      - destruct (is_closed s); [repeat apply conj; auto; apply grows_refl|]. repeat apply conj; try reflexivity. exists [TClosed]. split; [reflexivity|]. repeat constructor. }
    destruct Ha as (A1 & A2 & A3 & A4). rewrite H1, H2, H3, A1, A2, A3. repeat apply conj; try reflexivity. eapply grows_trans; eauto.
  Qed.
  (* the replies are sent as such, if the connection is still open afterwards *)
  Lemma acts_sent id acts : forall s, is_closed (fold_left (do_act id) acts s) = false ->
    exists l, sent (r_log (fold_left (do_act id) acts s)) = sent (r_log s) ++ l /\ Forall (fun f => f_chan f = id /\ f_type f = []) l.
  Proof.
    induction acts as [|a acts IH]; intros s Hc; cbn [fold_left] in *; [exists []; rewrite app_nil_r; auto|].
    destruct (IH _ Hc) as (l & E & Hl). destruct a as [p n|]; cbn [do_act] in *.
    - destruct (is_closed s) eqn:Es.
      + exists l. rewrite send_closed in E by assumption. rewrite send_closed by assumption. auto.
      + destruct (send_sent s (Frame id p [] (Some n)) Es) as [Es1 _]. rewrite Es1 in E. rewrite <- app_assoc in E. eexists. split; [exact E|]. constructor; auto.
    - exists l. destruct (is_closed s); [auto|]. auto.
  Qed.
  Lemma call_spec s id o name m req s' out : call s id o name m req = (s', out) ->
    r_chans s' = r_chans s /\ length (r_objs s') = length (r_objs s) /\ (forall o', o' <> o -> nth_error (r_objs s') o' = nth_error (r_objs s) o') /\
    grows (fun t => quiet id t \/ (exists n, name = Some n /\ t = TCall id o n)) s s'.
  Proof.
    unfold call. destruct (m_dec m req) as [a|e]; [|intros E; injection E as <- <-; repeat apply conj; auto; apply grows_refl].
    destruct (nth_error (r_objs s) o) as [fs|]; [|intros E; injection E as <- <-; repeat apply conj; auto; apply grows_refl].
    destruct (m_run m fs (r_heap s) a) as [[[fs' h'] acts] out']. intros E. injection E as <- <-.
    set (s1 := Rpc _ _ _ _). destruct (acts_same id acts s1) as (H1 & H2 & H3 & H4). rewrite H1, H2. unfold s1 at 1 2 3. cbn [r_chans r_objs]. repeat apply conj; auto.
    - apply upd_length.
    - intros o' Hne. unfold s1. cbn [r_objs]. now apply nth_error_upd_ne.
    - apply grows_trans with s1; [|eapply grows_mono; [|exact H4]; auto].
      unfold s1. destruct name as [n|].
      + exists [TCall id o n]. split; [reflexivity|]. apply Forall_cons; [right; eauto|constructor].
      + apply (grows_refl _ s).
  Qed.
  Lemma call_sent s id o name m req s' out : call s id o name m req = (s', out) -> is_closed s' = false ->
    exists l, sent (r_log s') = sent (r_log s) ++ l /\ Forall (fun f => f_chan f = id /\ f_type f = []) l.
  Proof.
    unfold call. destruct (m_dec m req) as [a|e]; [|intros E _; injection E as <- <-; exists []; rewrite app_nil_r; auto].
    destruct (nth_error (r_objs s) o) as [fs|]; [|intros E _; injection E as <- <-; exists []; rewrite app_nil_r; auto].
    destruct (m_run m fs (r_heap s) a) as [[[fs' h'] acts] out']. intros E Hc. injection E as <- <-.
    destruct (acts_sent id acts _ Hc) as (l & E & Hl). exists l. split; [|exact Hl]. rewrite E. f_equal. destruct name; reflexivity.
  Qed.

  (* ---- the invariant ---- *)
  Definition rinv (s : rpc) : Prop :=
    (forall x ch, mget beqb (r_chans s) x = Some ch -> ch_id ch = x /\
       match owner (r_log s) x with
       | Some (p, o) => ch_obj ch = o /\ exists b, mget beqb reg p = Some b /\ ch_byPath ch = b_methods b
       | None => ch_byPath ch = []
       end) /\
    (forall x, mget beqb (r_chans s) x = None -> owner (r_log s) x = None) /\
    made (r_log s) = rev (seq 0 (length (r_objs s))) /\
    (forall y p o, In (TReady y p o) (r_log s) -> In (TNew y p o) (r_log s)).

  Lemma rinv_same s s' (P : trace -> Prop) : (forall t, P t -> plain t) -> rinv s -> r_chans s' = r_chans s -> length (r_objs s') = length (r_objs s) -> grows P s s' -> rinv s'.
  Proof.
    intros HP (H1 & H2 & H3 & H4) Hc Hl (d & E & Hd). assert (Hd' : Forall plain d) by (eapply Forall_impl; eauto). unfold rinv. rewrite Hc, Hl, E. repeat apply conj.
    - intros x ch Hx. rewrite owner_plain by assumption. auto.
    - intros x Hx. rewrite owner_plain by assumption. auto.
    - rewrite made_app, (made_plain d Hd'). exact H3.
    - intros y p o Hin. apply in_app_or in Hin as [Hin|Hin]; [|apply in_or_app; auto]. rewrite Forall_forall in Hd'. destruct (Hd' _ Hin).
  Qed.
  (* a frame on a channel *)
  Lemma onData_spec s ch f : exists P : trace -> Prop, (forall t, P t -> quiet (ch_id ch) t \/ t = TCall (ch_id ch) (ch_obj ch) (f_path f)) /\
    r_chans (after (onData s ch f)) = r_chans s /\ length (r_objs (after (onData s ch f))) = length (r_objs s) /\
    (forall o, o <> ch_obj ch -> nth_error (r_objs (after (onData s ch f))) o = nth_error (r_objs s) o) /\ grows P s (after (onData s ch f)).
  Proof.
    exists (fun t => quiet (ch_id ch) t \/ t = TCall (ch_id ch) (ch_obj ch) (f_path f)). split; [auto|]. unfold onData. destruct (byPath _ _) as [m|]; [|cbn [after]; repeat apply conj; auto; apply grows_refl].
    destruct (call _ _ _ _ _ _) as [s1 out] eqn:Ec. destruct (call_spec _ _ _ _ _ _ _ _ Ec) as (H1 & H2 & H3 & H4).
    assert (H4' : grows (fun t => quiet (ch_id ch) t \/ t = TCall (ch_id ch) (ch_obj ch) (f_path f)) s s1).
    { eapply grows_mono; [|exact H4]. intros t [Ht|(n & En & ->)]; [auto|right; congruence]. }
    assert (Hsend : forall g s2, f_chan g = ch_id ch -> r_chans s2 = r_chans s -> length (r_objs s2) = length (r_objs s) -> (forall o, o <> ch_obj ch -> nth_error (r_objs s2) o = nth_error (r_objs s) o) ->
      grows (fun t => quiet (ch_id ch) t \/ t = TCall (ch_id ch) (ch_obj ch) (f_path f)) s s2 ->
      r_chans (send s2 g) = r_chans s /\ length (r_objs (send s2 g)) = length (r_objs s) /\ (forall o, o <> ch_obj ch -> nth_error (r_objs (send s2 g)) o = nth_error (r_objs s) o) /\
      grows (fun t => quiet (ch_id ch) t \/ t = TCall (ch_id ch) (ch_obj ch) (f_path f)) s (send s2 g)).
    { intros g s2 Hg G1 G2 G3 G4. destruct (send_same s2 g) as (E1 & E2 & _). rewrite E1, E2. repeat apply conj; auto. eapply grows_trans; [exact G4|].
      eapply grows_mono; [|apply send_grows]. rewrite Hg. auto. }
    destruct out as [|e|]; [|destruct (merr user_msg status_text user_node e)|]; cbn [after]; repeat apply conj; auto; apply Hsend; auto; apply Hsend; auto.
  Qed.
  (* opening *)
  Lemma open_spec s b f : mget beqb reg (f_path f) = Some b -> rinv s -> rinv (after (open s b f)) /\
    (forall y, y <> f_chan f -> mget beqb (r_chans (after (open s b f))) y = mget beqb (r_chans s) y /\ owner (r_log (after (open s b f))) y = owner (r_log s) y) /\
    (forall o, o < length (r_objs s) -> nth_error (r_objs (after (open s b f))) o = nth_error (r_objs s) o) /\
    grows (fun t => quiet (f_chan f) t \/ t = TNew (f_chan f) (f_path f) (length (r_objs s)) \/ t = TReady (f_chan f) (f_path f) (length (r_objs s))) s (after (open s b f)).
  Proof.
    intros Hb (H1 & H2 & H3 & H4). unfold open. set (o := length (r_objs s)). set (id := f_chan f).
    set (fs := fold_left _ (b_fields b) (b_zero b)). cbn [r_chans r_objs r_heap r_log].
    set (s2 := Rpc (mset beqb (r_chans s) id (Chan id o [])) (r_objs s ++ [fs]) (r_heap s) (TNew id (f_path f) o :: r_log s)).
    set (P := fun t => quiet id t \/ t = TNew id (f_path f) o \/ t = TReady id (f_path f) o).
    assert (I2 : rinv s2 /\ owner (r_log s2) id = None).
    { assert (Ho : owner (r_log s2) id = None) by (unfold s2; cbn [r_log owner]; now rewrite beqb_refl). split; [|exact Ho]. unfold rinv. repeat apply conj.
      - intros x ch. unfold s2 at 1. cbn [r_chans]. destruct (beqb id x) eqn:Ex.
        + apply beqb_eq in Ex. subst x. rewrite (mget_mset_eq beqb beqb_ok). intros E. injection E as <-. rewrite Ho. auto.
        + apply beqb_neq in Ex. rewrite (mget_mset_ne beqb beqb_ok) by assumption. intros E. destruct (H1 x ch E) as [G1 G2]. split; [exact G1|]. unfold s2. cbn [r_log owner]. replace (beqb id x) with false by (symmetry; now apply beqb_neq). exact G2.
      - intros x. unfold s2. cbn [r_chans r_log owner]. destruct (beqb id x) eqn:Ex; [auto|]. apply beqb_neq in Ex. rewrite (mget_mset_ne beqb beqb_ok) by assumption. auto.
      - unfold s2. cbn [r_log r_objs made]. rewrite app_length, Nat.add_1_r, seq_S, rev_app_distr, H3. reflexivity.
      - unfold s2. cbn [r_log]. intros y p o' [E|E]; [discriminate|]. right. auto. }
    assert (F2 : (forall y, y <> id -> mget beqb (r_chans s2) y = mget beqb (r_chans s) y /\ owner (r_log s2) y = owner (r_log s) y) /\
      (forall o', o' < o -> nth_error (r_objs s2) o' = nth_error (r_objs s) o') /\ grows P s s2).
    { unfold s2. cbn [r_chans r_log r_objs]. repeat apply conj.
      - intros y Hy. split; [apply (mget_mset_ne beqb beqb_ok); congruence|]. cbn [owner]. replace (beqb id y) with false; [reflexivity|]. symmetry. apply beqb_neq. congruence.
      - intros o' Ho'. now apply nth_error_app1.
      - exists [TNew id (f_path f) o]. split; [reflexivity|]. apply Forall_cons; [unfold P; auto|constructor]. }
    destruct (existsb _ (b_fields b)); [cbn [after]; destruct I2 as [I2 _], F2 as (F2 & F3 & F4); auto|].
    assert (F3 : forall s3, r_chans s3 = r_chans s2 -> length (r_objs s3) = length (r_objs s2) -> (forall o', o' <> o -> nth_error (r_objs s3) o' = nth_error (r_objs s2) o') ->
      grows (quiet id) s2 s3 -> rinv s3 /\ owner (r_log s3) id = None /\
      (forall y, y <> id -> mget beqb (r_chans s3) y = mget beqb (r_chans s) y /\ owner (r_log s3) y = owner (r_log s) y) /\
      (forall o', o' < o -> nth_error (r_objs s3) o' = nth_error (r_objs s) o') /\ grows P s s3).
    { destruct I2 as [I2 Ho2], F2 as (F2 & F3 & F4). intros s3 E1 E2 E3 E4. pose proof (rinv_same s2 s3 _ (quiet_plain id) I2 E1 E2 E4) as I3. split; [exact I3|].
      destruct E4 as (d & Ed & Hd). assert (Hd' : Forall plain d) by (eapply Forall_impl; [|exact Hd]; apply quiet_plain). repeat apply conj.
      - rewrite Ed, owner_plain by assumption. exact Ho2.
      - intros y Hy. rewrite E1, Ed, owner_plain by assumption. auto.
      - intros o' Ho'. rewrite E3 by lia. auto.
      - eapply grows_trans; [exact F4|]. exists d. split; [exact Ed|]. eapply Forall_impl; [|exact Hd]. unfold P. auto. }
    assert (C3 : exists s3 out, (match b_init b with None => (s2, MNil) | Some m => call s2 id o None m (f_data f) end) = (s3, out) /\ r_chans s3 = r_chans s2 /\ length (r_objs s3) = length (r_objs s2) /\
      (forall o', o' <> o -> nth_error (r_objs s3) o' = nth_error (r_objs s2) o') /\ grows (quiet id) s2 s3).
    { destruct (b_init b) as [m|].
      - destruct (call s2 id o None m (f_data f)) as [s3 out] eqn:Ec. exists s3, out. split; [reflexivity|]. destruct (call_spec _ _ _ _ _ _ _ _ Ec) as (G1 & G2 & G3 & G4). repeat apply conj; auto.
        eapply grows_mono; [|exact G4]. intros t [Ht|(n & En & _)]; [exact Ht|discriminate].
      - exists s2, MNil. repeat apply conj; auto. apply grows_refl. }
    destruct C3 as (s3 & out & -> & E1 & E2 & E3 & E4). destruct (F3 s3 E1 E2 E3 E4) as (I3 & Ho3 & G1 & G2 & G3).
    destruct out as [|e|]; cbn [after]; [|auto|auto].
    assert (Hin : In (TNew id (f_path f) o) (r_log s3)). { destruct E4 as (d & -> & _). apply in_or_app. right. left. reflexivity. }
    destruct I3 as (J1 & J2 & J3 & J4). cbn [r_chans r_objs r_log]. split; [|split; [|split]].
    - unfold rinv. cbn [r_chans r_objs r_log owner made]. repeat apply conj; auto.
      + intros x ch. destruct (beqb id x) eqn:Ex.
        * apply beqb_eq in Ex. subst x. rewrite (mget_mset_eq beqb beqb_ok). intros E. injection E as <-. cbn [ch_id ch_obj ch_byPath]. repeat apply conj; eauto.
        * apply beqb_neq in Ex. rewrite (mget_mset_ne beqb beqb_ok) by assumption. auto.
      + intros x. destruct (beqb id x) eqn:Ex.
        * apply beqb_eq in Ex. subst x. rewrite (mget_mset_eq beqb beqb_ok). discriminate.
        * apply beqb_neq in Ex. rewrite (mget_mset_ne beqb beqb_ok) by assumption. auto.
      + intros y p o' [E|E]; [injection E as <- <- <-; right; exact Hin|right; auto].
    - intros y Hy. destruct (G1 y Hy) as [K1 K2]. split; [rewrite (mget_mset_ne beqb beqb_ok) by congruence; exact K1|]. cbn [owner]. replace (beqb id y) with false; [exact K2|]. symmetry. apply beqb_neq. congruence.
    - exact G2.
    - eapply grows_trans; [exact G3|]. exists [TReady id (f_path f) o]. split; [reflexivity|]. apply Forall_cons; [unfold P; auto|constructor].
  Qed.

  Lemma rinv_frame s f : rinv s -> rinv (after (onFrame s f)).
  Proof.
    intros Hi. unfold onFrame. destruct (beqb (f_type f) (B "close")).
    - destruct (is_closed s); cbn [after]; [exact Hi|]. eapply (rinv_same s _ plain); eauto. exists [TClosed]. split; [reflexivity|]. repeat constructor.
    - destruct (_ || _)%bool.
      + destruct (mget beqb reg (f_path f)) as [b|] eqn:Eb; [|exact Hi]. now apply open_spec.
      + destruct (mget beqb (r_chans s) (f_chan f)) as [ch|]; [|exact Hi]. destruct (onData_spec s ch f) as (P & HP & H1 & H2 & _ & H4).
        eapply (rinv_same s _ P); eauto. intros t Ht. destruct (HP t Ht) as [Hq| ->]; [eapply quiet_plain; eauto|constructor].
  Qed.
  Lemma rinv_reach s : reach s -> rinv s.
  Proof.
    induction 1 as [h|s f _ IH|s h _ IH].
    - unfold rinv. cbn [r_chans r_objs r_log mget owner made length seq rev]. repeat apply conj; auto. discriminate.
    - now apply rinv_frame.
    - exact IH.
  Qed.

  (* ---- requests ---- *)
  Lemma request_onFrame s f : request f = true -> onFrame s f = match mget beqb (r_chans s) (f_chan f) with Some ch => onData s ch f | None => FError s end.
  Proof. unfold request, onFrame. intros Hr. apply negb_true_iff in Hr. apply orb_false_iff in Hr as [Hr H3]. apply orb_false_iff in Hr as [H1 H2]. now rewrite H1, H2, H3. Qed.
  Lemma opening_onFrame s f : opening f = true -> onFrame s f = match mget beqb reg (f_path f) with Some b => open s b f | None => FError s end.
  Proof.
    unfold opening, onFrame. intros Ho. rewrite Ho. replace (beqb (f_type f) (B "close")) with false; [reflexivity|]. symmetry. apply beqb_neq. intros E. rewrite E in Ho. discriminate.
  Qed.
  Lemma unknown_channel s f : reach s -> request f = true -> owner (r_log s) (f_chan f) = None -> onFrame s f = FError s.
  Proof.
    intros Hs Hr Ho. destruct (rinv_reach s Hs) as (H1 & _). rewrite request_onFrame by assumption. destruct (mget beqb (r_chans s) (f_chan f)) as [ch|] eqn:Ec; [|reflexivity].
    destruct (H1 _ _ Ec) as [_ Hb]. rewrite Ho in Hb. unfold onData. rewrite Hb. reflexivity.
  Qed.
  Lemma known_channel s f p o : reach s -> request f = true -> owner (r_log s) (f_chan f) = Some (p, o) ->
    o < length (r_objs s) /\ exists b, mget beqb reg p = Some b /\ onFrame s f = onData s (Chan (f_chan f) o (b_methods b)) f /\ mget beqb (r_chans s) (f_chan f) = Some (Chan (f_chan f) o (b_methods b)).
  Proof.
    intros Hs Hr Ho. destruct (rinv_reach s Hs) as (H1 & H2 & H3 & H4). split.
    - apply owner_made in Ho; [|exact H4]. apply made_in in Ho. rewrite H3, <- in_rev, in_seq in Ho. lia.
    - rewrite request_onFrame by assumption. destruct (mget beqb (r_chans s) (f_chan f)) as [ch|] eqn:Ec; [|rewrite (H2 _ Ec) in Ho; discriminate].
      destruct (H1 _ _ Ec) as [Hi Hb]. rewrite Ho in Hb. destruct Hb as (Hc & b & Hb & Hm). exists b. destruct ch as [id o' m]. cbn [ch_id ch_obj ch_byPath] in *. subst. auto.
  Qed.

  (* every frame *)
  Lemma frame_close s f : beqb (f_type f) (B "close") = true -> onFrame s f = if is_closed s then FError s else FNil (note s TClosed).
  Proof. unfold onFrame. intros ->. reflexivity. Qed.
  Lemma frame_cases f : (beqb (f_type f) (B "close") = true /\ request f = false /\ opening f = false) \/ opening f = true /\ request f = false \/ request f = true /\ opening f = false.
  Proof.
    unfold request, opening. destruct (beqb (f_type f) (B "close")) eqn:E.
    - left. apply beqb_eq in E. rewrite E. auto.
    - cbn [orb]. destruct (_ || _); auto.
  Qed.
  Lemma frame_grows s f : reach s -> grows (fun t => quiet (f_chan f) t \/
      (opening f = true /\ (t = TNew (f_chan f) (f_path f) (length (r_objs s)) \/ t = TReady (f_chan f) (f_path f) (length (r_objs s)))) \/
      (request f = true /\ exists p o, owner (r_log s) (f_chan f) = Some (p, o) /\ t = TCall (f_chan f) o (f_path f))) s (after (onFrame s f)).
  Proof.
    intros Hs. destruct (frame_cases f) as [(Hc & Hr & Ho)|[(Ho & Hr)|(Hr & Ho)]].
    - rewrite frame_close by assumption. destruct (is_closed s); cbn [after]; [apply grows_refl|]. exists [TClosed]. split; [reflexivity|]. repeat constructor.
    - rewrite opening_onFrame by assumption. destruct (mget beqb reg (f_path f)) as [b|] eqn:Eb; [|apply grows_refl].
      destruct (open_spec s b f Eb (rinv_reach s Hs)) as (_ & _ & _ & Hg). eapply grows_mono; [|exact Hg]. intros t [Ht|Ht]; auto.
    - destruct (owner (r_log s) (f_chan f)) as [[p o]|] eqn:Eo.
      + destruct (known_channel s f p o Hs Hr Eo) as (_ & b & _ & -> & _). destruct (onData_spec s (Chan (f_chan f) o (b_methods b)) f) as (P & HP & _ & _ & _ & Hg).
        eapply grows_mono; [|exact Hg]. intros t Ht. destruct (HP t Ht) as [Hq| ->]; [now left|right; right; split; [exact Hr|]]. eauto.
      + rewrite unknown_channel by assumption. apply grows_refl.
  Qed.
  Lemma frame_isolated s f y : reach s -> y <> f_chan f ->
    mget beqb (r_chans (after (onFrame s f))) y = mget beqb (r_chans s) y /\ owner (r_log (after (onFrame s f))) y = owner (r_log s) y /\
    forall p o, owner (r_log s) y = Some (p, o) -> nth_error (r_objs (after (onFrame s f))) o = nth_error (r_objs s) o.
  Proof.
    intros Hs Hy. destruct (rinv_reach s Hs) as (_ & _ & H3 & H4). destruct (frame_cases f) as [(Hc & Hr & Ho)|[(Ho & Hr)|(Hr & Ho)]].
    - rewrite frame_close by assumption. destruct (is_closed s); cbn [after note r_chans r_log r_objs owner]; auto.
    - rewrite opening_onFrame by assumption. destruct (mget beqb reg (f_path f)) as [b|] eqn:Eb; [|auto].
      destruct (open_spec s b f Eb (rinv_reach s Hs)) as (_ & G1 & G2 & _). destruct (G1 y Hy) as [K1 K2]. repeat apply conj; auto.
      intros p o Hp. apply G2. apply owner_made in Hp; [|exact H4]. apply made_in in Hp. rewrite H3, <- in_rev, in_seq in Hp. lia.
    - destruct (owner (r_log s) (f_chan f)) as [[p o]|] eqn:Eo.
      + destruct (known_channel s f p o Hs Hr Eo) as (_ & b & _ & -> & _). destruct (onData_spec s (Chan (f_chan f) o (b_methods b)) f) as (P & HP & G1 & G2 & G3 & d & Ed & Hd).
        rewrite G1, Ed, owner_plain; [repeat apply conj; auto|].
        * intros q o' Hq. apply G3. cbn [ch_obj]. intros ->. apply Hy. apply owner_made in Hq; [|exact H4]. apply owner_made in Eo; [|exact H4].
          refine (proj1 (made_inj _ _ _ _ _ _ _ Hq Eo)). rewrite H3. apply NoDup_rev, seq_NoDup.
        * eapply Forall_impl; [|exact Hd]. intros t Ht. destruct (HP t Ht) as [Hq| ->]; [eapply quiet_plain; eauto|constructor].
      + rewrite unknown_channel by assumption. auto.
  Qed.
  Lemma owner_distinct s x p y q o : reach s -> owner (r_log s) x = Some (p, o) -> owner (r_log s) y = Some (q, o) -> x = y.
  Proof.
    intros Hs Hx Hy. destruct (rinv_reach s Hs) as (_ & _ & H3 & H4). apply owner_made in Hx; [|exact H4]. apply owner_made in Hy; [|exact H4].
    refine (proj1 (made_inj _ _ _ _ _ _ _ Hx Hy)). rewrite H3. apply NoDup_rev, seq_NoDup.
  Qed.
  Lemma frame_owner s f : reach s -> opening f = false -> owner (r_log (after (onFrame s f))) (f_chan f) = owner (r_log s) (f_chan f).
  Proof.
    intros Hs Ho. destruct (frame_grows s f Hs) as (d & -> & Hd). apply owner_plain. eapply Forall_impl; [|exact Hd].
    intros t [Hq|[[Hx _]|[_ (p & o & _ & ->)]]]; [eapply quiet_plain; eauto|congruence|constructor].
  Qed.
  Lemma frame_closed s f : reach s -> is_closed s = true -> is_closed (after (onFrame s f)) = true.
  Proof. intros Hs. eapply grows_closed. apply (frame_grows s f Hs). Qed.

  (* ---- what a request does ---- *)
  Lemma request_object s f p o b m a fs fs' h' acts out : reach s -> request f = true -> owner (r_log s) (f_chan f) = Some (p, o) ->
    mget beqb reg p = Some b -> byPath (b_methods b) (f_path f) = Some m -> m_dec m (f_data f) = inl a ->
    nth_error (r_objs s) o = Some fs -> m_run m fs (r_heap s) a = (fs', h', acts, out) ->
    nth_error (r_objs (after (onFrame s f))) o = Some fs' /\ r_heap (after (onFrame s f)) = h' /\
    exists d, r_log (after (onFrame s f)) = d ++ TCall (f_chan f) o (f_path f) :: r_log s.
  Proof.
    intros Hs Hr Ho Hb Hm Hd Hn Hrun. destruct (known_channel s f p o Hs Hr Ho) as (_ & b' & Hb' & -> & _). replace b' with b in * by congruence. clear Hb'.
    unfold onData. cbn [ch_byPath ch_id ch_obj]. rewrite Hm. unfold call. rewrite Hd, Hn, Hrun.
    set (s1 := Rpc _ _ _ _). destruct (acts_same (f_chan f) acts s1) as (H1 & H2 & H3 & d & H4 & _). set (s2 := fold_left _ acts s1) in *.
    assert (Hs2 : nth_error (r_objs s2) o = Some fs' /\ r_heap s2 = h' /\ exists d, r_log s2 = d ++ TCall (f_chan f) o (f_path f) :: r_log s).
    { rewrite H2, H3. split; [|split; [reflexivity|eauto]]. apply nth_error_upd_eq. apply nth_error_Some. congruence. }
    assert (Hsend : forall s3 g, nth_error (r_objs s3) o = Some fs' /\ r_heap s3 = h' /\ (exists d, r_log s3 = d ++ TCall (f_chan f) o (f_path f) :: r_log s) ->
      nth_error (r_objs (send s3 g)) o = Some fs' /\ r_heap (send s3 g) = h' /\ exists d, r_log (send s3 g) = d ++ TCall (f_chan f) o (f_path f) :: r_log s).
    { intros s3 g (G1 & G2 & dd & G3). destruct (send_same s3 g) as (_ & -> & ->). repeat apply conj; auto. destruct (send_grows s3 g) as (e & -> & _). exists (e ++ dd). rewrite G3. apply app_assoc. }
    destruct out as [|e|]; cbn [after]; auto. destruct (merr _ _ _ e); cbn [after]; auto.
  Qed.
  Lemma request_refused s f p o b m e : reach s -> request f = true -> owner (r_log s) (f_chan f) = Some (p, o) ->
    mget beqb reg p = Some b -> byPath (b_methods b) (f_path f) = Some m -> m_dec m (f_data f) = inr e ->
    r_objs (after (onFrame s f)) = r_objs s /\ r_heap (after (onFrame s f)) = r_heap s.
  Proof.
    intros Hs Hr Ho Hb Hm Hd. destruct (known_channel s f p o Hs Hr Ho) as (_ & b' & Hb' & -> & _). replace b' with b in * by congruence. clear Hb'.
    unfold onData. cbn [ch_byPath ch_id ch_obj]. rewrite Hm. unfold call. rewrite Hd. destruct (merr _ _ _ e); cbn [after]; [|auto].
    destruct (send_same (send s (Frame (f_chan f) (f_path f) (B "return") (Some a))) (Frame (f_chan f) [] (B "error") (Some (NStr (call_error user_msg status_text (f_chan f) (f_path f) e))))) as (_ & -> & ->).
    destruct (send_same s (Frame (f_chan f) (f_path f) (B "return") (Some a))) as (_ & -> & ->). auto.
  Qed.
  Lemma no_method s f p o b : reach s -> request f = true -> owner (r_log s) (f_chan f) = Some (p, o) -> mget beqb reg p = Some b ->
    byPath (b_methods b) (f_path f) = None -> onFrame s f = FError s.
  Proof.
    intros Hs Hr Ho Hb Hm. destruct (known_channel s f p o Hs Hr Ho) as (_ & b' & Hb' & -> & _). replace b' with b in * by congruence.
    unfold onData. cbn [ch_byPath]. now rewrite Hm.
  Qed.

  (* ---- replies ---- *)
  Lemma onData_sent s ch f s' : onData s ch f = FNil s' -> is_closed s' = false ->
    exists replies ret rest, sent (r_log s') = sent (r_log s) ++ replies ++ ret :: rest /\
      Forall (fun g => f_chan g = ch_id ch /\ f_type g = []) replies /\ f_type ret = B "return" /\ route ret = (ch_id ch, f_path f) /\
      ((f_data ret = None /\ rest = []) \/ (f_data ret <> None /\ exists msg, rest = [Frame (ch_id ch) [] (B "error") (Some (NStr msg))])).
  Proof.
    unfold onData. destruct (byPath _ _) as [m|]; [|discriminate]. destruct (call _ _ _ _ _ _) as [s1 out] eqn:Ec. intros E Hc.
    assert (Hc1 : is_closed s1 = false).
    { destruct (is_closed s1) eqn:Ex; [|reflexivity]. rewrite <- Hc. destruct out as [|e|]; [|destruct (merr _ _ _ e); [|discriminate]|discriminate]; injection E as <-; rewrite ?send_closed; auto; rewrite ?send_closed; auto. }
    destruct (call_sent _ _ _ _ _ _ _ _ Ec Hc1) as (l & El & Hl).
    destruct out as [|e|]; [|destruct (merr _ _ _ e) as [n|]; [|discriminate]|discriminate]; apply (f_equal after) in E; cbn [after] in E; subst s'.
    - destruct (send_sent s1 (Frame (ch_id ch) (f_path f) (B "return") None) Hc1) as [-> _]. rewrite El, <- app_assoc.
      eexists l, _, []. split; [reflexivity|]. repeat apply conj; auto.
    - destruct (send_sent s1 (Frame (ch_id ch) (f_path f) (B "return") (Some n)) Hc1) as [E2 Hc2].
      destruct (send_sent _ (Frame (ch_id ch) [] (B "error") (Some (NStr (call_error user_msg status_text (ch_id ch) (f_path f) e)))) Hc2) as [-> _]. rewrite E2, El, <- !app_assoc.
      eexists l, _, [_]. split; [reflexivity|]. repeat apply conj; auto. right. split; [discriminate|eauto].
  Qed.
  Lemma returns_none l (Q : frame -> Prop) : Forall (fun g => Q g /\ f_type g = []) l -> filter return_ l = [].
  Proof. induction 1 as [|g l [_ Hg] _ IH]; cbn [filter]; [reflexivity|]. unfold return_ at 1. rewrite Hg. exact IH. Qed.
  Lemma open_sent s b f : is_closed (after (open s b f)) = false -> exists l, sent (r_log (after (open s b f))) = sent (r_log s) ++ l /\ Forall (fun g => f_chan g = f_chan f /\ f_type g = []) l.
  Proof.
    unfold open. cbn [r_chans r_objs r_heap r_log]. destruct (existsb _ (b_fields b)); [intros _; exists []; cbn [after r_log sent]; rewrite app_nil_r; auto|].
    set (s2 := Rpc _ _ _ _). destruct (b_init b) as [m|].
    - destruct (call s2 (f_chan f) (length (r_objs s)) None m (f_data f)) as [s3 out] eqn:Ec. intros Hc.
      destruct (call_sent _ _ _ _ _ _ _ _ Ec) as (l & El & Hl); [destruct out; exact Hc|]. exists l. split; [|exact Hl]. destruct out; exact El.
    - intros _. exists []. cbn [after r_log sent s2]. rewrite app_nil_r. auto.
  Qed.
  Lemma frame_returns s f s' : reach s -> onFrame s f = FNil s' -> is_closed s' = false ->
    map route (filter return_ (sent (r_log s'))) = map route (filter return_ (sent (r_log s))) ++ (if request f then [route f] else []).
  Proof.
    intros Hs E Hc. destruct (frame_cases f) as [(Hx & Hr & Ho)|[(Ho & Hr)|(Hr & Ho)]]; rewrite Hr.
    - rewrite frame_close in E by assumption. destruct (is_closed s); [discriminate|]. injection E as <-. discriminate.
    - rewrite opening_onFrame in E by assumption. destruct (mget beqb reg (f_path f)) as [b|]; [|discriminate].
      destruct (open_sent s b f) as (l & El & Hl); rewrite E in *; cbn [after] in *; [exact Hc|]. rewrite El, filter_app, (returns_none l _ Hl), !app_nil_r. reflexivity.
    - destruct (owner (r_log s) (f_chan f)) as [[p o]|] eqn:Eo.
      + destruct (known_channel s f p o Hs Hr Eo) as (_ & b & _ & Ef & _). rewrite Ef in E. destruct (onData_sent _ _ _ _ E Hc) as (l & ret & rest & -> & Hl & Ht & Hrt & Hd).
        rewrite !filter_app, (returns_none l _ Hl). cbn [filter app]. unfold return_ at 2. rewrite Ht, beqb_refl.
        replace (filter return_ rest) with (@nil frame); [rewrite map_app; cbn [map]; rewrite Hrt; reflexivity|]. destruct Hd as [[_ ->]|[_ (msg & ->)]]; reflexivity.
      + rewrite unknown_channel in E by assumption. discriminate.
  Qed.
  Lemma frames_returns fs : forall s s', reach s -> frames user_msg status_text user_node reg s fs = Some s' -> is_closed s' = false ->
    map route (filter return_ (sent (r_log s'))) = map route (filter return_ (sent (r_log s))) ++ map route (filter request fs).
  Proof.
    induction fs as [|f fs IH]; intros s s' Hs E Hc; cbn [frames filter] in *; [injection E as <-; cbn [map]; now rewrite app_nil_r|].
    destruct (onFrame s f) as [s1|s1|s1] eqn:E1; [|discriminate..]. assert (Hs1 : reach s1) by (pose proof (reach_frame _ _ _ _ s f Hs) as Hx; rewrite E1 in Hx; exact Hx).
    assert (Hc1 : is_closed s1 = false).
    { clear IH. destruct (is_closed s1) eqn:Ex; [|reflexivity]. rewrite <- Hc. clear Hs E1 Hc. revert s1 Hs1 E Ex. induction fs as [|g fs IH]; intros s1 Hs1 E Ex; cbn [frames] in E; [injection E as <-; auto|].
      pose proof (frame_closed s1 g Hs1 Ex) as Hx. pose proof (reach_frame _ _ _ _ s1 g Hs1) as Hy. destruct (onFrame s1 g) as [s2|s2|s2]; [|discriminate..]. eauto. }
    rewrite (IH _ _ Hs1 E Hc), (frame_returns s f s1 Hs E1 Hc1). destruct (request f); cbn [map]; rewrite <- app_assoc; reflexivity.
  Qed.
  (* after closing, nothing is sent *)
  Lemma closed_sent s f : is_closed s = true -> sent (r_log (after (onFrame s f))) = sent (r_log s).
  Proof.
    intros Hc. assert (Hcall : forall s1 id o n m req, is_closed s1 = true -> is_closed (fst (call s1 id o n m req)) = true /\ sent (r_log (fst (call s1 id o n m req))) = sent (r_log s1)).
    { intros s1 id o n m req H1. unfold call. destruct (m_dec m req) as [a|e]; [|auto]. destruct (nth_error (r_objs s1) o); [|auto]. destruct (m_run m l (r_heap s1) a) as [[[fs' h'] acts] out]. cbn [fst].
      set (s2 := Rpc _ _ _ _). assert (H2 : is_closed s2 = true /\ sent (r_log s2) = sent (r_log s1)) by (unfold s2; destruct n; auto). clearbody s2. revert s2 H2.
      induction acts as [|x acts IH]; intros s2 [H2 H3]; cbn [fold_left]; [auto|]. replace (do_act id s2 x) with s2; [auto|]. destruct x; cbn [do_act]; [now rewrite send_closed|now rewrite H2]. }
    unfold onFrame. destruct (beqb (f_type f) (B "close")); [now rewrite Hc|]. destruct (_ || _)%bool.
    - destruct (mget beqb reg (f_path f)) as [b|]; [|reflexivity]. unfold open. cbn [r_chans r_objs r_heap r_log]. destruct (existsb _ (b_fields b)); [reflexivity|].
      set (s2 := Rpc _ _ _ _). destruct (b_init b) as [m|]; [|reflexivity]. destruct (Hcall s2 (f_chan f) (length (r_objs s)) None m (f_data f) Hc) as [H1 H2].
      destruct (call s2 _ _ _ _ _) as [s3 out]. destruct out; exact H2.
    - destruct (mget beqb (r_chans s) (f_chan f)) as [ch|]; [|reflexivity]. unfold onData. destruct (byPath _ _) as [m|]; [|reflexivity].
      destruct (Hcall s (ch_id ch) (ch_obj ch) (Some (f_path f)) m (f_data f) Hc) as [H1 H2]. destruct (call s _ _ _ _ _) as [s1 out]. cbn [fst] in *.
      destruct out as [|e|]; [|destruct (merr _ _ _ e)|]; cbn [after]; rewrite ?send_closed; auto; rewrite ?send_closed; auto.
  Qed.

  (* ---- errors ---- *)
  Lemma merr_ok e : marshalable user_node e -> exists n, merr user_msg status_text user_node e = Ok n.
  Proof.
    assert (Ho : forall c o, (match o with Some e' => exists n, merr user_msg status_text user_node e' = Ok n | None => True end) ->
      exists n, rbind (match o with None => Ok NNil | Some e' => merr user_msg status_text user_node e' end) (fun n => Ok (NPairs [((B "Code", B "Code"), NInt c); ((B "Err", B "Err"), n)])) = Ok n).
    { intros c [e'|] Hx; [destruct Hx as [n ->]|]; cbn [rbind]; eauto. }
    revert e. fix IH 1. intros [p m|p m e'|p m l|i e'|p i e'|c o|p c o| |g|p o]; cbn [marshalable merr]; eauto.
    - intros Hm. apply Ho. destruct o as [e'|]; [exact (IH e' Hm)|constructor].
    - intros Hm. apply Ho. destruct o as [e'|]; [exact (IH e' Hm)|constructor].
    - destruct (user_node p); [eauto|tauto].
  Qed.
  Lemma error_open s f p o b m e : reach s -> request f = true -> owner (r_log s) (f_chan f) = Some (p, o) ->
    mget beqb reg p = Some b -> byPath (b_methods b) (f_path f) = Some m ->
    (m_dec m (f_data f) = inr e \/ exists a fs x, m_dec m (f_data f) = inl a /\ nth_error (r_objs s) o = Some fs /\ m_run m fs (r_heap s) a = (x, MError e)) ->
    (marshalable user_node e -> exists s', onFrame s f = FNil s') /\
    (merr user_msg status_text user_node e = Panic -> exists s', onFrame s f = FError s').
  Proof.
    intros Hs Hr Ho Hb Hm He. destruct (known_channel s f p o Hs Hr Ho) as (_ & b' & Hb' & -> & _). replace b' with b in * by congruence. clear Hb'.
    unfold onData. cbn [ch_byPath ch_id ch_obj]. rewrite Hm.
    assert (Hc : exists s1, call s (f_chan f) o (Some (f_path f)) m (f_data f) = (s1, MError e)).
    { unfold call. destruct He as [->|(a & fs & x & -> & -> & Hrun)]; [eauto|]. rewrite Hrun. destruct x as [[fs' h'] acts]. eauto. }
    destruct Hc as [s1 ->]. split.
    - intros Hx. destruct (merr_ok e Hx) as [n ->]. eauto.
    - intros ->. eauto.
  Qed.
End Rpc.
