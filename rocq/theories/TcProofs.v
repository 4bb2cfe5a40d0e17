(* The invariant of the test client of http/ws. *)
From Coq Require Import Bool Ascii String Arith NArith ZArith Lia List.
From Verif Require Import Prelude PreludeFacts Utf8Model DecModel DurModel DurProofs EncModel KvProofs JsonModel JsonSpec CtxModel ErrModel MarModel WsModel WsSpec WsRpc TcModel TcSpec TcWire.
Import ListNotations.

Lemma fair_result d : fair d (result_of d).
Proof.
  unfold fair, result_of, arrived. destruct d as [n|]; [|left; split; [exact Logic.I|reflexivity]].
  destruct (is_empty n) eqn:E; [left; split; [now apply void_empty|reflexivity]|right]. exists n. split; [reflexivity|]. split; [|reflexivity]. intros Hv. apply void_empty in Hv. congruence.
Qed.
Lemma skipn_app_len {X} (a b : list X) : skipn (length a) (a ++ b) = b.
Proof. induction a; cbn; auto. Qed.

(* ---- the phases of a channel: calls, answers, ech, results on their way, requests on their way ---- *)
Definition done (cs : list (bytes * kst)) : Prop := ~ In KWait (map snd cs).
Definition nil_ (x : bytes * option node) : Prop := snd x = None.
Inductive phase (cs : list (bytes * kst)) (R : list (bytes * option node)) (e : option (option result)) (q a : list frame) : Prop :=
| P0 : done cs -> length R = length cs -> Forall nil_ R -> (e = None \/ e = Some None) -> q = [] -> a = [] -> phase cs R e q a
| P1 c0 p f : cs = c0 ++ [(p, KWait)] -> done c0 -> length R = length c0 -> Forall nil_ R -> e = Some None -> q = [] -> a = [f] -> f_path f = p -> phase cs R e q a
| P2 c0 p R0 d ret rest : cs = c0 ++ [(p, KWait)] -> done c0 -> R = R0 ++ [(p, d)] -> length R0 = length c0 -> Forall nil_ R0 -> e = Some None -> a = [] ->
    q = ret :: rest -> f_data ret = d -> (d = None -> rest = []) -> phase cs R e q a
| P3 c0 p R0 d : cs = c0 ++ [(p, KWait)] -> done c0 -> R = R0 ++ [(p, d)] -> length R0 = length c0 -> Forall nil_ R0 -> e = Some (Some (result_of d)) -> a = [] ->
    (d = None -> q = []) -> phase cs R e q a
| P4 c0 p : cs = c0 ++ [(p, KWait)] -> done c0 -> e = Some None -> q = [] -> a = [] -> phase cs R e q a
| PB j p d : nth_error R j = Some (p, Some d) -> (forall i, i <= j -> exists p x, nth_error cs i = Some (p, x) /\ x <> KWait) -> phase cs R e q a.
Definition good (cs : list (bytes * kst)) (R : list (bytes * option node)) : Prop :=
  forall k p r, nth_error cs k = Some (p, KRet r) -> (forall j, j < k -> exists p, nth_error R j = Some (p, None)) ->
    exists d, nth_error R k = Some (p, d) /\ fair d r.

Lemma done_last c0 p : ~ done (c0 ++ [(p, KWait)]).
Proof. intros HD. apply HD. rewrite map_app. apply in_or_app. right. cbn. auto. Qed.
Lemma nth_app_l {X} (l l' : list X) k x : nth_error l k = Some x -> nth_error (l ++ l') k = Some x.
Proof. intros E. rewrite nth_error_app1; [exact E|]. apply nth_error_Some. congruence. Qed.
Lemma nth_last {X} (l : list X) x : nth_error (l ++ [x]) (length l) = Some x.
Proof. rewrite nth_error_app2, Nat.sub_diag; auto. Qed.
Lemma good_more cs R R' : good cs R -> (forall k p r, nth_error cs k = Some (p, KRet r) -> k < length R) -> good cs (R ++ R').
Proof.
  intros G L k p r Hk HJ. destruct (G k p r Hk) as (d & Hd & F).
  - intros j Hj. destruct (HJ j Hj) as (p' & E). exists p'. rewrite nth_error_app1 in E; [exact E|]. specialize (L k p r Hk). lia.
  - exists d. split; [now apply nth_app_l|exact F].
Qed.
Lemma split_wait (c1 c2 c0 : list (bytes * kst)) p p0 : c1 ++ (p, KWait) :: c2 = c0 ++ [(p0, KWait)] -> done c0 -> c1 = c0 /\ c2 = [] /\ p = p0.
Proof.
  revert c0. induction c1 as [|x c1 IH]; intros c0 E D.
  - destruct c0 as [|y c0]; cbn in E; [injection E as <- <-; auto|]. injection E as <- E. exfalso. apply D. cbn. auto.
  - destruct c0 as [|y c0]; cbn in E.
    + exfalso. injection E as _ E. destruct c1; discriminate.
    + injection E as -> E. destruct (IH c0 E) as (-> & -> & ->); [|auto]. intros HI. apply D. cbn. auto.
Qed.

(* a call is made *)
Lemma ph_call cs R e q a p f : phase cs R e q a -> done cs -> e <> None -> f_path f = p -> phase (cs ++ [(p, KWait)]) R e q (a ++ [f]).
Proof.
  intros [D L N E Q A|? ? ? -> D|? ? ? ? ? ? -> D|? ? ? ? -> D|? ? -> D|j p' d Hj HC] Hd He Hf; try (now apply done_last in Hd).
  - subst a. destruct E as [->| ->]; [congruence|]. apply (P1 _ _ _ _ _ cs p f); auto.
  - eapply PB; [exact Hj|]. intros i Hi. destruct (HC i Hi) as (p1 & x & E & Hx). exists p1, x. split; [now apply nth_app_l|exact Hx].
Qed.
Lemma good_call cs R p : good cs R -> good (cs ++ [(p, KWait)]) R.
Proof.
  intros G k p' r Hk HJ. apply (G k p' r); [|exact HJ]. assert (Hl : k < length (cs ++ [(p, KWait)])) by (apply nth_error_Some; congruence).
  rewrite app_length in Hl. cbn in Hl. destruct (Nat.eq_dec k (length cs)) as [->|]; [rewrite nth_last in Hk; congruence|]. rewrite nth_error_app1 in Hk by lia. exact Hk.
Qed.
(* a request is handled, with an answer or without *)
Lemma ph_served cs R e f a tail : phase cs R e [] (f :: a) ->
  (tail = [] \/ exists d rest, tail = Frame (f_chan f) (f_path f) (B "return") d :: rest /\ (d = None -> rest = [])) ->
  phase cs (R ++ match tail with g :: _ => [(f_path g, f_data g)] | [] => [] end) e tail a.
Proof.
  intros [D L N E Q A|c0 p f' -> D L N E Q A Hp|? ? ? ? ? ? ? ? ? ? ? ? A|? ? ? ? ? ? ? ? ? ? A|? ? ? ? ? ? A|j p' d Hj HC] Ht; try discriminate A.
  - injection A as <- ->. destruct Ht as [->|(d & rest & -> & Hr)].
    + eapply P4; eauto.
    + eapply P2; eauto. cbn [f_path f_data]. now subst p.
  - eapply PB; [apply nth_app_l; exact Hj|exact HC].
Qed.
Lemma good_served cs R e f a tail : phase cs R e [] (f :: a) -> good cs R -> good cs (R ++ tail).
Proof.
  intros P G. destruct P as [D L N E Q A|c0 p f' -> D L N E Q A Hp|? ? ? ? ? ? ? ? ? ? ? ? A|? ? ? ? ? ? ? ? ? ? A|? ? ? ? ? ? A|j p' d Hj HC]; try discriminate A.
  - apply good_more; [exact G|]. intros k p' r Hk. rewrite L. destruct (Nat.lt_ge_cases k (length c0)) as [|Hge]; [assumption|]. exfalso.
    rewrite nth_error_app2 in Hk by assumption. destruct (k - length c0) as [|[|x]]; discriminate.
  - intros k p r Hk HJ. destruct (Nat.lt_ge_cases j k) as [Hlt|Hge].
    + exfalso. destruct (HJ j Hlt) as (p1 & E1). pose proof (nth_app_l R tail _ _ Hj) as E2. congruence.
    + assert (Hk' : k < length R) by (assert (j < length R) by (apply nth_error_Some; congruence); lia).
      destruct (G k p r Hk) as (d1 & E1 & F1); [|exists d1; split; [now apply nth_app_l|exact F1]].
      intros i Hi. destruct (HJ i Hi) as (p1 & E1). exists p1. rewrite nth_error_app1 in E1 by lia. exact E1.
Qed.
(* a result reaches the client *)
Lemma ph_push cs R e f q a : phase cs R (Some e) (f :: q) a -> phase cs R (Some (match e with None => Some (result_of (f_data f)) | Some r => Some r end)) q a.
Proof.
  intros [D L N E Q A|? ? ? ? ? ? ? ? Q|c0 p R0 d ret rest -> D -> L N E A Q Hd Hr|c0 p R0 d -> D -> L N E A Hq|? ? ? ? ? Q|j p' d Hj HC]; try discriminate Q.
  - injection E as ->. injection Q as -> ->. eapply P3; eauto. now rewrite Hd.
  - injection E as ->. eapply P3; eauto. intros E. now apply Hq in E.
  - eapply PB; eauto.
Qed.
Lemma ph_lost cs R e q a : phase cs R e q a -> phase cs R e [] a.
Proof.
  intros [D L N E Q A|? ? ? -> D L N E Q A|? ? ? ? ? ? -> D -> L N E A Q Hd Hr|? ? ? ? -> D -> L N E A Hq|? ? -> D E Q A|j p' d Hj HC].
  - apply P0; auto.
  - eapply P1; eauto.
  - eapply P4; eauto.
  - eapply P3; eauto.
  - eapply P4; eauto.
  - eapply PB; eauto.
Qed.
Lemma ph_none cs R f q a : phase cs R None (f :: q) a -> phase cs R None q a.
Proof.
  intros [D L N E Q A|? ? ? ? ? ? ? ? Q|? ? ? ? ? ? ? D ? L N E|? ? ? ? ? D ? L N E|? ? ? ? ? Q|j p' d Hj HC]; try discriminate Q; try discriminate E. eapply PB; eauto.
Qed.
Lemma ph_fresh cs R q a : phase cs R None q a -> phase cs R (Some None) q a.
Proof.
  intros [D L N E Q A|? ? ? ? ? ? ? E Q|? ? ? ? ? ? ? D ? L N E|? ? ? ? ? D ? L N E|? ? ? ? E Q|j p' d Hj HC]; try discriminate E; [apply P0; auto|eapply PB; eauto].
Qed.
(* a call gets it *)
Lemma ph_take c1 c2 p r R q a : phase (c1 ++ (p, KWait) :: c2) R (Some (Some r)) q a -> phase (c1 ++ (p, KRet r) :: c2) R (Some None) q a.
Proof.
  intros [D L N E Q A|? ? ? Ec D L N E Q A|? ? ? ? ? ? Ec D ER L N E A Q Hd Hr|c0 p0 R0 d Ec D -> L N E A Hq|? ? Ec D E Q A|j p' d Hj HC]; try discriminate E.
  - destruct E; discriminate.
  - destruct (split_wait _ _ _ _ _ Ec D) as (-> & -> & ->). injection E as ->. destruct d as [n|].
    + apply PB with (length R0) p0 n; [apply nth_last|]. intros i Hi. rewrite L in Hi. destruct (Nat.eq_dec i (length c0)) as [->|Hne].
      * exists p0, (KRet (result_of (Some n))). split; [apply nth_last|discriminate].
      * destruct (nth_error c0 i) as [[p1 x]|] eqn:Ei; [|apply nth_error_None in Ei; lia]. exists p1, x. split; [now apply nth_app_l|].
        intros ->. apply D. apply in_map_iff. exists (p1, KWait). split; [reflexivity|]. now apply nth_error_In in Ei.
    + apply P0; auto.
      * intros HI. rewrite map_app, in_app_iff in HI. destruct HI as [HI|[HI|[]]]; [now apply D|discriminate].
      * rewrite !app_length. cbn. lia.
      * apply Forall_app. split; [exact N|]. repeat constructor.
  - eapply PB; [exact Hj|]. intros i Hi. destruct (HC i Hi) as (p1 & x & Ei & Hx). destruct (Nat.lt_ge_cases i (length c1)) as [Hl|Hl].
    + exists p1, x. rewrite nth_error_app1 in * by assumption. auto.
    + rewrite nth_error_app2 in * by assumption. destruct (i - length c1) as [|m]; cbn in *; [injection Ei as <- <-; congruence|eauto].
Qed.
Lemma good_take c1 c2 p r R q a : phase (c1 ++ (p, KWait) :: c2) R (Some (Some r)) q a -> good (c1 ++ (p, KWait) :: c2) R -> good (c1 ++ (p, KRet r) :: c2) R.
Proof.
  intros P G k p' r' Hk HJ. destruct (Nat.eq_dec k (length c1)) as [->|Hne].
  - rewrite nth_error_app2, Nat.sub_diag in Hk by lia. cbn in Hk. injection Hk as <- <-.
    destruct P as [D L N E Q A|? ? ? Ec D L N E Q A|? ? ? ? ? ? Ec D ER L N E A Q Hd Hr|c0 p0 R0 d Ec D -> L N E A Hq|? ? Ec D E Q A|j p1 d Hj HC]; try discriminate E.
    + destruct E; discriminate.
    + destruct (split_wait _ _ _ _ _ Ec D) as (-> & -> & ->). injection E as ->. exists d. rewrite <- L, nth_last. split; [reflexivity|apply fair_result].
    + exfalso. destruct (Nat.lt_ge_cases j (length c1)) as [Hl|Hl]; [destruct (HJ j Hl) as (p2 & E2); congruence|].
      destruct (HC (length c1) Hl) as (p2 & x & E2 & Hx). rewrite nth_error_app2, Nat.sub_diag in E2 by lia. cbn in E2. injection E2 as <- <-. congruence.
  - apply (G k p' r'); [|exact HJ]. destruct (Nat.lt_ge_cases k (length c1)) as [Hl|Hl].
    + rewrite nth_error_app1 in * by assumption. exact Hk.
    + rewrite nth_error_app2 in * by assumption. destruct (k - length c1) as [|m] eqn:Em; [lia|]. exact Hk.
Qed.

(* ---- the server ---- *)
Section Client.
  Context {V A H : Type} (user_msg : N -> bytes) (status_text : Z -> bytes) (user_node : N -> res node) (reg : @registry V A H).
  Notation tst := (tst V A H).
  Notation onFrame := (onFrame user_msg status_text user_node reg).
  Notation onData := (onData user_msg status_text user_node).
  Notation reach := (reach user_msg status_text user_node reg).
  Notation tstep := (tstep user_msg status_text user_node reg).
  Notation texec := (texec user_msg status_text user_node reg).
  Implicit Types s : tst.

  Definition reply_on (id : bytes) (f : frame) : Prop := f_chan f = id /\ f_type f = [].
  Lemma acts_sent2 id acts : forall r : @rpc V A H,
    exists l, sent (r_log (fold_left (do_act id) acts r)) = sent (r_log r) ++ l /\ Forall (reply_on id) l.
  Proof.
    induction acts as [|x acts IH]; intros r; cbn [fold_left]; [exists []; rewrite app_nil_r; auto|].
    destruct (IH (do_act id r x)) as (l & E & Hl). destruct x as [p n|]; cbn [do_act] in *.
    - destruct (is_closed r) eqn:Es.
      + exists l. rewrite send_closed in * by assumption. auto.
      + destruct (send_sent r (Frame id p [] (Some n)) Es) as [Es1 _]. rewrite Es1 in E. rewrite <- app_assoc in E. eexists. split; [exact E|]. constructor; [split; reflexivity|auto].
    - exists l. destruct (is_closed r); auto.
  Qed.
  Lemma call_sent2 (r : @rpc V A H) id o name m req r' out : call r id o name m req = (r', out) ->
    exists l, sent (r_log r') = sent (r_log r) ++ l /\ Forall (reply_on id) l.
  Proof.
    unfold call. destruct (m_dec m req) as [a|e]; [|intros E; injection E as <- <-; exists []; rewrite app_nil_r; auto].
    destruct (nth_error (r_objs r) o) as [fs|]; [|intros E; injection E as <- <-; exists []; rewrite app_nil_r; auto].
    destruct (m_run m fs (r_heap r) a) as [[[fs' h'] acts] out']. intros E. injection E as <- <-.
    match goal with |- context [fold_left _ _ ?x] => destruct (acts_sent2 id acts x) as (l & E & Hl) end. exists l. split; [|exact Hl]. rewrite E. f_equal. destruct name; reflexivity.
  Qed.
  (* what comes after the replies of a method *)
  Definition answer (f : frame) (tail : list frame) : Prop :=
    tail = [] \/ exists d rest, tail = Frame (f_chan f) (f_path f) (B "return") d :: rest /\
      ((d = None /\ rest = []) \/ (d <> None /\ exists msg, rest = [Frame (f_chan f) [] (B "error") (Some (NStr msg))])).
  Lemma onData_sent2 (r : @rpc V A H) ch f : ch_id ch = f_chan f -> exists l tail,
    sent (r_log (after (onData r ch f))) = sent (r_log r) ++ l ++ tail /\ Forall (reply_on (f_chan f)) l /\ answer f tail.
  Proof.
    intros Hi. unfold onData. rewrite Hi. destruct (byPath _ _) as [m|]; [|exists [], []; cbn [after app]; rewrite app_nil_r; repeat split; auto; now left].
    destruct (call _ _ _ _ _ _) as [r1 out] eqn:Ec. destruct (call_sent2 _ _ _ _ _ _ _ _ Ec) as (l & El & Hl).
    assert (Hn : exists l0 tail, sent (r_log r1) = sent (r_log r) ++ l0 ++ tail /\ Forall (reply_on (f_chan f)) l0 /\ answer f tail) by (exists l, []; rewrite app_nil_r; repeat split; auto; now left).
    destruct out as [|e|]; [|destruct (merr _ _ _ e) as [n|]; [|exact Hn]|exact Hn]; cbn [after]; (destruct (is_closed r1) eqn:Hc; [rewrite !send_closed by (rewrite ?send_closed; assumption); exact Hn|]).
    - destruct (send_sent r1 (Frame (f_chan f) (f_path f) (B "return") None) Hc) as [-> _]. rewrite El, <- app_assoc. exists l. eexists. split; [reflexivity|]. split; [exact Hl|]. right. eexists _, _. split; [reflexivity|]. left. auto.
    - destruct (send_sent r1 (Frame (f_chan f) (f_path f) (B "return") (Some n)) Hc) as [E2 Hc2].
      destruct (send_sent _ (Frame (f_chan f) [] (B "error") (Some (NStr (call_error user_msg status_text (f_chan f) (f_path f) e)))) Hc2) as [-> _]. rewrite E2, El, <- !app_assoc.
      exists l. eexists. split; [reflexivity|]. split; [exact Hl|]. right. eexists _, _. split; [reflexivity|]. right. split; [discriminate|eauto].
  Qed.
  Lemma open_sent2 (r : @rpc V A H) b f : exists l, sent (r_log (after (open r b f))) = sent (r_log r) ++ l /\ Forall (reply_on (f_chan f)) l.
  Proof.
    unfold open. cbn [r_chans r_objs r_heap r_log]. destruct (existsb _ (b_fields b)); [exists []; cbn [after r_log sent]; rewrite app_nil_r; auto|].
    set (s2 := Rpc _ _ _ _). destruct (b_init b) as [m|].
    - destruct (call s2 (f_chan f) (length (r_objs r)) None m (f_data f)) as [s3 out] eqn:Ec.
      destruct (call_sent2 _ _ _ _ _ _ _ _ Ec) as (l & El & Hl). exists l. split; [|exact Hl]. destruct out; exact El.
    - exists []. cbn [after r_log sent s2]. rewrite app_nil_r. auto.
  Qed.
  Definition plain_frame (f : frame) : Prop := f_type f = [] \/ f_type f = B "open".
  Lemma served (r : @rpc V A H) f : reach r -> plain_frame f -> exists l tail,
    sent (r_log (after (onFrame r (arrive f)))) = sent (r_log r) ++ l ++ tail /\ Forall (reply_on (f_chan f)) l /\ answer f tail /\ (f_type f <> [] -> tail = []).
  Proof.
    intros Hs Hp. assert (Hn : exists l tail, sent (r_log r) = sent (r_log r) ++ l ++ tail /\ Forall (reply_on (f_chan f)) l /\ answer f tail /\ (f_type f <> [] -> tail = [])).
    { exists [], []. rewrite app_nil_r. split; [reflexivity|]. split; [constructor|]. split; [now left|auto]. }
    destruct Hp as [Ht|Ht].
    - rewrite request_onFrame by (unfold request, arrive; cbn [f_type]; rewrite Ht; reflexivity). cbn [arrive f_chan].
      destruct (mget beqb (r_chans r) (f_chan f)) as [ch|] eqn:Ec; [|exact Hn].
      destruct (rinv_reach _ _ _ _ _ Hs) as (Hi & _). destruct (Hi _ _ Ec) as [Hid _].
      destruct (onData_sent2 r ch (arrive f) Hid) as (l & tail & E & Hl & Ha). exists l, tail. repeat apply conj; auto. intros X. now apply X in Ht.
    - rewrite opening_onFrame by (unfold opening, arrive; cbn [f_type]; rewrite Ht; reflexivity). cbn [arrive f_path].
      destruct (mget beqb reg (f_path f)) as [b|]; [|exact Hn]. destruct (open_sent2 r b (arrive f)) as (l & E & Hl). exists l, []. rewrite app_nil_r. repeat apply conj; auto. now left.
  Qed.

  (* ---- the invariant ---- *)
  Definition pend s : list frame := if t_half s then tl (t_out s) else t_out s.
  Definition results (ch : bytes) (l : list frame) : list frame := filter (fun f => beqb (f_chan f) ch && (beqb (f_type f) (B "return") || beqb (f_type f) (B "error"))) l.
  Definition asks (ch : bytes) (l : list frame) : list frame := filter (fun f => beqb (f_chan f) ch && beqb (f_type f) []) l.
  Definition tinv s : Prop := reach (t_rpc s) /\ Forall plain_frame (t_in s) /\
    forall ch, phase (calls s ch) (answers s ch) (mget beqb (t_ech s) ch) (results ch (pend s)) (asks ch (t_in s)) /\ good (calls s ch) (answers s ch).

  Lemma results_replies ch id l : Forall (reply_on id) l -> results ch l = [].
  Proof. unfold results. induction 1 as [|f l [_ Ht] _ IH]; cbn [filter]; [reflexivity|]. rewrite Ht. cbn [beqb B]. rewrite andb_comm. exact IH. Qed.
  Definition back (ch : bytes) (l : list frame) : list (bytes * option node) := map (fun f => (f_path f, f_data f)) (filter (fun f => return_ f && beqb (f_chan f) ch) l).
  Lemma back_replies ch id l : Forall (reply_on id) l -> back ch l = [].
  Proof. unfold back. induction 1 as [|f l [_ Ht] _ IH]; cbn [filter map]; [reflexivity|]. unfold return_ at 1. rewrite Ht. exact IH. Qed.
  Lemma back_app ch l l' : back ch (l ++ l') = back ch l ++ back ch l'.
  Proof. unfold back. now rewrite filter_app, map_app. Qed.
  Lemma results_app ch l l' : results ch (l ++ l') = results ch l ++ results ch l'.
  Proof. apply filter_app. Qed.
  Lemma answer_other ch f tail : answer f tail -> f_chan f <> ch -> results ch tail = [] /\ back ch tail = [].
  Proof.
    intros Ha Hne. assert (E : beqb (f_chan f) ch = false) by (destruct (beqb (f_chan f) ch) eqn:E; [apply beqb_eq in E; congruence|reflexivity]).
    destruct Ha as [->|(d & rest & -> & [[_ ->]|[_ (msg & ->)]])]; unfold results, back; cbn [filter f_chan f_type]; rewrite ?E, ?andb_false_r; auto.
  Qed.
  Lemma answer_same f tail : answer f tail -> results (f_chan f) tail = tail /\
    back (f_chan f) tail = match tail with g :: _ => [(f_path g, f_data g)] | [] => [] end /\
    (tail = [] \/ exists d rest, tail = Frame (f_chan f) (f_path f) (B "return") d :: rest /\ (d = None -> rest = [])).
  Proof.
    intros [->|(d & rest & -> & Hr)]; [auto|]. unfold results, back.
    destruct Hr as [[-> ->]|[Hd (msg & ->)]]; cbn [filter f_chan f_type]; rewrite ?beqb_refl; cbn; rewrite ?beqb_refl; cbn; (split; [reflexivity|]); (split; [reflexivity|]); right; eexists _, _; (split; [reflexivity|]); [auto|intros E; now apply Hd in E].
  Qed.

  Lemma tinv_init h : tinv (tinit h).
  Proof.
    split; [apply reach_start|]. split; [constructor|]. intros ch. split; [apply P0; [intros []|reflexivity|constructor|left; reflexivity|reflexivity|reflexivity]|]. intros k p r Hk. destruct k; discriminate.
  Qed.
  Lemma tinv_same s s' : tinv s -> reach (t_rpc s') -> t_in s' = t_in s -> t_calls s' = t_calls s -> sent (r_log (t_rpc s')) = sent (r_log (t_rpc s)) ->
    t_ech s' = t_ech s -> (forall ch, results ch (pend s') = results ch (pend s) \/ results ch (pend s') = []) -> tinv s'.
  Proof.
    intros (_ & HF & HP) Hr Ei Ec Es Ee Ep. split; [exact Hr|]. split; [now rewrite Ei|]. intros ch. destruct (HP ch) as [P G].
    unfold calls, answers in *. rewrite Ei, Ec, Es, Ee. split; [|exact G]. destruct (Ep ch) as [->| ->]; [exact P|]. eapply ph_lost. exact P.
  Qed.
  Lemma calls_add s ch p ch' : calls (Tst (t_rpc s) (t_live s) (t_in s) (t_out s) (t_half s) (t_ech s) (t_calls s ++ [TCallRec ch p KWait]) (t_open s)) ch' =
    calls s ch' ++ (if beqb ch ch' then [(p, KWait)] else []).
  Proof. unfold calls. cbn [t_calls]. rewrite filter_app, map_app. cbn [filter k_chan]. destruct (beqb ch ch'); reflexivity. Qed.
  Lemma beqb_dec (a b : bytes) : (beqb a b = true /\ a = b) \/ (beqb a b = false /\ a <> b).
  Proof. destruct (beqb a b) eqn:E; [left; split; [reflexivity|now apply beqb_eq]|right; split; [reflexivity|]]. intros ->. now rewrite beqb_refl in E. Qed.

  Lemma set_split k x : forall l c, nth_error l k = Some c -> exists l1 l2, l = l1 ++ c :: l2 /\ set_call k x l = l1 ++ TCallRec (k_chan c) (k_path c) x :: l2.
  Proof.
    induction k as [|k IH]; intros [|c0 l] c E; cbn in E; try discriminate.
    - injection E as ->. exists [], l. auto.
    - destruct (IH l c E) as (l1 & l2 & -> & E2). exists (c0 :: l1), l2. cbn. now rewrite E2.
  Qed.
  Lemma offer_other m ch r ch' : ch <> ch' -> mget beqb (offer m ch r) ch' = mget beqb m ch'.
  Proof. intros Hne. unfold offer. destruct (mget beqb m ch) as [[x|]|]; auto. now rewrite (mget_mset_ne beqb beqb_ok). Qed.
  Lemma offer_same m ch r e : mget beqb m ch = Some e -> mget beqb (offer m ch r) ch = Some (match e with None => Some r | Some x => Some x end).
  Proof. intros E. unfold offer. rewrite E. destruct e; auto. now rewrite (mget_mset_eq beqb beqb_ok). Qed.

  Definition calm_label (l : @tlabel H) : Prop := match l with TBack (Some _) | TGone _ => False | _ => True end.
  Lemma tinv_step s l s' : tinv s -> tidy s l -> calm_label l -> tstep s l = Ok s' -> tinv s'.
  Proof.
    intros HI HT HC E. pose proof HI as (Hr & HF & HP). destruct l as [|ch path data|ch path data| | |b|k|k| | |h]; cbn [TcModel.tstep] in E; cbn in HC, HT.
    - destruct (t_open s); [discriminate|]. injection E as <-. apply (tinv_same s); auto.
    - destruct (t_open s); [|injection E as <-; exact HI]. destruct (mget beqb (t_ech s) ch) as [|] eqn:Ee; injection E as <-; [exact HI|].
      split; [exact Hr|]. split; [apply Forall_app; split; [exact HF|repeat constructor]; now right|]. cbn [t_in t_ech]. intros ch'. destruct (HP ch') as [P G]. split; [|exact G].
      unfold asks in *. rewrite filter_app. cbn [filter f_type]. change (beqb (B "open") []) with false. rewrite andb_false_r, app_nil_r.
      destruct (beqb_dec ch ch') as [[_ <-]|[_ Hne]].
      + rewrite (mget_mset_eq beqb beqb_ok). apply ph_fresh. rewrite Ee in P. exact P.
      + rewrite (mget_mset_ne beqb beqb_ok) by assumption. exact P.
    - destruct (mget beqb (t_ech s) ch) as [e|] eqn:Ee; [|injection E as <-; exact HI]. injection E as <-.
      split; [exact Hr|]. split; [apply Forall_app; split; [exact HF|repeat constructor]|]. cbn [t_in t_ech]. intros ch'. destruct (HP ch') as [P G].
      pose proof (calls_add s ch path ch') as Ec. unfold calls in Ec at 1. cbn [t_calls] in Ec. unfold calls at 1 2. cbn [t_calls]. rewrite Ec.
      unfold asks in *. rewrite filter_app. cbn [filter f_type f_chan]. change (beqb (@nil ascii) []) with true. rewrite andb_true_r.
      destruct (beqb_dec ch ch') as [[-> <-]|[-> Hne]]; [|rewrite !app_nil_r; auto]. split; [|now apply good_call].
      apply ph_call; auto. congruence.
    - destruct (t_live s); [|injection E as <-; exact HI]. destruct (t_out s) as [|o1 o2] eqn:Eo; [|injection E as <-; exact HI].
      destruct (t_in s) as [|f r] eqn:Ei; [injection E as <-; exact HI|]. pose proof (Forall_inv HF) as Hf. pose proof (Forall_inv_tail HF) as HF'.
      destruct (served (t_rpc s) f Hr Hf) as (l & tail & Es & Hl & Ha & Ho). pose proof (reach_frame _ _ _ _ (t_rpc s) (arrive f) Hr) as Hr'.
      assert (K : forall r' lv, sent (r_log r') = sent (r_log (t_rpc s)) ++ l ++ tail -> reach r' -> tinv (Tst r' lv r (news (t_rpc s) r') false (t_ech s) (t_calls s) (t_open s))).
      { intros r' lv Es' Hr1. split; [exact Hr1|]. split; [exact HF'|]. intros ch. destruct (HP ch) as [P G].
        assert (EA : answers (Tst r' lv r (news (t_rpc s) r') false (t_ech s) (t_calls s) (t_open s)) ch = answers s ch ++ back ch tail).
        { unfold answers at 1. cbn [t_rpc]. rewrite Es'. fold (back ch (sent (r_log (t_rpc s)) ++ l ++ tail)). rewrite !back_app, (back_replies ch _ l Hl). reflexivity. }
        rewrite EA. unfold calls, pend in *. cbn [t_half t_out t_in t_ech t_calls]. rewrite Eo in P. replace (results ch (if t_half s then tl [] else [])) with (@nil frame) in P by (destruct (t_half s); reflexivity).
        unfold news. rewrite Es', skipn_app_len, results_app, (results_replies ch _ l Hl). cbn [app].
        change (asks ch (f :: r)) with (if beqb (f_chan f) ch && beqb (f_type f) [] then f :: asks ch r else asks ch r) in P.
        destruct (beqb_dec (f_chan f) ch) as [[Ef <-]|[Ef Hne]]; rewrite Ef in P; cbn [andb] in P.
        - destruct (beqb_dec (f_type f) []) as [[Et Et']|[Et Et']]; rewrite Et in P.
          + destruct (answer_same f tail Ha) as (-> & -> & Hx). split; [exact (ph_served _ _ _ _ _ _ P Hx)|eapply good_served; eauto].
          + rewrite (Ho Et'). cbn. rewrite app_nil_r. auto.
        - destruct (answer_other ch f tail Ha Hne) as [-> ->]. rewrite app_nil_r. auto. }
      destruct (onFrame (t_rpc s) (arrive f)) as [r'|r'|r']; [| |discriminate]; injection E as <-; now apply K.
    - destruct (t_half s) eqn:Eh; [injection E as <-; exact HI|]. destruct (t_out s) as [|f r] eqn:Eo; [injection E as <-; exact HI|]. destruct (t_open s); [discriminate|].
      destruct (mget beqb (t_ech s) (f_chan f)) as [e|] eqn:Ee; injection E as <-; (split; [exact Hr|]; split; [exact HF|]; intros ch; destruct (HP ch) as [P G]; split; [|exact G]);
        unfold pend in *; cbn [t_half t_out t_ech t_in tl]; rewrite Eh, Eo in P;
        change (results ch (f :: r)) with (if beqb (f_chan f) ch && (beqb (f_type f) (B "return") || beqb (f_type f) (B "error")) then f :: results ch r else results ch r) in P.
      + destruct (beqb_dec (f_chan f) ch) as [[Ef <-]|[Ef Hne]]; rewrite Ef in P; cbn [andb] in P.
        * destruct (_ || _); [|exact P]. rewrite Ee in P. rewrite (offer_same _ _ _ _ Ee). now apply ph_push.
        * destruct (_ || _); [rewrite offer_other by assumption|]; exact P.
      + destruct (beqb_dec (f_chan f) ch) as [[Ef <-]|[Ef Hne]]; rewrite Ef in P; cbn [andb] in P; [|exact P].
        destruct (_ || _); [|exact P]. rewrite Ee in *. exact (ph_none _ _ _ _ _ P).
    - destruct b as [e|]; [contradiction|]. destruct (t_half s) eqn:Eh; [|injection E as <-; exact HI]. destruct (t_out s) as [|f r] eqn:Eo; injection E as <-; [exact HI|].
      apply (tinv_same s); auto. intros ch. unfold pend. cbn [t_half t_out]. rewrite Eh, Eo. now left.
    - destruct (nth_error (t_calls s) k) as [[ch p [|x|]]|] eqn:Ek; try (injection E as <-; exact HI).
      destruct (mget beqb (t_ech s) ch) as [[r|]|] eqn:Ee; injection E as <-; try exact HI.
      destruct (set_split k (KRet r) _ _ Ek) as (l1 & l2 & E1 & E2). cbn [k_chan k_path] in E2.
      split; [exact Hr|]. split; [exact HF|]. intros ch'. destruct (HP ch') as [P G]. unfold calls in *. cbn [t_calls t_ech t_in]. rewrite E2. rewrite E1 in P, G.
      rewrite !filter_app, !map_app in *. cbn [filter k_chan] in *. destruct (beqb_dec ch ch') as [[Eb <-]|[Eb Hne]]; rewrite Eb in *; cbn [map k_path k_st] in *.
      + rewrite (mget_mset_eq beqb beqb_ok). rewrite Ee in P. split; [now apply ph_take|eapply good_take; eauto].
      + rewrite (mget_mset_ne beqb beqb_ok) by assumption. auto.
    - contradiction.
    - injection E as <-. apply (tinv_same s); auto.
      + cbn [t_rpc]. destruct (is_closed (t_rpc s)) eqn:Ec; [exact Hr|]. pose proof (reach_frame _ _ _ _ (t_rpc s) (Frame [] [] (B "close") None) Hr) as Hx. unfold WsModel.onFrame in Hx. cbn [f_type] in Hx. rewrite beqb_refl, Ec in Hx. exact Hx.
      + cbn [t_rpc]. destruct (is_closed (t_rpc s)); reflexivity.
      + intros ch. right. unfold pend. cbn [t_half t_out]. destruct (t_half s); [destruct (t_out s); reflexivity|reflexivity].
    - destruct (t_out s) as [|o1 o2] eqn:Eo; injection E as <-; [|exact HI]. apply (tinv_same s); auto. intros ch. unfold pend. cbn [t_half t_out]. rewrite Eo. destruct (t_half s); auto.
    - injection E as <-. apply (tinv_same s); auto. cbn [t_rpc]. now apply reach_shared.
  Qed.
  Lemma tinv_exec ls : forall s s', tinv s -> texec s ls = Ok s' -> one_by_one user_msg status_text user_node reg s ls -> calm ls -> tinv s'.
  Proof.
    induction ls as [|l ls IH]; intros s s' HI E HO HC; cbn [TcModel.texec] in E; [injection E as <-; exact HI|].
    destruct (tstep s l) as [s1|] eqn:E1; [|discriminate]. cbn [rbind] in E. destruct HO as [HT HO].
    apply (IH s1); auto; [|intros x Hx; apply HC; now right]. apply (tinv_step s l s1); auto. exact (HC l (or_introl eq_refl)).
  Qed.
End Client.
