(* C158: the contexts of websocket connections. *)
From Coq Require Import Bool Ascii String Arith NArith ZArith List Lia.
From Verif Require Import Prelude PreludeFacts DurModel DurProofs JsonModel CtxModel CtxSpec CtxProofs CtxProps RqModel RqSpec RqProps RwModel RwSpec.
Import ListNotations.

Lemma ops_plus l w : ops (fold_left happen (map EOp l) w) = ops w ++ l /\ reqs (fold_left happen (map EOp l) w) = reqs w.
Proof.
  revert w. induction l as [|o l IH]; intros w; cbn [map fold_left]; [rewrite app_nil_r; auto|]. destruct (IH (happen w (EOp o))) as [-> ->]. cbn. rewrite <- app_assoc. auto.
Qed.
(* operations and requests stay *)
Lemma happen_grows w e : exists t u, ops (happen w e) = ops w ++ t /\ reqs (happen w e) = reqs w ++ u.
Proof.
  destruct e as [o|n addr|l remote|c ua path h]; cbn [happen].
  - exists [o], []. cbn. rewrite app_nil_r. auto.
  - destruct (n <? next w); [|exists [], []; rewrite !app_nil_r; auto]. eexists. exists []. cbn [ops reqs]. rewrite (app_nil_r (reqs w)). split; reflexivity.
  - destruct (nth_error (liss w) l); [|exists [], []; rewrite !app_nil_r; auto]. eexists. exists []. cbn [ops reqs]. rewrite (app_nil_r (reqs w)). split; reflexivity.
  - destruct (nth_error (conns w) c); [|exists [], []; rewrite !app_nil_r; auto]. eexists. eexists. cbn [ops reqs]. split; reflexivity.
Qed.
Lemma web_history l : exists l', web (whistory l) = history l'.
Proof.
  induction l as [|e l IH] using rev_ind; [exists []; reflexivity|]. destruct IH as (l' & IH). unfold whistory. rewrite fold_left_app. cbn [fold_left]. fold (whistory l).
  destruct e as [e|r sid fresh rpc]; cbn [whappen].
  - exists (l' ++ [e]). cbn [web]. rewrite IH. unfold history. rewrite fold_left_app. reflexivity.
  - destruct (nth_error (reqs (web (whistory l))) r) as [x|]; [|exists l'; exact IH]. eexists (l' ++ _). cbn [web]. rewrite IH. unfold history. rewrite fold_left_app. reflexivity.
Qed.
(* the context of a connection over the context of its request *)
Definition span_ctx (p : context) (m : nat) (t : bytes) : context := Track (Tag (Cancel p m None) (B "tracking-id") (jstr false t)) t 0.
Definition wctx (p : context) (m : nat) (t : bytes) (x : wsc) : context := if w_rpc x then span_ctx p m t else Tag (span_ctx p m t) (B "ws.sid") (jstr false (w_sid x)).
Definition tid (p : context) (x : wsc) : bytes := match closest_track p with Some t => t ++ B ".1" | None => w_fresh x end.
Definition ws_ok (s : state) (x : wsc) : Prop := exists p g m h, nth_error (env s) (r_ctx (w_req x)) = Some (p, g) /\
  nth_error (env s) (w_own x) = Some (span_ctx p m (tid p x), Some m) /\ nth_error (env s) (w_ctx x) = Some (wctx p m (tid p x) x, h).
Lemma ws_stays s t x : ws_ok s x -> ws_ok (fold_left step t s) x.
Proof. intros (p & g & m & h & A & C & D). exists p, g, m, h. repeat split; now apply env_stays. Qed.
Lemma env_span l n fresh p g : nth_error (env (run l)) n = Some (p, g) ->
  exists m, env (step (run l) (OSpan n fresh)) = env (run l) ++ [(span_ctx p m (match closest_track p with Some t => t ++ B ".1" | None => fresh end), Some m)].
Proof.
  intros H. assert (Hc : In p (contexts l)) by (apply in_map_iff; exists (p, g); split; [reflexivity|]; eapply nth_error_In; exact H).
  destruct (in_contexts _ _ Hc) as [Hw _]. pose proof (last0_env l p Hc) as Hl. exists (length (cells (run l))). cbn [step]. unfold on, ctx_at. rewrite H. cbn [option_map fst with_cancel push env].
  f_equal. f_equal. unfold with_tracking, span_ctx. cbn [Value]. rewrite (next_track _ p Hw Hl). destruct (closest_track p) as [t|]; [|reflexivity].
  destruct (t ++ B ".1") eqn:E2; auto. apply app_eq_nil in E2 as [_ E2]. discriminate.
Qed.
Lemma open_new l x k sid fresh rpc g p : nth_error (env (run l)) (r_ctx x) = Some (p, g) -> k = length (env (run l)) ->
  ws_ok (fold_left step (open_ops k (r_ctx x) sid fresh rpc) (run l)) (Wsc (if rpc then k else S k) k x (SID sid rpc) rpc fresh).
Proof.
  intros H ->. set (k := length (env (run l))). destruct (env_span l _ fresh p g H) as (m & E). exists p, g, m. unfold open_ops. cbn [fold_left]. set (s1 := step (run l) (OSpan (r_ctx x) fresh)) in *.
  assert (N1 : nth_error (env s1) k = Some (span_ctx p m (match closest_track p with Some t => t ++ B ".1" | None => fresh end), Some m)) by (rewrite E; apply nth_here).
  assert (A1 : nth_error (env s1) (r_ctx x) = Some (p, g)) by (rewrite E, nth_error_app1; [exact H|]; apply nth_error_Some; congruence).
  assert (L1 : length (env s1) = S k) by (rewrite E, app_length; cbn; unfold k; lia).
  destruct rpc; cbn [fold_left].
  - exists (Some m). split; [exact A1|]. split; exact N1.
  - pose proof (env_tag s1 k (B "ws.sid") (jstr false sid) _ _ N1) as E2. exists None. rewrite E2. cbn [w_req w_own w_ctx]. split; [|split].
    + rewrite nth_error_app1; [exact A1|]. apply nth_error_Some. congruence.
    + rewrite nth_error_app1; [exact N1|]. apply nth_error_Some. congruence.
    + rewrite <- L1. apply nth_here.
Qed.
Definition wall_ok (w : wprog) : Prop := (forall x, In x (wss w) -> In (w_req x) (reqs (web w)) /\ ws_ok (run (ops (web w))) x) /\ NoDup (map w_own (wss w)).
Lemma wown_below s x : ws_ok s x -> w_own x < length (env s).
Proof. intros (p & g & m & h & _ & A & _). apply nth_error_Some. congruence. Qed.
Lemma wok l : wall_ok (whistory l).
Proof.
  induction l as [|e l IH] using rev_ind; [split; [intros x []|constructor]|]. unfold whistory. rewrite fold_left_app. cbn [fold_left]. fold (whistory l). set (w := whistory l) in *. destruct IH as [A C].
  destruct e as [e|r sid fresh rpc]; cbn [whappen].
  - split; cbn [wss web]; [|exact C]. intros x Hx. destruct (A x Hx) as [A1 A2]. destruct (happen_grows (web w) e) as (t & u & -> & ->). split; [apply in_or_app; auto|]. rewrite run_app. now apply ws_stays.
  - destruct (nth_error (reqs (web w)) r) as [q|] eqn:Eq; [|split; assumption]. apply nth_error_In in Eq. cbv zeta. split; cbn [wss web].
    + set (o := open_ops (next (web w)) (r_ctx q) sid fresh rpc). destruct (ops_plus o (web w)) as [-> ->]. rewrite run_app. intros x Hx. apply in_app_or in Hx as [Hx|[<-|[]]].
      * destruct (A x Hx) as [A1 A2]. split; [exact A1|]. now apply ws_stays.
      * split; [exact Eq|]. destruct (web_history l) as (l' & Hl). fold w in Hl. destruct (ok_history l') as (_ & _ & D & _). rewrite <- Hl in D. destruct (D q Eq) as (b & f & g & i & j & _ & _ & _ & E).
        apply (open_new _ _ _ _ _ _ g _ E eq_refl).
    + rewrite map_app. cbn [map w_own]. rewrite <- (rev_involutive (map w_own (wss w) ++ [next (web w)])). apply NoDup_rev. rewrite rev_app_distr. cbn [rev app]. constructor; [|apply NoDup_rev; exact C].
      rewrite <- in_rev. intros Hi. apply in_map_iff in Hi as (y & Ey & Hy). pose proof (wown_below _ _ (proj2 (A y Hy))). unfold next in Ey. lia.
Qed.
(* a connection, its request and the context given to Listen *)
Lemma shapes l x : let w := whistory l in In x (wss w) ->
  exists b f i j g m h, let p := rctx b (w_req x) i j in
    nth_error (env (run (ops (web w)))) (root x) = Some (b, f) /\ nth_error (env (run (ops (web w)))) (c_ctx (r_con (w_req x))) = Some (cctx b (r_con (w_req x)) i, Some i) /\
    nth_error (env (run (ops (web w)))) (r_own (w_req x)) = Some (Cancel (cctx b (r_con (w_req x)) i) j None, Some j) /\ nth_error (env (run (ops (web w)))) (r_ctx (w_req x)) = Some (p, g) /\
    nth_error (env (run (ops (web w)))) (w_own x) = Some (span_ctx p m (track_of b x), Some m) /\ nth_error (env (run (ops (web w)))) (w_ctx x) = Some (wctx p m (track_of b x) x, h).
Proof.
  intros w Hx. destruct (wok l) as [A _]. destruct (A x Hx) as [Hr (p & g & m & h & P1 & P2 & P3)]. destruct (web_history l) as (l' & Hl). destruct (ok_history l') as (_ & _ & D & _). rewrite <- Hl in D.
  destruct (D _ Hr) as (b & f & g' & i & j & Q1 & Q2 & Q3 & Q4). rewrite P1 in Q4. injection Q4 as -> ->. exists b, f, i, j, g', m, h. cbv zeta.
  assert (T : tid (rctx b (w_req x) i j) x = track_of b x) by (unfold tid, track_of, rctx, tagd; destruct (r_handle (w_req x)); reflexivity). rewrite T in P2, P3. repeat split; assumption.
Qed.

(* C158, what holds: for all histories, the context of a websocket connection has the tags of its request, then its tracking id and (not with an RpcHandler) its session id; by these
   names they are found.  The tracking id is new, if the context given to Listen has none, *)
Theorem C158_partial : forall (l : list wevent) (x : wsc), let w := whistory l in
  In x (wss w) ->
  exists b q c, is_ctx (web w) (root x) b /\ is_ctx (web w) (r_ctx (w_req x)) q /\ is_ctx (web w) (w_ctx x) c /\
    tags c = tags q ++ ws_tags b x /\ GetTracking c = track_of b x /\
    (forall k v, In (k, v) (ws_tags b x ++ own_tags (w_req x)) -> mget beqb (ExtractTags c) k = Some v).
Proof.
  intros l x w Hx. destruct (shapes l x Hx) as (b & f & i & j & g & m & h & P1 & P2 & P3 & P4 & P5 & P6). set (p := rctx b (w_req x) i j) in *.
  exists b, p, (wctx p m (track_of b x) x). split; [exact (env_ctx _ _ _ _ P1)|]. split; [exact (env_ctx _ _ _ _ P4)|]. split; [exact (env_ctx _ _ _ _ P6)|]. unfold wctx, ws_tags, span_ctx.
  assert (T : forall a k v, tags (Track a k v) = tags a) by (intros; apply tags_cons).
  split; [destruct (w_rpc x); rewrite ?tags_tag, T, tags_tag, tags_can, <- ?app_assoc; reflexivity|]. split; [destruct (w_rpc x); reflexivity|].
  intros k v Q. rewrite extract_closest. apply in_app_or in Q as [Q|Q].
  - destruct (w_rpc x); cbn [In] in Q; [destruct Q as [Q|[]]|destruct Q as [Q|[Q|[]]]]; injection Q as <- <-; reflexivity.
  - unfold own_tags in Q. unfold p, rctx, tagd. destruct (w_rpc x); destruct (r_handle (w_req x)); cbn [app In] in Q;
      repeat (destruct Q as [Q|Q]; [injection Q as <- <-; reflexivity|]); destruct Q.
Qed.
Print Assumptions C158_partial.
(* so that the ids of two connections differ, if the answers of uuid.NewString do. *)
Theorem C158_distinct : forall (l : list wevent) (x y : wsc) (b b' c c' : context), let w := whistory l in
  In x (wss w) -> In y (wss w) -> is_ctx (web w) (root x) b -> is_ctx (web w) (root y) b' -> closest_track b = None -> closest_track b' = None ->
  is_ctx (web w) (w_ctx x) c -> is_ctx (web w) (w_ctx y) c' -> w_fresh x <> w_fresh y -> GetTracking c <> GetTracking c'.
Proof.
  intros l x y b b' c c' w Hx Hy Hb Hb' Nb Nb' Hc Hc' F. destruct (C158_partial l x Hx) as (b1 & q1 & c1 & A1 & _ & A3 & _ & A4 & _). destruct (C158_partial l y Hy) as (b2 & q2 & c2 & B1 & _ & B3 & _ & B4 & _).
  fold w in A1, A3, B1, B3. unfold is_ctx in *. assert (c1 = c) by congruence. assert (c2 = c') by congruence. assert (b1 = b) by congruence. assert (b2 = b') by congruence. subst.
  rewrite A4, B4. unfold track_of. now rewrite Nb, Nb'.
Qed.
Print Assumptions C158_distinct.

(* C158: it ends when its handler returns, or with the request, the connection or the context given to Listen, and for no other reason; *)
Theorem C158_ends : forall (l : list wevent) (x : wsc), let w := whistory l in
  In x (wss w) ->
  exists b c i j m, is_ctx (web w) (root x) b /\ is_ctx (web w) (w_ctx x) c /\ ends_with (web w) (c_ctx (r_con (w_req x))) i /\ ends_with (web w) (r_own (w_req x)) j /\ ends_with (web w) (w_own x) m /\
    over (web w) c = option_map fst (first_of (m :: j :: i :: scope b) (fired (run (ops (web w))))).
Proof.
  intros l x w Hx. destruct (shapes l x Hx) as (b & f & i & j & g & m & h & P1 & P2 & P3 & P4 & P5 & P6). set (p := rctx b (w_req x) i j) in *.
  exists b, (wctx p m (track_of b x) x), i, j, m. split; [exact (env_ctx _ _ _ _ P1)|]. split; [exact (env_ctx _ _ _ _ P6)|]. split; [eexists; exact P2|]. split; [eexists; exact P3|]. split; [eexists; exact P5|].
  unfold over. rewrite C21_errors; [|eapply nth_error_In; exact (env_ctx _ _ _ _ P6)]. unfold wctx, span_ctx, p, rctx, tagd. destruct (w_rpc x); destruct (r_handle (w_req x)); reflexivity.
Qed.
Print Assumptions C158_ends.
(* in particular the return of another handler leaves it going, unless that ends the very context given to Listen. *)
Theorem C158_others : forall (l : list wevent) (n n' : nat) (x y : wsc) (ca : option N) (b c : context), let w := whistory l in
  nth_error (wss w) n = Some x -> nth_error (wss w) n' = Some y -> n <> n' -> is_ctx (web w) (root x) b -> is_ctx (web w) (w_ctx x) c ->
  let w' := whistory (l ++ [WElse (EOp (OFire (w_own y) ca))]) in
  over (web w) c = None -> over (web w') b = None -> over (web w') c = None.
Proof.
  intros l n n' x y ca b c w Hx Hy N Hb Hc w' Ow Ob. destruct (wok l) as [_ ND]. fold w in ND.
  destruct (shapes l x (nth_error_In _ _ Hx)) as (b0 & f & i & j & g & m & h & P1 & P2 & P3 & _ & P5 & P6). fold w in P1, P2, P3, P5, P6.
  destruct (shapes l y (nth_error_In _ _ Hy)) as (b1 & f1 & i1 & j1 & g1 & m1 & h1 & _ & _ & _ & _ & Q5 & _). fold w in Q5.
  assert (Eb : b = b0) by (pose proof (env_ctx _ _ _ _ P1) as Q; unfold is_ctx in *; congruence). subst b0.
  pose proof (env_ctx _ _ _ _ P6) as Ec. unfold is_ctx in Ec, Hc, Hb. rewrite Hc in Ec. injection Ec as Ec.
  assert (Ew : ops (web w') = ops (web w) ++ [OFire (w_own y) ca]) by (unfold w', w, whistory; rewrite fold_left_app; reflexivity).
  unfold over in *. rewrite Ew in Ob |- *.
  rewrite (C21_cancel (ops (web w)) (w_own y) ca _ m1 c Q5) by (eapply nth_error_In; exact Hc). rewrite (C21_cancel (ops (web w)) (w_own y) ca _ m1 b Q5) in Ob by (eapply nth_error_In; exact Hb). rewrite Ow.
  destruct (Err (cells (run (ops (web w)))) b); [discriminate|]. destruct (existsb (Nat.eqb m1) (scope b)) eqn:Sb; [discriminate|].
  destruct (own_run (ops (web w))) as [U _].
  assert (J : m1 <> m).
  { intros ->. pose proof (U _ _ _ _ _ P5 Q5) as Q. apply N. apply (proj1 (NoDup_nth_error _) ND); [apply nth_error_Some; erewrite map_nth_error; [discriminate|exact Hx]|].
    rewrite (map_nth_error w_own _ _ Hx), (map_nth_error w_own _ _ Hy). now f_equal. }
  assert (I1 : m1 <> j) by (intros ->; pose proof (U _ _ _ _ _ P3 Q5) as Q; rewrite Q in P3; rewrite P3 in Q5; discriminate).
  assert (I2 : m1 <> i) by (intros ->; pose proof (U _ _ _ _ _ P2 Q5) as Q; rewrite Q in P2; rewrite P2 in Q5; discriminate).
  assert (Q : scope c = m :: j :: i :: scope b) by (rewrite Ec; unfold wctx, span_ctx, rctx, tagd; destruct (w_rpc x); destruct (r_handle (w_req x)); reflexivity). rewrite Q. cbn [existsb].
  apply Nat.eqb_neq in J, I1, I2. now rewrite J, I1, I2, Sb.
Qed.
Print Assumptions C158_others.

(* C158, false as stated: with a tracking id on the context given to Listen, all its websocket connections have the same one, whatever uuid.NewString answers; *)
Theorem C158_same_refuted : forall (l : list wevent) (x y : wsc) (b : context) (t : bytes), let w := whistory l in
  In x (wss w) -> In y (wss w) -> root x = root y -> is_ctx (web w) (root x) b -> closest_track b = Some t ->
  exists c c', is_ctx (web w) (w_ctx x) c /\ is_ctx (web w) (w_ctx y) c' /\ GetTracking c = t ++ B ".1" /\ GetTracking c' = t ++ B ".1".
Proof.
  intros l x y b t w Hx Hy E Hb Et. destruct (C158_partial l x Hx) as (b1 & q1 & c1 & A1 & _ & A3 & _ & A4 & _). destruct (C158_partial l y Hy) as (b2 & q2 & c2 & B1 & _ & B3 & _ & B4 & _).
  fold w in A1, A3, B1, B3. exists c1, c2. unfold is_ctx in *. rewrite <- E in B1. assert (b1 = b) by congruence. assert (b2 = b) by congruence. subst. repeat split; auto; [rewrite A4|rewrite B4]; unfold track_of; now rewrite Et.
Qed.
Print Assumptions C158_same_refuted.
(* and the connections of an RpcHandler have no session id, neither in SID() nor among the tags. *)
Theorem C158_sid_refuted : forall (l : list wevent) (x : wsc), let w := whistory l in
  In x (wss w) -> w_rpc x = true -> w_sid x = [] /\
  exists q c, is_ctx (web w) (r_ctx (w_req x)) q /\ is_ctx (web w) (w_ctx x) c /\ mget beqb (ExtractTags c) (B "ws.sid") = mget beqb (ExtractTags q) (B "ws.sid").
Proof.
  intros l x w Hx Hr. split.
  - revert x Hx Hr. unfold w. induction l as [|e l IH] using rev_ind; [intros x []|]. unfold whistory. rewrite fold_left_app. cbn [fold_left]. fold (whistory l). destruct e as [e|r sid fresh rpc]; cbn [whappen]; [exact IH|].
    destruct (nth_error (reqs (web (whistory l))) r); [|exact IH]. intros x Hx Hr. cbn [wss] in Hx. apply in_app_or in Hx as [Hx|[<-|[]]]; [exact (IH _ Hx Hr)|]. cbn in *. now rewrite Hr.
  - destruct (shapes l x Hx) as (b & f & i & j & g & m & h & P1 & P2 & P3 & P4 & P5 & P6). eexists. eexists. split; [exact (env_ctx _ _ _ _ P4)|]. split; [exact (env_ctx _ _ _ _ P6)|].
    rewrite !extract_closest. unfold wctx. rewrite Hr. reflexivity.
Qed.
Print Assumptions C158_sid_refuted.

(* two connections of two clients, one with an RpcHandler, after Listen with a tracking id and without *)
Definition C158_hist (t : list wevent) : list wevent :=
  [WElse (EOp OBackground)] ++ t ++ [WElse (EListen (length t) (B "[::]:80")); WElse (EAccept 0 (B "10.0.0.1:99")); WElse (ERequest 0 (B "curl") (B "/ws") true); WElse (EAccept 0 (B "10.0.0.2:99"));
   WElse (ERequest 1 (B "curl") (B "/rpc") true); WOpen 0 (B "s0") (B "u0") false; WOpen 1 (B "s1") (B "u1") true].
Definition C158_see (l : list wevent) (n : nat) : option (bytes * bytes * option bytes * option kind) :=
  let w := whistory l in
  match nth_error (wss w) n with
  | Some x => match nth_error (contexts (ops (web w))) (w_ctx x) with Some c => Some (w_sid x, GetTracking c, mget beqb (ExtractTags c) (B "ws.sid"), over (web w) c) | None => None end
  | None => None
  end.
Example C158_ex :
  let l := C158_hist [] in let l' := C158_hist [WElse (EOp (OTracking 0 (B "start") []))] in
  C158_see l 0 = Some (B "s0", B "u0", Some (B """s0"""), None) /\ C158_see l 1 = Some ([], B "u1", None, None) /\
  C158_see l' 0 = Some (B "s0", B "start.1", Some (B """s0"""), None) /\ C158_see l' 1 = Some ([], B "start.1", None, None) /\
  map w_own (wss (whistory l)) = [19; 21] /\
  C158_see (l ++ [WElse (EOp (OFire 19 None))]) 0 = Some (B "s0", B "u0", Some (B """s0"""), Some Canceled) /\ C158_see (l ++ [WElse (EOp (OFire 19 None))]) 1 = Some ([], B "u1", None, None).
Proof. vm_compute. repeat split. Qed.
