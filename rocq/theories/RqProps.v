(* C157: the contexts of requests. *)
From Coq Require Import Bool Ascii String Arith NArith ZArith List Lia.
From Verif Require Import Prelude PreludeFacts DurModel DurProofs JsonModel CtxModel CtxSpec CtxProofs CtxProps RqModel RqSpec.
Import ListNotations.

(* contexts stay *)
Lemma env_grows s o : exists t, env (step s o) = env s ++ t /\ length t <= 1.
Proof.
  assert (P : forall s' c cf, env s' = env s -> exists t, env (push s' c cf) = env s ++ t /\ length t <= 1) by (intros s' c cf E; exists [(c, cf)]; cbn; rewrite E; auto).
  assert (N0 : exists t, env s = env s ++ t /\ length t <= 1) by (exists []; rewrite app_nil_r; auto).
  destruct o as [ | |n k v|n|n t late|n k j|n|n sug fresh|n fresh|n f|n h|n ca|n]; cbn [step]; unfold on, with_cancel, with_config; try (destruct (ctx_at s n) as [p|]; [|exact N0]); try (apply P; reflexivity).
  - destruct (Deadline p) as [d|]; [destruct (d <? t)%Z; [apply P; reflexivity|]|]; destruct late; cbn; eexists; split; try reflexivity; cbn; auto.
  - destruct (extractConfig (confs s) p) as [cfs q]. apply P. reflexivity.
  - destruct (extractConfig (confs s) p) as [cfs q]. apply P. reflexivity.
  - destruct (nth_error (env s) n) as [[c [i|]]|]; exact N0.
  - destruct (nth_error (env s) n) as [[[ |p k v|p i [d|]|p k j|p t l|p] cf]|]; exact N0.
Qed.
Lemma run_app a b : run (a ++ b) = fold_left step b (run a).
Proof. unfold run. apply fold_left_app. Qed.
Lemma env_stays b : forall s n x, nth_error (env s) n = Some x -> nth_error (env (fold_left step b s)) n = Some x.
Proof.
  induction b as [|o b IH]; intros s n x H; [exact H|]. apply IH. destruct (env_grows s o) as (t & -> & _). rewrite nth_error_app1; [exact H|]. apply nth_error_Some. congruence.
Qed.
(* each cancelCtx belongs to one CancelFunc *)
Definition own_ok (s : state) : Prop := forall n m c d i, nth_error (env s) n = Some (c, Some i) -> nth_error (env s) m = Some (d, Some i) -> n = m.
Definition own_lt (s : state) : Prop := forall n c i, nth_error (env s) n = Some (c, Some i) -> i < length (cells s).
Lemma own_push s c cf : own_ok s -> own_lt s -> forall s', env s' = env s -> length (cells s) <= length (cells s') ->
  (forall i, cf = Some i -> length (cells s) <= i < length (cells s')) -> own_ok (push s' c cf) /\ own_lt (push s' c cf).
Proof.
  intros O L s' E G H. split.
  - intros n m a b i. cbn [push env]. rewrite E, !nth_error_snoc. destruct (Nat.ltb_spec n (length (env s))); destruct (Nat.ltb_spec m (length (env s))); destruct (Nat.eqb_spec n (length (env s))); destruct (Nat.eqb_spec m (length (env s))); try discriminate; try lia.
    + apply O.
    + intros A A'. injection A' as _ ->. pose proof (L _ _ _ A). destruct (H i eq_refl). lia.
    + intros A A'. injection A as _ ->. pose proof (L _ _ _ A'). destruct (H i eq_refl). lia.
  - intros n a i. cbn [push env cells]. rewrite E, nth_error_snoc. destruct (Nat.ltb_spec n (length (env s))); [intros A; pose proof (L _ _ _ A); lia|]. destruct (Nat.eqb_spec n (length (env s))); [|discriminate]. intros A. injection A as _ ->. destruct (H i eq_refl). lia.
Qed.
Lemma own_fire s i e : own_ok s -> own_lt s -> own_ok (fire s i e) /\ own_lt (fire s i e).
Proof.
  intros O L. split; [exact O|]. intros n c j A. cbn in A. cbn [fire cells]. assert (Q : length (cancel (length (cells s)) (cells s) i e) = length (cells s)).
  { clear. generalize (length (cells s)) at 1 as f. intros f. generalize (cells s) as cs. revert i. induction f as [|f IH]; intros i cs; cbn [cancel]; [reflexivity|]. destruct (nth_error cs i) as [c|]; [|reflexivity]. destruct (cerr c); [reflexivity|].
    assert (F : forall l cs', length (fold_left (fun cs k => cancel f cs k e) l cs') = length cs') by (induction l as [|k l IHl]; intros cs'; cbn; [reflexivity|]; now rewrite IHl, IH). rewrite F. apply upd_length. }
  rewrite Q. exact (L _ _ _ A).
Qed.
Lemma new_cancel_length cs p : length (new_cancel cs p) = S (length cs).
Proof.
  unfold new_cancel. destruct (Done p) as [j|]; [|rewrite app_length; cbn; lia]. destruct (Err cs p); [destruct (Cause cs p)|]; try (rewrite app_length; cbn; lia); destruct (nth_error cs j); rewrite app_length, ?upd_length; cbn; lia.
Qed.
Lemma own_step s o : own_ok s -> own_lt s -> own_ok (step s o) /\ own_lt (step s o).
Proof.
  intros O L. destruct o as [ | |n k v|n|n t late|n k j|n|n sug fresh|n fresh|n f|n h|n ca|n]; cbn [step]; unfold on, with_cancel, with_config; try (destruct (ctx_at s n) as [p|] eqn:Ep; [|split; assumption]).
  all: try solve [apply (own_push s); auto; discriminate].
  all: try solve [apply (own_push s); cbn [env cells]; auto; rewrite ?new_cancel_length; [lia|]; intros i E; injection E as <-; lia].
  - assert (Q : own_ok (push (State (new_cancel (cells s) p) (confs s) (env s) (fired s)) (Cancel p (length (cells s)) (match Deadline p with Some d => if (d <? t)%Z then None else Some t | None => Some t end)) (Some (length (cells s)))) /\
                own_lt (push (State (new_cancel (cells s) p) (confs s) (env s) (fired s)) (Cancel p (length (cells s)) (match Deadline p with Some d => if (d <? t)%Z then None else Some t | None => Some t end)) (Some (length (cells s))))).
    { apply (own_push s); cbn [env cells]; auto; rewrite ?new_cancel_length; [lia|]. intros i E. injection E as <-. lia. }
    destruct (Deadline p) as [d|]; [destruct (d <? t)%Z; [exact Q|]|]; destruct late; try exact Q; (apply own_fire; apply Q).
  - destruct (extractConfig (confs s) p) as [cfs q]. apply (own_push s); auto; discriminate.
  - destruct (extractConfig (confs s) p) as [cfs q]. apply (own_push s); auto; discriminate.
  - destruct (nth_error (env s) n) as [[c [i|]]|] eqn:E; try (split; assumption). apply own_fire; auto.
  - destruct (nth_error (env s) n) as [[[ |p k v|p i [d|]|p k j|p t l|p] cf]|] eqn:E; try (split; assumption). apply own_fire; auto.
Qed.
Lemma own_run l : own_ok (run l) /\ own_lt (run l).
Proof.
  induction l as [|o l IH] using rev_ind; [split; intros n; intros; destruct n; discriminate|]. rewrite run_snoc. apply own_step; apply IH.
Qed.
(* what single operations add *)
Lemma env_tag s n k j p cf : nth_error (env s) n = Some (p, cf) -> env (step s (OTag n k j)) = env s ++ [(Tag p k j, None)].
Proof. intros H. cbn [step]. unfold on, ctx_at. now rewrite H. Qed.
Lemma env_val s n u v p cf : nth_error (env s) n = Some (p, cf) -> env (step s (OValue n (inl u) (Some v))) = env s ++ [(Val p (KUser u) (Some (VUser v)), None)].
Proof. intros H. cbn [step]. unfold on, ctx_at. now rewrite H. Qed.
Lemma env_cancel s n p cf : nth_error (env s) n = Some (p, cf) -> exists i, env (step s (OCancel n)) = env s ++ [(Cancel p i None, Some i)].
Proof. intros H. exists (length (cells s)). cbn [step]. unfold on, ctx_at, with_cancel. now rewrite H. Qed.
Lemma nth_here {A} (l : list A) x : nth_error (l ++ [x]) (length l) = Some x.
Proof. rewrite nth_error_app2, Nat.sub_diag; auto. Qed.
(* the contexts of listeners, connections and requests *)
Definition lctx (b : context) (x : lis) : context := Val (Tag b (B "http.addr") (jstr false (l_addr x))) (KUser 0) (Some (VUser 0)).
Definition cctx (b : context) (x : con) (i : nat) : context :=
  Cancel (Val (Tag (lctx b (c_lis x)) (B "http.remote") (jstr false (c_remote x))) (KUser 1) (Some (VUser 1))) i None.
Definition tagd (c : context) (r : req) : context := Tag (Tag c (B "ua") (jstr false (r_ua r))) (B "path") (jstr false (r_path r)).
Definition rctx (b : context) (r : req) (i j : nat) : context :=
  let c := tagd (Cancel (cctx b (r_con r) i) j None) r in if r_handle r then tagd c r else c.
Definition lis_ok (s : state) (x : lis) : Prop := exists b f g, nth_error (env s) (l_base x) = Some (b, f) /\ nth_error (env s) (l_ctx x) = Some (lctx b x, g).
Definition con_ok (s : state) (x : con) : Prop := exists b f i, nth_error (env s) (l_base (c_lis x)) = Some (b, f) /\ nth_error (env s) (c_ctx x) = Some (cctx b x i, Some i).
Definition req_ok (s : state) (r : req) : Prop := exists b f g i j, nth_error (env s) (base r) = Some (b, f) /\ nth_error (env s) (c_ctx (r_con r)) = Some (cctx b (r_con r) i, Some i) /\
  nth_error (env s) (r_own r) = Some (Cancel (cctx b (r_con r) i) j None, Some j) /\ nth_error (env s) (r_ctx r) = Some (rctx b r i j, g).
Definition all_ok (w : prog) : Prop := let s := run (ops w) in
  (forall x, In x (liss w) -> lis_ok s x) /\ (forall x, In x (conns w) -> con_ok s x) /\ (forall r, In r (reqs w) -> req_ok s r) /\ NoDup (map r_own (reqs w)).

Lemma lis_stays s t x : lis_ok s x -> lis_ok (fold_left step t s) x.
Proof. intros (b & f & g & A & C). exists b, f, g. split; now apply env_stays. Qed.
Lemma con_stays s t x : con_ok s x -> con_ok (fold_left step t s) x.
Proof. intros (b & f & i & A & C). exists b, f, i. split; now apply env_stays. Qed.
Lemma req_stays s t x : req_ok s x -> req_ok (fold_left step t s) x.
Proof. intros (b & f & g & i & j & A & C & D & E). exists b, f, g, i, j. repeat split; now apply env_stays. Qed.
Lemma listen_new s n addr : n < length (env s) -> lis_ok (fold_left step (listen_ops (length (env s)) n addr) s) (Lis (S (length (env s))) n addr).
Proof.
  intros H. destruct (nth_error (env s) n) as [[b f]|] eqn:E; [|apply nth_error_None in E; lia]. unfold listen_ops. cbn [fold_left].
  set (s1 := step s (OTag n (B "http.addr") (jstr false addr))). pose proof (env_tag s n (B "http.addr") (jstr false addr) b f E) as E1. fold s1 in E1.
  assert (N1 : nth_error (env s1) (length (env s)) = Some (Tag b (B "http.addr") (jstr false addr), None)) by (rewrite E1; apply nth_here).
  pose proof (env_val s1 _ 0%N 0%N _ _ N1) as E2. exists b, f, None. split; cbn [l_base l_ctx].
  - rewrite E2, E1, <- app_assoc, nth_error_app1; auto.
  - rewrite E2. replace (S (length (env s))) with (length (env s1)) by (rewrite E1, app_length; cbn; lia). apply nth_here.
Qed.
Lemma accept_new s x remote : lis_ok s x -> con_ok (fold_left step (accept_ops (length (env s)) (l_ctx x) remote) s) (Con (S (S (length (env s)))) x remote).
Proof.
  intros (b & f & g & A & C). exists b, f. unfold accept_ops.
  set (s1 := step s (OTag (l_ctx x) (B "http.remote") (jstr false remote))). pose proof (env_tag s (l_ctx x) (B "http.remote") (jstr false remote) _ g C) as E1. fold s1 in E1.
  assert (N1 : nth_error (env s1) (length (env s)) = Some (Tag (lctx b x) (B "http.remote") (jstr false remote), None)) by (rewrite E1; apply nth_here).
  set (s2 := step s1 (OValue (length (env s)) (inl 1%N) (Some 1%N))). pose proof (env_val s1 _ 1%N 1%N _ _ N1) as E2. fold s2 in E2.
  assert (L1 : length (env s1) = S (length (env s))) by (rewrite E1, app_length; cbn; lia).
  assert (N2 : nth_error (env s2) (S (length (env s))) = Some (Val (Tag (lctx b x) (B "http.remote") (jstr false remote)) (KUser 1) (Some (VUser 1)), None)) by (rewrite E2, <- L1; apply nth_here).
  assert (L2 : length (env s2) = S (S (length (env s)))) by (rewrite E2, app_length, L1; cbn; lia).
  destruct (env_cancel s2 _ _ _ N2) as (i & E3). exists i. split; [apply (env_stays (accept_ops (length (env s)) (l_ctx x) remote)); exact A|].
  change (nth_error (env (step s2 (OCancel (S (length (env s)))))) (S (S (length (env s)))) = Some (cctx b (Con (S (S (length (env s)))) x remote) i, Some i)). rewrite E3, <- L2. apply nth_here.
Qed.
(* two tags more *)
Lemma tags_new s c r p cf : nth_error (env s) c = Some (p, cf) ->
  let s' := fold_left step (tag_ops c (length (env s)) (r_ua r) (r_path r)) s in
  length (env s') = S (S (length (env s))) /\ nth_error (env s') (S (length (env s))) = Some (tagd p r, None).
Proof.
  intros H. unfold tag_ops. cbn [fold_left]. set (s1 := step s (OTag c (B "ua") (jstr false (r_ua r)))). pose proof (env_tag s c (B "ua") (jstr false (r_ua r)) _ _ H) as E1. fold s1 in E1.
  assert (N1 : nth_error (env s1) (length (env s)) = Some (Tag p (B "ua") (jstr false (r_ua r)), None)) by (rewrite E1; apply nth_here).
  assert (L1 : length (env s1) = S (length (env s))) by (rewrite E1, app_length; cbn; lia).
  pose proof (env_tag s1 _ (B "path") (jstr false (r_path r)) _ _ N1) as E2. cbn zeta. rewrite E2. split; [rewrite app_length, L1; cbn; lia|]. rewrite <- L1. apply nth_here.
Qed.
Lemma request_new s x ua path h : con_ok s x ->
  let k := length (env s) in
  req_ok (fold_left step (request_ops k (c_ctx x) ua path h) s) (Req (if h then S (S (S (S k))) else S (S k)) k x ua path h).
Proof.
  intros (b & f & i & A & C) k. set (r := Req (if h then S (S (S (S k))) else S (S k)) k x ua path h).
  destruct (env_cancel s _ _ _ C) as (j & E1). set (s1 := step s (OCancel (c_ctx x))) in *.
  assert (N1 : nth_error (env s1) k = Some (Cancel (cctx b x i) j None, Some j)) by (rewrite E1; apply nth_here).
  assert (L1 : length (env s1) = S k) by (rewrite E1, app_length; cbn; unfold k; lia).
  destruct (tags_new s1 k r _ _ N1) as [L2 N2]. rewrite L1 in L2, N2. set (s2 := fold_left step (tag_ops k (S k) (r_ua r) (r_path r)) s1) in *.
  assert (Q : fold_left step (request_ops k (c_ctx x) ua path h) s = fold_left step (if h then tag_ops (S (S k)) (S (S (S k))) ua path else []) s2).
  { unfold request_ops. rewrite !fold_left_app. reflexivity. }
  exists b, f, None, i, j. split; [apply env_stays; exact A|]. split; [apply env_stays; exact C|]. rewrite Q. split.
  - apply env_stays. apply (env_stays (tag_ops k (S k) (r_ua r) (r_path r))). exact N1.
  - destruct h; [|exact N2]. destruct (tags_new s2 _ r _ _ N2) as [_ N3]. rewrite L2 in N3. exact N3.
Qed.
Lemma own_below s r : req_ok s r -> r_own r < length (env s).
Proof. intros (b & f & g & i & j & _ & _ & A & _). apply nth_error_Some. congruence. Qed.
Lemma ok_happen w e : all_ok w -> all_ok (happen w e).
Proof.
  intros (A & C & D & E). unfold happen. destruct e as [o|n addr|l remote|c ua path h].
  - cbn [ops liss conns reqs]. unfold all_ok. cbn [ops liss conns reqs]. rewrite run_app. split; [|split; [|split]]; auto; intros x Hx; [apply lis_stays|apply con_stays|apply req_stays]; auto.
  - destruct (Nat.ltb_spec n (next w)) as [Hn|]; [|now repeat split]. unfold all_ok. cbn [ops liss conns reqs]. rewrite run_app. split; [|split; [|split]]; auto; intros x Hx; [|apply con_stays; auto|apply req_stays; auto].
    apply in_app_or in Hx as [Hx|[<-|[]]]; [apply lis_stays; auto|]. now apply listen_new.
  - destruct (nth_error (liss w) l) as [x|] eqn:Ex; [|now repeat split]. apply nth_error_In in Ex. unfold all_ok. cbn [ops liss conns reqs]. rewrite run_app. split; [|split; [|split]]; auto; intros y Hy; [apply lis_stays; auto| |apply req_stays; auto].
    apply in_app_or in Hy as [Hy|[<-|[]]]; [apply con_stays; auto|]. apply accept_new. auto.
  - destruct (nth_error (conns w) c) as [x|] eqn:Ex; [|now repeat split]. apply nth_error_In in Ex. unfold all_ok. cbn [ops liss conns reqs]. rewrite run_app. split; [|split; [|split]]; try (intros y Hy; [apply lis_stays; auto]); try (intros y Hy; [apply con_stays; auto]).
    + intros y Hy. apply in_app_or in Hy as [Hy|[<-|[]]]; [apply req_stays; auto|]. apply request_new. auto.
    + rewrite map_app. cbn [map r_own]. apply NoDup_rev in E. rewrite <- (rev_involutive (map r_own (reqs w) ++ [next w])). apply NoDup_rev. rewrite rev_app_distr. cbn [rev app]. constructor; [|exact E].
      rewrite <- in_rev. intros Hi. apply in_map_iff in Hi as (y & Ey & Hy). pose proof (own_below _ _ (D y Hy)). unfold next in Ey. lia.
Qed.
Lemma ok_history l : all_ok (history l).
Proof.
  unfold history. assert (G : forall w, all_ok w -> all_ok (fold_left happen l w)) by (induction l as [|e l IH]; intros w H; [exact H|]; cbn; apply IH, ok_happen, H).
  apply G. repeat split; try (intros x []). constructor.
Qed.
Lemma env_ctx w n c f : nth_error (env (run (ops w))) n = Some (c, f) -> is_ctx w n c.
Proof. intros H. unfold is_ctx. apply ctx_at_contexts. unfold ctx_at. now rewrite H. Qed.

Lemma tags_tag p k j : tags (Tag p k j) = tags p ++ [(k, j)].
Proof. apply tags_cons. Qed.
Lemma tags_val p k v : tags (Val p k v) = tags p.
Proof. apply tags_cons. Qed.
Lemma tags_can p i d : tags (Cancel p i d) = tags p.
Proof. apply tags_cons. Qed.

(* C157, what holds: for all histories, the context that the handler of a request gets carries the tags of the context given to Listen, then the address, the remote
   address, the user agent and the path of this very request; by these names its own are found; and its tracking id is the one of the context given to Listen. *)
Theorem C157_partial : forall (l : list event) (r : req), let w := history l in
  In r (reqs w) ->
  exists b c, is_ctx w (base r) b /\ is_ctx w (r_ctx r) c /\
    tags c = tags b ++ own_tags r /\ GetTracking c = GetTracking b /\ Deadline c = Deadline b /\
    (forall k v, In (k, v) (own_tags r) -> mget beqb (ExtractTags c) k = Some v).
Proof.
  intros l r w H. destruct (ok_history l) as (_ & _ & D & _). destruct (D r H) as (b & f & g & i & j & A & _ & _ & E). exists b, (rctx b r i j).
  split; [exact (env_ctx _ _ _ _ A)|]. split; [exact (env_ctx _ _ _ _ E)|]. unfold rctx, own_tags, tagd. destruct (r_handle r); (split; [unfold cctx, lctx; rewrite ?tags_tag, ?tags_can, ?tags_tag, ?tags_can, ?tags_val, ?tags_tag, ?tags_val, ?tags_tag; rewrite <- !app_assoc; reflexivity|]; split; [reflexivity|]; split; [reflexivity|]).
  - intros k v Q. rewrite extract_closest. cbn in Q. destruct Q as [Q|[Q|[Q|[Q|[Q|[Q|[]]]]]]]; injection Q as <- <-; reflexivity.
  - intros k v Q. rewrite extract_closest. cbn in Q. destruct Q as [Q|[Q|[Q|[Q|[]]]]]; injection Q as <- <-; reflexivity.
Qed.
Print Assumptions C157_partial.

(* C157: when it ends.  The context of a request ends with the request, its connection or the context given to Listen, whichever is first, and for no other reason. *)
Theorem C157_ends : forall (l : list event) (r : req), let w := history l in
  In r (reqs w) ->
  exists b c i j, is_ctx w (base r) b /\ is_ctx w (r_ctx r) c /\ ends_with w (c_ctx (r_con r)) i /\ ends_with w (r_own r) j /\
    over w c = option_map fst (first_of (j :: i :: scope b) (fired (run (ops w)))).
Proof.
  intros l r w H. destruct (ok_history l) as (_ & _ & D & _). destruct (D r H) as (b & f & g & i & j & A & C & O & E). exists b, (rctx b r i j), i, j.
  split; [exact (env_ctx _ _ _ _ A)|]. split; [exact (env_ctx _ _ _ _ E)|]. split; [eexists; exact C|]. split; [eexists; exact O|].
  unfold over. rewrite C21_errors; [|eapply nth_error_In; exact (env_ctx _ _ _ _ E)]. unfold rctx, tagd. destruct (r_handle r); reflexivity.
Qed.
Print Assumptions C157_ends.

(* C157: the end of one request leaves the others going, unless it ends the very context given to Listen. *)
Theorem C157_others : forall (l : list event) (x y : nat) (r r' : req) (ca : option N) (b c : context), let w := history l in
  nth_error (reqs w) x = Some r -> nth_error (reqs w) y = Some r' -> x <> y ->
  is_ctx w (base r) b -> is_ctx w (r_ctx r) c ->
  let w' := history (l ++ [EOp (OFire (r_own r') ca)]) in
  over w c = None -> over w' b = None -> over w' c = None.
Proof.
  intros l x y r r' ca b c w Hx Hy N Hb Hc w' Ow Ob. destruct (ok_history l) as (_ & _ & D & ND). fold w in D, ND.
  destruct (D r (nth_error_In _ _ Hx)) as (b0 & f & g & i & j & A & C & O & E). destruct (D r' (nth_error_In _ _ Hy)) as (b1 & f1 & g1 & i1 & j1 & _ & _ & O1 & _).
  assert (Eb : b = b0) by (pose proof (env_ctx _ _ _ _ A) as Q; unfold is_ctx in *; congruence).
  assert (Ec : c = rctx b r i j) by (pose proof (env_ctx _ _ _ _ E) as Q; unfold is_ctx in *; congruence). subst b0.
  assert (Ew : ops w' = ops w ++ [OFire (r_own r') ca]) by (unfold w', w, history; rewrite fold_left_app; reflexivity).
  unfold over in *. rewrite Ew in Ob |- *.
  rewrite (C21_cancel (ops w) (r_own r') ca _ j1 c O1) by (eapply nth_error_In; exact Hc). rewrite (C21_cancel (ops w) (r_own r') ca _ j1 b O1) in Ob by (eapply nth_error_In; exact Hb). rewrite Ow.
  destruct (Err (cells (run (ops w))) b); [discriminate|]. destruct (existsb (Nat.eqb j1) (scope b)) eqn:Sb; [discriminate|].
  destruct (own_run (ops w)) as [U _].
  assert (J : j1 <> j).
  { intros ->. pose proof (U _ _ _ _ _ O O1) as Q. apply N. apply (proj1 (NoDup_nth_error _) ND); [apply nth_error_Some; erewrite map_nth_error; [discriminate|exact Hx]|].
    rewrite (map_nth_error r_own _ _ Hx), (map_nth_error r_own _ _ Hy). now f_equal. }
  assert (I' : j1 <> i) by (intros ->; pose proof (U _ _ _ _ _ C O1) as Q; rewrite Q in C; rewrite C in O1; discriminate).
  assert (Q : scope c = j :: i :: scope b) by (rewrite Ec; unfold rctx, tagd; destruct (r_handle r); reflexivity). rewrite Q. cbn [existsb].
  apply Nat.eqb_neq in J, I'. now rewrite J, I', Sb.
Qed.
Print Assumptions C157_others.

(* C157, false as stated: no request has a tracking id of its own; two requests, of two clients, over two connections, show the same one in their error replies, *)
Theorem C157_refuted : exists (l : list event) (r r' : req) (c c' : context), let w := history l in
  In r (reqs w) /\ In r' (reqs w) /\ c_remote (r_con r) <> c_remote (r_con r') /\ is_ctx w (r_ctx r) c /\ is_ctx w (r_ctx r') c' /\
  GetTracking c = GetTracking c' /\ GetTracking c = B "start".
Proof.
  set (l := [EOp OBackground; EOp (OTracking 0 (B "start") []); EListen 1 (B "[::]:80"); EAccept 0 (B "10.0.0.1:99"); ERequest 0 (B "curl") (B "/a") true; EAccept 0 (B "10.0.0.2:99"); ERequest 1 (B "curl") (B "/b") false]).
  set (q := fun n => nth n (reqs (history l)) (Req 0 0 (Con 0 (Lis 0 0 []) []) [] [] false)). set (cx := fun n => nth n (contexts (ops (history l))) Root).
  exists l, (q 0), (q 1), (cx (r_ctx (q 0))), (cx (r_ctx (q 1))). cbv zeta.
  assert (L : length (reqs (history l)) = 2) by (vm_compute; reflexivity).
  assert (V : c_remote (r_con (q 0)) <> c_remote (r_con (q 1)) /\ is_ctx (history l) (r_ctx (q 0)) (cx (r_ctx (q 0))) /\ is_ctx (history l) (r_ctx (q 1)) (cx (r_ctx (q 1))) /\
    GetTracking (cx (r_ctx (q 0))) = GetTracking (cx (r_ctx (q 1))) /\ GetTracking (cx (r_ctx (q 0))) = B "start").
  { vm_compute. split; [discriminate|]. repeat split. }
  split; [unfold q; apply nth_In; rewrite L; auto|]. split; [unfold q; apply nth_In; rewrite L; auto|exact V].
Qed.
Print Assumptions C157_refuted.
(* and this is so always: whoever called Listen decided on the tracking id of all its requests. *)
Theorem C157_same_refuted : forall (l : list event) (r r' : req), let w := history l in
  In r (reqs w) -> In r' (reqs w) -> base r = base r' ->
  exists c c', is_ctx w (r_ctx r) c /\ is_ctx w (r_ctx r') c' /\ GetTracking c = GetTracking c'.
Proof.
  intros l r r' w H H' E. destruct (C157_partial l r H) as (b & c & B1 & B2 & _ & B3 & _). destruct (C157_partial l r' H') as (b' & c' & D1 & D2 & _ & D3 & _). fold w in B1, B2, D1, D2.
  exists c, c'. repeat split; auto. rewrite B3, D3. rewrite E in B1. unfold is_ctx in *. congruence.
Qed.
Print Assumptions C157_same_refuted.

(* one request after another over a connection: the first is over, the second is not; then the connection goes *)
Example C157_ex :
  let l := [EOp OBackground; EListen 0 (B "[::]:80"); EAccept 0 (B "10.0.0.1:99"); ERequest 0 (B "curl") (B "/a") true; ERequest 0 (B "curl") (B "/b") false; EOp (OFire 6 None)] in
  let w := history l in let w' := history (l ++ [EOp (OFire 5 None)]) in
  map r_own (reqs w) = [6; 11] /\ map r_ctx (reqs w) = [10; 13] /\
  option_map (over w) (nth_error (contexts (ops w)) 10) = Some (Some Canceled) /\ option_map (over w) (nth_error (contexts (ops w)) 13) = Some None /\
  option_map (over w') (nth_error (contexts (ops w)) 13) = Some (Some Canceled) /\
  option_map (fun c => length (tags c)) (nth_error (contexts (ops w)) 10) = Some 6 /\
  option_map (fun c => mget beqb (ExtractTags c) (B "path")) (nth_error (contexts (ops w)) 13) = Some (Some (B """/b""")).
Proof. vm_compute. repeat split. Qed.
