(* Proofs about ReadAll. *)
From Coq Require Import Bool Ascii String Arith Lia List.
From Verif Require Import Prelude RdModel RdSpec.
Import ListNotations.


Arguments data : simpl never.
Arguments goods : simpl never.

Record inv (r : list rd) (s : st) : Prop := {
  i_script : r = delivered s ++ script s;
  i_out : out s = data (goods (delivered s));
  i_live : gpos s <> GOver -> Forall (fun x => rd_err x = None) (delivered s) /\ got s = None /\
             (forall b k, ret s = Some (b, k) -> k = RTimeout);
  i_got : forall e, got s = Some e -> exists pre d, delivered s = pre ++ [Rd d (Some e)] /\ Forall (fun x => rd_err x = None) pre;
  i_ret : forall b k, ret s = Some (b, k) ->
     match k with
     | RTimeout => cancelled s = true /\ exists pre post, r = pre ++ post /\ b = data (goods pre)
     | RNil => exists pre d, delivered s = pre ++ [Rd d (Some REOF)] /\ Forall (fun x => rd_err x = None) pre /\ b = data pre
     | RFail => exists pre d, delivered s = pre ++ [Rd d (Some ROther)] /\ Forall (fun x => rd_err x = None) pre /\ b = data pre
     end }.

Lemma goods_app a b : goods (a ++ b) = goods a ++ goods b.
Proof. apply filter_app. Qed.
Lemma data_app a b : data (a ++ b) = data a ++ data b.
Proof. unfold data. rewrite map_app, concat_app. reflexivity. Qed.
Lemma goods1 x : goods [x] = match rd_err x with None => [x] | Some _ => [] end.
Proof. unfold goods. cbn. destruct (rd_err x); reflexivity. Qed.
Lemma data1 x : data [x] = rd_data x.
Proof. unfold data. cbn. apply app_nil_r. Qed.
Lemma data0 : data [] = [].
Proof. reflexivity. Qed.
Lemma goods_all l : Forall (fun x => rd_err x = None) l -> goods l = l.
Proof. induction 1 as [|x l Hx Hl IH]; [reflexivity|]. unfold goods in *. cbn. rewrite Hx. cbn. f_equal. exact IH. Qed.

Lemma inv_init r : inv r (init r).
Proof. constructor; cbn; try reflexivity; try discriminate. intros _. repeat split; [constructor|discriminate]. Qed.

Lemma inv_step r s l : inv r s -> inv r (step s l).
Proof.
  intros [H1 H2 H3 H4 H5]. destruct l; cbn.
  - destruct (gpos s) eqn:G.
    + constructor; cbn; auto. intros _. apply H3. discriminate.
    + destruct (script s) as [|x rest] eqn:S; [constructor; rewrite ?S; auto; rewrite G; auto|].
      destruct H3 as (F & Hg & Hr); [discriminate|].
      destruct (rd_err x) as [e|] eqn:E; constructor; cbn.
      * rewrite <- app_assoc. exact H1.
      * rewrite goods_app, data_app, goods1, E, data0, app_nil_r. exact H2.
      * intros H. exfalso. apply H. reflexivity.
      * intros e' He. injection He as <-. exists (delivered s), (rd_data x). split; [|exact F]. destruct x; cbn in *; congruence.
      * intros b k Hb. pose proof (Hr _ _ Hb); subst k. apply H5 in Hb. exact Hb.
      * rewrite <- app_assoc. exact H1.
      * rewrite goods_app, data_app, goods1, E, data1, H2. reflexivity.
      * intros _. repeat split; auto. apply Forall_app. auto.
      * rewrite Hg. discriminate.
      * intros b k Hb. pose proof (Hr _ _ Hb); subst k. apply H5 in Hb. exact Hb.
    + constructor; rewrite ?G; auto.
  - constructor; cbn; auto. intros b k Hb. apply H5 in Hb. destruct k; auto. split; [reflexivity|apply Hb].
  - destruct (cancelled s) eqn:C; [|constructor; rewrite ?C; auto].
    destruct (ret s) eqn:R; [constructor; rewrite ?C, ?R; auto|].
    constructor; cbn; auto.
    + intros Hg. destruct (H3 Hg) as (F & Hn & _). repeat split; auto. intros b k Hb. congruence.
    + intros b k Hb. injection Hb as <- <-. split; [reflexivity|]. exists (delivered s), (script s). auto.
  - destruct (got s) as [e|] eqn:Gt; [|constructor; rewrite ?Gt; auto].
    destruct (ret s) eqn:R; [constructor; rewrite ?Gt, ?R; auto|].
    constructor; cbn; auto.
    + intros Hg. destruct (H3 Hg) as (F & Hn & _). discriminate.
    + discriminate.
    + intros b k Hb. injection Hb as <- <-. destruct (H4 e eq_refl) as (pre & d & Hd & F).
      destruct e; exists pre, d; repeat split; auto; rewrite H2, Hd, goods_app, data_app, (goods_all _ F), goods1; cbn [rd_err]; rewrite data0, app_nil_r; reflexivity.
Qed.

Lemma inv_exec r ls s : inv r s -> inv r (exec s ls).
Proof. revert s; induction ls as [|l ls IH]; intros s H; cbn; [exact H|]. apply IH, inv_step, H. Qed.

Lemma readall r ls b k : ret (exec (init r) ls) = Some (b, k) ->
  match k with
  | RTimeout => exists pre post, r = pre ++ post /\ b = data (goods pre)
  | RNil => exists pre d post, r = pre ++ [Rd d (Some REOF)] ++ post /\ Forall (fun x => rd_err x = None) pre /\ b = data pre
  | RFail => exists pre d post, r = pre ++ [Rd d (Some ROther)] ++ post /\ Forall (fun x => rd_err x = None) pre /\ b = data pre
  end.
Proof.
  intros H. pose proof (inv_exec r ls _ (inv_init r)) as I. pose proof (i_ret _ _ I _ _ H) as R.
  pose proof (i_script _ _ I) as Sc. destruct k.
  - destruct R as (pre & d & E & F & Hb). exists pre, d, (script (exec (init r) ls)). rewrite app_assoc, <- E. auto.
  - apply R.
  - destruct R as (pre & d & E & F & Hb). exists pre, d, (script (exec (init r) ls)). rewrite app_assoc, <- E. auto.
Qed.

Lemma upto_app pre d e post : Forall (fun x => rd_err x = None) pre -> upto (pre ++ Rd d (Some e) :: post) = pre ++ [Rd d (Some e)].
Proof. induction 1 as [|x l Hx Hl IH]; cbn; [reflexivity|]. rewrite Hx. f_equal. exact IH. Qed.

Lemma readall_all r ls b : ret (exec (init r) ls) = Some (b, RNil) ->
  Forall (fun x => rd_err x <> None -> rd_data x = []) r -> b = data (upto r).
Proof.
  intros H F. destruct (readall _ _ _ _ H) as (pre & d & post & -> & Fp & ->).
  cbn [app]. rewrite (upto_app _ _ _ _ Fp), data_app. apply Forall_app in F as [_ F].
  inversion F as [|x l Hx _]; subst. cbn in Hx. rewrite data1. cbn [rd_data]. rewrite Hx by discriminate. rewrite app_nil_r. reflexivity.
Qed.

(* it ends: without cancellation, when the reader gives an error, the steps of the goroutine lead to a return *)
Lemma go_ends pre d e post s : Forall (fun x => rd_err x = None) pre -> script s = pre ++ Rd d (Some e) :: post ->
  gpos s = GLoop -> cancelled s = false -> ret s = None ->
  exists n, ret (exec s (repeat LGo n ++ [LErr])) = Some (out s ++ data pre, match e with REOF => RNil | ROther => RFail end).
Proof.
  intros F; revert s; induction F as [|x pre Hx F IH]; intros s Hs G C R.
  - exists 2. cbn. rewrite G, C. cbn. rewrite Hs. cbn. rewrite R. cbn. rewrite data0, app_nil_r. reflexivity.
  - pose (s1 := step (step s LGo) LGo).
    assert (E1 : s1 = St (pre ++ Rd d (Some e) :: post) (delivered s ++ [x]) (out s ++ rd_data x) (got s) false GLoop None).
    { subst s1. cbn. rewrite G, C. cbn. rewrite Hs. cbn. rewrite Hx, R. reflexivity. }
    destruct (IH s1) as [n Hn]; try (rewrite E1; reflexivity).
    exists (S (S n)). cbn [repeat app exec]. fold s1. rewrite Hn, E1. cbn [out]. change (x :: pre) with ([x] ++ pre). rewrite data_app, data1, <- app_assoc. reflexivity.
Qed.

Lemma readall_ends pre d e post : Forall (fun x => rd_err x = None) pre ->
  exists ls, Forall (fun l => l <> LCancel) ls /\
    ret (exec (init (pre ++ Rd d (Some e) :: post)) ls) = Some (data pre, match e with REOF => RNil | ROther => RFail end).
Proof.
  intros F. destruct (go_ends pre d e post (init (pre ++ Rd d (Some e) :: post)) F eq_refl eq_refl eq_refl eq_refl) as [n Hn].
  eexists. split; [|exact Hn]. apply Forall_app. split; [|repeat constructor; discriminate].
  apply Forall_forall. intros x Hx. apply repeat_spec in Hx. subst. discriminate.
Qed.
