From Coq Require Import Bool Ascii String Arith NArith ZArith Lia List.
From Verif Require Import Prelude PreludeFacts Utf8Model Utf8Facts QuoteModel QuoteFacts DurModel DurProofs PromModel PromSpec.
Import ListNotations.

Lemma beqb_is_ok : eqb_ok beqb.
Proof. intros x y. apply beqb_eq. Qed.

(* ---- labels ---- *)
Section L.
  Context (isprint : N -> bool).

  Lemma lab_loop_inj keys : forall v1 v2, length keys = length v1 -> length keys = length v2 ->
    lab_loop isprint keys v1 = lab_loop isprint keys v2 -> v1 = v2.
  Proof.
    induction keys as [|k keys IH]; intros [|a v1] [|b v2] H1 H2 H; cbn in H1, H2; try lia; auto.
    cbn [lab_loop] in H. apply app_inv_head in H. apply app_inv_head in H. apply app_inv_head in H.
    apply quote_prefix in H as [-> H]. f_equal. apply IH; auto.
  Qed.
  Lemma lab_loop_head keys vals : exists t, lab_loop isprint keys vals = [] /\ t = [] \/
    lab_loop isprint keys vals = ","%char :: t.
  Proof.
    destruct keys, vals; cbn; try (exists []; left; auto; fail). eexists. right. reflexivity.
  Qed.
  Lemma stringify_panic keys vals : stringify isprint keys vals = Panic <-> length keys <> length vals.
  Proof.
    unfold stringify. destruct (length keys =? length vals)%nat eqn:E; cbn.
    - apply Nat.eqb_eq in E. split; [destruct (lab_loop _ _ _); discriminate|congruence].
    - apply Nat.eqb_neq in E. tauto.
  Qed.
  Lemma stringify_ok keys vals : length keys = length vals -> exists s, stringify isprint keys vals = Ok s.
  Proof.
    intros H. destruct (stringify isprint keys vals) eqn:E; eauto. apply stringify_panic in E. contradiction.
  Qed.
  Lemma stringify_inj keys v1 v2 s : stringify isprint keys v1 = Ok s -> stringify isprint keys v2 = Ok s -> v1 = v2.
  Proof.
    unfold stringify. destruct (length keys =? length v1)%nat eqn:E1; [|discriminate].
    destruct (length keys =? length v2)%nat eqn:E2; [|discriminate]. cbn. apply Nat.eqb_eq in E1, E2.
    intros H1 H2. apply (lab_loop_inj keys); auto.
    destruct keys as [|k keys], v1 as [|a v1], v2 as [|b v2]; cbn in E1, E2; try lia; auto.
    cbn [lab_loop B list_ascii_of_string app] in *. congruence.
  Qed.
End L.

(* ---- observers ---- *)
Lemma lbeqb_ok : eqb_ok lbeqb.
Proof. intros a b. unfold lbeqb. destruct (list_eq_dec (list_eq_dec ascii_dec) a b); split; auto; discriminate. Qed.

Section O.
  Context (isprint : N -> bool).
  Context {V : Type} (leb : V -> V -> bool) (add : V -> V -> V) (zero : V).
  Context (keys : list bytes) (le : list V).
  Notation observe := (observe leb add).
  Notation mstep := (mstep isprint leb add zero keys le).
  Notation mrun := (mrun isprint leb add zero keys le).
  Notation new_series := (new_series zero).


  Lemma bump_length l : forall v b, length (bump leb l v b) = length b.
  Proof. induction l; intros v [|c b]; cbn; auto. Qed.
  Lemma bump_nth l : forall v b i x c, nth_error l i = Some x -> nth_error b i = Some c ->
    nth_error (bump leb l v b) i = Some (if leb v x then S c else c).
  Proof.
    induction l as [|y l IH]; intros v [|d b] [|i] x c Hx Hc; cbn in *; try discriminate.
    - injection Hx as ->; injection Hc as ->; reflexivity.
    - eauto.
  Qed.

  (* the series after a list of observations *)
  Definition series_of (os : list V) : series V := fold_left (fun h v => observe le v h) os new_series.

  Lemma series_of_snoc os v : series_of (os ++ [v]) = observe le v (series_of os).
  Proof. unfold series_of. rewrite fold_left_app. auto. Qed.
  Lemma series_sum os : ssum (series_of os) = fold_left add os zero.
  Proof.
    induction os as [|v os IH] using rev_ind; auto. rewrite series_of_snoc, fold_left_app. cbn. now rewrite IH.
  Qed.
  Lemma series_count os : scount (series_of os) = length os.
  Proof.
    induction os as [|v os IH] using rev_ind; auto. rewrite series_of_snoc, app_length. cbn. rewrite IH. lia.
  Qed.
  Lemma series_buckets os : (os = [] /\ buckets (series_of os) = []) \/
    (os <> [] /\ length (buckets (series_of os)) = length le /\
     forall i x, nth_error le i = Some x -> nth_error (buckets (series_of os)) i = Some (count_le leb x os)).
  Proof.
    induction os as [|v os IH] using rev_ind; [left; auto|]. right.
    split; [destruct os; discriminate|]. rewrite series_of_snoc. cbn [observe buckets].
    assert (Hg : length (grow (length le) (buckets (series_of os))) = length le /\
      forall i x, nth_error le i = Some x ->
        nth_error (grow (length le) (buckets (series_of os))) i = Some (count_le leb x os)).
    { unfold grow. destruct IH as [[-> H]|(Hne & Hl & Hn)].
      - rewrite H. cbn. rewrite Nat.sub_0_r, repeat_length. split; auto.
        intros i x Hx. assert (i < length le) by (apply nth_error_Some; congruence).
        rewrite nth_error_repeat by auto. auto.
      - rewrite Hl, Nat.sub_diag. cbn. rewrite app_nil_r. auto. }
    destruct Hg as [Hg1 Hg2]. split.
    - rewrite bump_length. auto.
    - intros i x Hx. rewrite (bump_nth le v _ i x (count_le leb x os)); auto.
      unfold count_le. rewrite filter_app, app_length. cbn. destruct (leb v x); cbn; f_equal; lia.
  Qed.

  (* invariant tying a run to its finished observations *)
  Definition obs_state (ls : list (mlabel V)) := fold_left (obs_step (length keys)) ls ((fun _ => None), []).
  Definition Inv (ls : list (mlabel V)) : Prop :=
    let s := mrun ls in let p := fst (obs_state ls) in let d := snd (obs_state ls) in
    NoDup (map fst (tbl s)) /\
    (forall t, match p t with
               | None => pend s t = None
               | Some (vals, v) => exists k, stringify isprint keys vals = Ok k /\ pend s t = Some (k, v) /\
                   exists h, mget beqb (tbl s) k = Some h
               end) /\
    (forall vals k, stringify isprint keys vals = Ok k ->
       match mget beqb (tbl s) k with
       | Some h => h = series_of (values_of vals d)
       | None => values_of vals d = []
       end) /\
    (forall e, In e d -> length keys = length (fst e)).

  Lemma values_snoc vals (d : list (list bytes * V)) e : values_of vals (d ++ [e]) =
    values_of vals d ++ (if lbeqb (fst e) vals then [snd e] else []).
  Proof.
    unfold values_of. rewrite filter_app, map_app. cbn. destruct (lbeqb (fst e) vals); auto.
  Qed.

  Lemma inv_run ls : Inv ls.
  Proof.
    induction ls as [|l ls IH] using rev_ind.
    - unfold Inv. cbn. repeat split; auto; try constructor; try tauto.
    - unfold Inv in *. unfold obs_state in *. rewrite fold_left_app.
      unfold PromModel.mrun in *. rewrite fold_left_app. cbn [fold_left].
      set (s := fold_left mstep ls m_init) in *.
      destruct (fold_left (obs_step (length keys)) ls (fun _ => None, [])) as [p d] eqn:Eo.
      cbn [fst snd] in IH. destruct IH as (Hnd & Hp & Hd & Hlen).
      destruct l as [t v vals|t|k]; cbn [PromModel.mstep obs_step].
      + pose proof (Hp t) as Hpt. destruct (p t) as [[vals' v']|] eqn:Ept.
        * destruct Hpt as (k & _ & -> & _). cbn. repeat split; auto.
        * rewrite Hpt. destruct (length keys =? length vals)%nat eqn:E.
          2: { assert (Hs : stringify isprint keys vals = Panic).
               { apply stringify_panic. now apply Nat.eqb_neq. }
               rewrite Hs. cbn. repeat split; auto. }
          apply Nat.eqb_eq in E. destruct (stringify_ok isprint keys vals E) as (k & Hk). rewrite Hk.
          cbn [fst snd].
          destruct (mget beqb (tbl s) k) as [h|] eqn:Eg; cbn [tbl pend]; repeat split; auto.
          -- intros u. unfold set_pend. destruct (Nat.eqb u t) eqn:Eu; auto. exists k. eauto.
             apply Hp.
          -- apply mset_nodup; auto. apply beqb_is_ok.
          -- intros u. unfold set_pend. destruct (Nat.eqb u t) eqn:Eu.
             ++ exists k. repeat split; auto. rewrite (mget_mset_eq beqb beqb_is_ok). eauto.
             ++ specialize (Hp u). destruct (p u) as [[vs w]|]; auto. destruct Hp as (k' & H1 & H2 & h & H3).
                exists k'. repeat split; auto. destruct (key_dec beqb beqb_is_ok k k') as [<-|Hne]; [congruence|].
                rewrite (mget_mset_ne beqb beqb_is_ok) by auto. eauto.
          -- intros vs k' Hk'. destruct (key_dec beqb beqb_is_ok k k') as [<-|Hne].
             ++ rewrite (mget_mset_eq beqb beqb_is_ok). specialize (Hd vs k Hk'). rewrite Eg in Hd. now rewrite Hd.
             ++ rewrite (mget_mset_ne beqb beqb_is_ok) by auto. apply Hd; auto.
      + pose proof (Hp t) as Hpt. destruct (p t) as [[vals v]|] eqn:Ept.
        2: { rewrite Hpt. cbn. repeat split; auto. }
        destruct Hpt as (k & Hk & -> & h & Hh). rewrite Hh. cbn [tbl pend fst snd]. repeat split; auto.
        * apply mset_nodup; auto. apply beqb_is_ok.
        * intros u. unfold set_pend. destruct (Nat.eqb u t) eqn:Eu; auto.
          specialize (Hp u). destruct (p u) as [[vs w]|]; auto. destruct Hp as (k' & H1 & H2 & h' & H3).
          exists k'. repeat split; auto. destruct (key_dec beqb beqb_is_ok k k') as [<-|Hne].
          -- rewrite (mget_mset_eq beqb beqb_is_ok). eauto.
          -- rewrite (mget_mset_ne beqb beqb_is_ok) by auto. eauto.
        * intros vs k' Hk'. rewrite values_snoc. cbn [fst snd]. destruct (key_dec beqb beqb_is_ok k k') as [<-|Hne].
          -- rewrite (mget_mset_eq beqb beqb_is_ok).
             assert (vals = vs) by (eapply stringify_inj; eauto). subst vs.
             rewrite (eqb_refl_ok lbeqb lbeqb_ok). rewrite series_of_snoc. f_equal.
             specialize (Hd vals k Hk'). rewrite Hh in Hd. auto.
          -- rewrite (mget_mset_ne beqb beqb_is_ok) by auto.
             assert (vals <> vs) by (intros ->; congruence).
             rewrite (eqb_ne lbeqb lbeqb_ok) by auto. rewrite app_nil_r. apply Hd; auto.
        * intros e He. apply in_app_or in He as [He|[<-|[]]]; auto. cbn.
          assert (Hnp : stringify isprint keys vals <> Panic) by congruence.
          rewrite stringify_panic in Hnp. lia.
      + cbn. repeat split; auto.
  Qed.

  Lemma run_series ls vals k : stringify isprint keys vals = Ok k ->
    match mget beqb (tbl (mrun ls)) k with
    | Some h => h = series_of (values_of vals (finished (length keys) ls))
    | None => values_of vals (finished (length keys) ls) = []
    end.
  Proof. intros Hk. destruct (inv_run ls) as (_ & _ & H & _). apply H; auto. Qed.
End O.

Lemma count_mono {V} (leb : V -> V -> bool) a b os :
  (forall x, leb x a = true -> leb x b = true) -> (count_le leb a os <= count_le leb b os)%nat.
Proof.
  intros H. unfold count_le. induction os as [|x os IH]; cbn; auto.
  destruct (leb x a) eqn:E; [rewrite (H x E); cbn; lia|]. destruct (leb x b); cbn; lia.
Qed.

(* ---- gauges ---- *)
Lemma wrap64_add a b : wrap64 (wrap64 a + b) = wrap64 (a + b).
Proof.
  unfold wrap64. f_equal.
  replace ((a + 9223372036854775808) mod 18446744073709551616 - 9223372036854775808 + b + 9223372036854775808)%Z
    with ((a + 9223372036854775808) mod 18446744073709551616 + b)%Z by lia.
  rewrite Zplus_mod_idemp_l. f_equal. lia.
Qed.
Lemma wrap64_add_r a b : wrap64 (a + wrap64 b) = wrap64 (a + b).
Proof. rewrite Z.add_comm, wrap64_add. f_equal. lia. Qed.
Lemma wrap64_idem a : wrap64 (wrap64 a) = wrap64 a.
Proof. pose proof (wrap64_add a 0) as H. now rewrite !Z.add_0_r in H. Qed.
Lemma wrap64_small a : int64 a -> wrap64 a = a.
Proof. unfold int64, wrap64. intros H. rewrite Z.mod_small; lia. Qed.
Lemma wrap64_range a : int64 (wrap64 a).
Proof.
  unfold int64, wrap64. pose proof (Z.mod_pos_bound (a + 9223372036854775808) 18446744073709551616 ltac:(lia)). lia.
Qed.

Definition GInv (g : gauge) : Prop :=
  NoDup (map fst (gtbl g)) /\
  (forall k id, mget beqb (gtbl g) k = Some (GCell id) -> (id < length (cells g))%nat) /\
  (forall k1 k2 id, mget beqb (gtbl g) k1 = Some (GCell id) -> mget beqb (gtbl g) k2 = Some (GCell id) -> k1 = k2) /\
  (forall id z, nth_error (cells g) id = Some z -> wrap64 z = z).

Lemma ginv_step g o : GInv g -> GInv (fst (gstep g o)).
Proof.
  intros (H1 & H2 & H3 & H4). unfold gstep.
  assert (Hupd : forall id x, GInv (Gauge (gtbl g) (upd (cells g) id (wrap64 x)))).
  { intros id x. repeat split; cbn; auto.
    - intros. rewrite upd_length. eauto.
    - intros i z Hz. rewrite nth_error_upd in Hz.
      destruct ((i =? id)%nat && (id <? length (cells g))%nat); eauto. inversion Hz. apply wrap64_idem. }
  destruct o as [k|id a|id a|k [f|]].
  - destruct (mget beqb (gtbl g) k) as [[id|f]|] eqn:E; cbn; try (repeat split; auto; fail).
    repeat split; cbn.
    + apply mset_nodup; auto. apply beqb_is_ok.
    + intros k' id. rewrite app_length. cbn. destruct (key_dec beqb beqb_is_ok k k') as [<-|Hne].
      * rewrite (mget_mset_eq beqb beqb_is_ok). intros Hi. inversion Hi. lia.
      * rewrite (mget_mset_ne beqb beqb_is_ok) by auto. intros Hi. apply H2 in Hi. lia.
    + intros k1 k2 id Ha Hb.
      destruct (key_dec beqb beqb_is_ok k k1) as [<-|Hn1]; destruct (key_dec beqb beqb_is_ok k k2) as [<-|Hn2]; auto;
        rewrite ?(mget_mset_eq beqb beqb_is_ok) in *; rewrite ?(mget_mset_ne beqb beqb_is_ok) in * by auto.
      * inversion Ha; subst. apply H2 in Hb. lia.
      * inversion Hb; subst. apply H2 in Ha. lia.
      * eauto.
    + intros id z Hz. destruct (Nat.lt_ge_cases id (length (cells g))) as [Hl|Hl].
      * rewrite nth_error_app1 in Hz by auto. eauto.
      * rewrite nth_error_app2 in Hz by auto. destruct (id - length (cells g))%nat as [|m]; cbn in Hz.
        -- inversion Hz; subst. reflexivity.
        -- destruct m; discriminate.
  - destruct (nth_error (cells g) id) eqn:E; cbn; auto. repeat split; auto.
  - destruct (nth_error (cells g) id) eqn:E; cbn; auto. repeat split; auto.
  - cbn. repeat split; cbn; auto.
    + apply mset_nodup; auto. apply beqb_is_ok.
    + intros k' id. destruct (key_dec beqb beqb_is_ok k k') as [<-|Hne].
      * rewrite (mget_mset_eq beqb beqb_is_ok). discriminate.
      * rewrite (mget_mset_ne beqb beqb_is_ok) by auto. eauto.
    + intros k1 k2 id Ha Hb.
      destruct (key_dec beqb beqb_is_ok k k1) as [<-|Hn1]; destruct (key_dec beqb beqb_is_ok k k2) as [<-|Hn2]; auto;
        rewrite ?(mget_mset_eq beqb beqb_is_ok) in *; rewrite ?(mget_mset_ne beqb beqb_is_ok) in * by auto; try discriminate.
      eauto.
  - cbn. repeat split; cbn; auto.
    + apply mdel_nodup; auto.
    + intros k' id. destruct (key_dec beqb beqb_is_ok k k') as [<-|Hne].
      * rewrite (mget_mdel_eq beqb beqb_is_ok) by auto. discriminate.
      * rewrite (mget_mdel_ne beqb beqb_is_ok) by auto. eauto.
    + intros k1 k2 id Ha Hb.
      destruct (key_dec beqb beqb_is_ok k k1) as [<-|Hn1]; destruct (key_dec beqb beqb_is_ok k k2) as [<-|Hn2]; auto;
        rewrite ?(mget_mdel_eq beqb beqb_is_ok) in * by auto; rewrite ?(mget_mdel_ne beqb beqb_is_ok) in * by auto; try discriminate.
      eauto.
Qed.
Lemma ginv_run ops : GInv (gstate ops).
Proof.
  induction ops as [|o ops IH] using rev_ind.
  - unfold gstate. cbn. repeat split; cbn; try constructor; try discriminate.
    intros [|id] z; discriminate.
  - unfold gstate. rewrite fold_left_app. cbn [fold_left]. apply ginv_step. auto.
Qed.

(* one step, seen from a series whose cell is id *)
Lemma gstep_cell g o k id z : GInv g -> mget beqb (gtbl g) k = Some (GCell id) -> nth_error (cells g) id = Some z ->
  ~ sets_func k o ->
  mget beqb (gtbl (fst (gstep g o))) k = Some (GCell id) /\
  nth_error (cells (fst (gstep g o))) id = Some (wrap64 (z + delta id o)).
Proof.
  intros Hinv Hk Hz Hns. pose proof Hinv as (H1 & H2 & H3 & H4).
  assert (Hz0 : wrap64 (z + 0) = z) by (rewrite Z.add_0_r; eauto).
  assert (Hid : (id < length (cells g))%nat) by eauto.
  destruct o as [k'|i a|i a|k' f]; cbn [gstep delta].
  - destruct (key_dec beqb beqb_is_ok k' k) as [->|Hne].
    + rewrite Hk. cbn. rewrite Hz0. auto.
    + destruct (mget beqb (gtbl g) k') as [[|]|] eqn:E; cbn; rewrite ?Hz0; auto.
      rewrite (mget_mset_ne beqb beqb_is_ok) by auto. split; auto. rewrite nth_error_app1; auto.
  - destruct (Nat.eqb i id) eqn:E.
    + apply Nat.eqb_eq in E; subst i. rewrite Hz. cbn. split; auto. rewrite nth_error_upd_eq; auto.
    + apply Nat.eqb_neq in E. destruct (nth_error (cells g) i); cbn; rewrite Hz0; auto.
      split; auto. rewrite nth_error_upd_ne; auto.
  - destruct (Nat.eqb i id) eqn:E.
    + apply Nat.eqb_eq in E; subst i. rewrite Hz. cbn. split; auto. rewrite nth_error_upd_eq; auto.
      now rewrite wrap64_add_r.
    + apply Nat.eqb_neq in E. destruct (nth_error (cells g) i); cbn; rewrite Hz0; auto.
      split; auto. rewrite nth_error_upd_ne; auto.
  - assert (Hne : k' <> k). { intros ->. apply Hns. unfold sets_func. eauto. }
    destruct f; cbn; rewrite Hz0; split; auto.
    + now rewrite (mget_mset_ne beqb beqb_is_ok) by auto.
    + now rewrite (mget_mdel_ne beqb beqb_is_ok) by auto.
Qed.

Lemma gsteps_cell ops : forall g k id z, GInv g -> mget beqb (gtbl g) k = Some (GCell id) -> nth_error (cells g) id = Some z ->
  (forall o, In o ops -> ~ sets_func k o) ->
  let g' := fold_left (fun g o => fst (gstep g o)) ops g in
  mget beqb (gtbl g') k = Some (GCell id) /\ nth_error (cells g') id = Some (wrap64 (z + total id ops)).
Proof.
  induction ops as [|o ops IH]; intros g k id z Hinv Hk Hz Hns; cbn.
  - split; auto. unfold total. cbn. rewrite Z.add_0_r. destruct Hinv as (_ & _ & _ & H). rewrite (H id z); auto.
  - destruct (gstep_cell g o k id z) as [Ha Hb]; auto. { apply Hns. cbn; auto. }
    destruct (IH (fst (gstep g o)) k id (wrap64 (z + delta id o))) as [Hc Hd]; auto.
    { apply ginv_step; auto. } { intros o' Ho'. apply Hns. cbn; auto. }
    split; auto. etransitivity; [exact Hd|]. rewrite wrap64_add. do 2 f_equal. unfold total. cbn. lia.
Qed.

Lemma gauge_sum pre suf k id : (forall o, In o suf -> ~ sets_func k o) ->
  snd (gstep (gstate pre) (GCounter k)) = GHandle id ->
  gshow (gstate (pre ++ GCounter k :: suf)) k =
    ShownCount (wrap64 (match gshow (gstate pre) k with ShownCount z => z | _ => 0 end + total id suf)) /\
  snd (gstep (gstate (pre ++ GCounter k :: suf)) (GCounter k)) = GHandle id.
Proof.
  intros Hns Hh. pose proof (ginv_run pre) as Hinv. pose proof Hinv as (H1 & H2 & H3 & H4).
  unfold gstate at 1 3. rewrite fold_left_app. cbn [fold_left]. fold (gstate pre).
  set (g := gstate pre) in *.
  assert (Hg : exists z, mget beqb (gtbl (fst (gstep g (GCounter k)))) k = Some (GCell id) /\
    nth_error (cells (fst (gstep g (GCounter k)))) id = Some z /\
    z = match gshow g k with ShownCount z => z | _ => 0%Z end).
  { unfold gstep, gshow in *. destruct (mget beqb (gtbl g) k) as [[i|f]|] eqn:E; cbn in Hh; inversion Hh; subst; cbn.
    - assert (id < length (cells g))%nat by eauto. destruct (nth_error_lt (cells g) id) as (z & Hz); auto.
      exists z. rewrite Hz. auto.
    - exists 0%Z. rewrite (mget_mset_eq beqb beqb_is_ok). rewrite nth_error_app2 by lia. rewrite Nat.sub_diag. auto. }
  destruct Hg as (z & Hg1 & Hg2 & Hg3).
  destruct (gsteps_cell suf (fst (gstep g (GCounter k))) k id z) as [Ha Hb]; auto. { apply ginv_step; auto. }
  cbv zeta in Ha, Hb. split.
  - unfold gshow at 1. rewrite Ha, Hb. now rewrite <- Hg3.
  - unfold gstep at 1. rewrite Ha. reflexivity.
Qed.
Lemma gauge_distinct ops k1 k2 id : snd (gstep (gstate (ops ++ [GCounter k1])) (GCounter k2)) = GHandle id ->
  snd (gstep (gstate ops) (GCounter k1)) = GHandle id -> k1 = k2.
Proof.
  intros Hb Ha. assert (H1 : mget beqb (gtbl (gstate (ops ++ [GCounter k1]))) k1 = Some (GCell id)).
  { unfold gstate. rewrite fold_left_app. cbn [fold_left]. fold (gstate ops). unfold gstep in *.
    destruct (mget beqb (gtbl (gstate ops)) k1) as [[i|f]|] eqn:E; cbn in Ha; inversion Ha; subst; cbn; auto.
    now rewrite (mget_mset_eq beqb beqb_is_ok). }
  pose proof (ginv_run (ops ++ [GCounter k1])) as (_ & H2 & H3 & _).
  unfold gstep in Hb. destruct (mget beqb (gtbl (gstate (ops ++ [GCounter k1]))) k2) as [[i|f]|] eqn:E; cbn in Hb; inversion Hb; subst.
  - eapply H3; eauto.
  - apply H2 in H1. lia.
Qed.

Section Final.
  Context (isprint : N -> bool).
  Context {V : Type} (leb : V -> V -> bool) (add : V -> V -> V) (zero : V).
  Context (keys : list bytes) (le : list V).

  Lemma hist_final ls vals k h : stringify isprint keys vals = Ok k ->
    mget beqb (tbl (mrun isprint leb add zero keys le ls)) k = Some h ->
    let os := values_of vals (finished (length keys) ls) in
    scount h = length os /\ ssum h = fold_left add os zero /\
    (os = [] -> buckets h = []) /\
    (os <> [] -> length (buckets h) = length le /\
      forall i b, nth_error le i = Some b -> nth_error (buckets h) i = Some (count_le leb b os)).
  Proof.
    intros Hk Hh os. pose proof (run_series isprint leb add zero keys le ls vals k Hk) as H. rewrite Hh in H.
    fold os in H. subst h. split; [apply series_count|]. split; [apply series_sum|].
    destruct (series_buckets leb add zero le os) as [[H1 H2]|(H1 & H2 & H3)].
    - split; auto. intros. contradiction.
    - split; auto. intros. contradiction.
  Qed.

  Lemma hist_absent ls vals k : stringify isprint keys vals = Ok k ->
    mget beqb (tbl (mrun isprint leb add zero keys le ls)) k = None ->
    values_of vals (finished (length keys) ls) = [].
  Proof.
    intros Hk Hh. pose proof (run_series isprint leb add zero keys le ls vals k Hk) as H. now rewrite Hh in H.
  Qed.

  Lemma combine_nth {A C} (l : list A) : forall (b : list C) (f : A -> C), length b = length l ->
    (forall i x, nth_error l i = Some x -> nth_error b i = Some (f x)) -> combine l b = map (fun x => (x, f x)) l.
  Proof.
    induction l as [|a l IH]; intros [|c b] f Hl Hn; cbn in *; try discriminate; auto.
    pose proof (Hn 0 a eq_refl) as H0. cbn in H0. inversion H0; subst. f_equal. apply IH; auto.
    intros i x Hx. apply (Hn (S i)). auto.
  Qed.

  Lemma hist_print ls vals k : stringify isprint keys vals = Ok k ->
    let os := values_of vals (finished (length keys) ls) in
    os <> [] ->
    mprint le (mrun isprint leb add zero keys le ls) k =
      Some (Ok (map (fun b => (b, count_le leb b os)) le, length os, fold_left add os zero, length os)).
  Proof.
    intros Hk os Hos. unfold mprint.
    destruct (mget beqb (tbl (mrun isprint leb add zero keys le ls)) k) as [h|] eqn:E.
    2: { apply (hist_absent ls vals) in E; auto. contradiction. }
    destruct (hist_final ls vals k h Hk E) as (H1 & H2 & _ & H4). fold os in H1, H2, H4.
    destruct (H4 Hos) as [H5 H6]. unfold print_series. rewrite H5, Nat.leb_refl, H1, H2.
    rewrite (combine_nth le (buckets h) (fun b => count_le leb b os)); auto.
  Qed.
End Final.
