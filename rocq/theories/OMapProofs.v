From Coq Require Import Bool Arith ZArith Lia List.
From Verif Require Import Prelude PreludeFacts OMapModel OMapSpec.
Import ListNotations.

Section P.
  Context {K V : Type} (eqb : K -> K -> bool) (Heq : eqb_ok eqb).
  Context (dec : forall x y : K, {x = y} + {x <> y}).

  Fixpoint live (l : list (option (K * V))) : list (K * V) :=
    match l with
    | [] => []
    | None :: t => live t
    | Some p :: t => p :: live t
    end.

  Definition OInv (m : omap K V) : Prop :=
    forall k i, byKey m k = Some i <-> exists v, nth_error (olist m) i = Some (Some (k, v)).

  Lemma live_app l1 l2 : live (l1 ++ l2) = live l1 ++ live l2.
  Proof. induction l1 as [|[p|] l1 IH]; cbn; auto. now rewrite IH. Qed.

  Lemma live_in l p : In p (live l) <-> exists i, nth_error l i = Some (Some p).
  Proof.
    induction l as [|[q|] l IH]; cbn.
    - split; [tauto|]. intros (i & H). destruct i; discriminate.
    - rewrite IH. split.
      + intros [->|(i & H)]; [exists 0; auto|exists (S i); auto].
      + intros ([|i] & H); cbn in H; [left; congruence|right; eauto].
    - rewrite IH. split; [intros (i & H); exists (S i); auto|].
      intros ([|i] & H); cbn in H; [discriminate|eauto].
  Qed.

  Lemma inv_new : OInv NewOrderedMap.
  Proof. intros k i. cbn. split; [discriminate|]. intros (v & H). destruct i; discriminate. Qed.

  Lemma find_none (l : list (K * V)) k : find dec l k = None <-> ~ In k (map fst l).
  Proof.
    induction l as [|[k' v] l IH]; cbn; [tauto|]. destruct (dec k k').
    - subst. split; [discriminate|tauto].
    - rewrite IH. split; [intros H [->|]; tauto|tauto].
  Qed.

  Lemma inv_none (m : omap K V) k : OInv m -> byKey m k = None -> ~ In k (map fst (live (olist m))).
  Proof.
    intros HI Hn Hin. apply in_map_iff in Hin as ([k' v] & Hk & Hin). cbn in Hk. subst k'.
    apply live_in in Hin as (i & Hi). assert (byKey m k = Some i) by (apply HI; eauto). congruence.
  Qed.

  Lemma split_live (m : omap K V) k i v : OInv m -> nth_error (olist m) i = Some (Some (k, v)) ->
    exists l1 l2, olist m = l1 ++ Some (k, v) :: l2 /\ length l1 = i /\
      ~ In k (map fst (live l1)) /\ ~ In k (map fst (live l2)).
  Proof.
    intros HI Hn. destruct (nth_error_split _ _ Hn) as (l1 & l2 & Hl & Hlen).
    exists l1, l2. split; auto. split; auto.
    assert (Hu : forall j w, nth_error (olist m) j = Some (Some (k, w)) -> j = i).
    { intros j w Hj. assert (byKey m k = Some j) by (apply HI; eauto).
      assert (byKey m k = Some i) by (apply HI; eauto). congruence. }
    split; intros Hin; apply in_map_iff in Hin as ([k' w] & Hk & Hin); cbn in Hk; subst k';
      apply live_in in Hin as (j & Hj).
    - assert (Hlt : j < length l1) by (apply nth_error_Some; congruence).
      specialize (Hu j w). rewrite Hl, nth_error_app1 in Hu by auto. specialize (Hu Hj). lia.
    - specialize (Hu (length l1 + S j) w). rewrite Hl, nth_error_app2 in Hu by lia.
      replace (length l1 + S j - length l1) with (S j) in Hu by lia. specialize (Hu Hj). lia.
  Qed.

  Lemma find_app (l1 l2 : list (K * V)) k : find dec (l1 ++ l2) k = match find dec l1 k with Some v => Some v | None => find dec l2 k end.
  Proof. induction l1 as [|[k' v] l1 IH]; cbn; auto. destruct (dec k k'); auto. Qed.

  Lemma find_split (l1 l2 : list (K * V)) k v : ~ In k (map fst l1) -> find dec (l1 ++ (k, v) :: l2) k = Some v.
  Proof. intros H. rewrite find_app, (proj2 (find_none _ _) H). cbn. destruct (dec k k); congruence. Qed.

  Lemma map_other (l : list (K * V)) k v : ~ In k (map fst l) ->
    map (fun p => if dec k (fst p) then (fst p, v) else p) l = l.
  Proof.
    induction l as [|p l IH]; cbn; auto. intros H. destruct (dec k (fst p)); [subst; tauto|].
    f_equal. tauto.
  Qed.
  Lemma filter_other (l : list (K * V)) k : ~ In k (map fst l) -> del dec l k = l.
  Proof.
    unfold del. induction l as [|p l IH]; cbn; auto. intros H. destruct (dec k (fst p)); [subst; tauto|].
    f_equal. tauto.
  Qed.

  Lemma step_ok m o : OInv m ->
    exists m', ostep eqb m o = Ok (fst (spec_step dec (live (olist m)) o), m') /\ OInv m' /\
      live (olist m') = snd (spec_step dec (live (olist m)) o).
  Proof.
    intros HI. destruct o as [k|k v|k]; cbn [ostep spec_step fst snd].
    - unfold oGet. destruct (byKey m k) as [i|] eqn:Hb.
      + destruct (proj1 (HI k i) Hb) as (v & Hv). unfold pair_at. rewrite Hv. cbn [rbind snd].
        destruct (split_live m k i v HI Hv) as (l1 & l2 & Hl & Hlen & Hn1 & Hn2).
        exists m. split; [|auto]. rewrite Hl, live_app. cbn [live]. rewrite find_split; auto.
      + cbn [rbind]. exists m. split; [|auto]. rewrite (proj2 (find_none _ _)); auto. now apply inv_none.
    - unfold oPut. destruct (byKey m k) as [i|] eqn:Hb.
      + destruct (proj1 (HI k i) Hb) as (v0 & Hv). unfold pair_at. rewrite Hv. cbn [rbind snd fst].
        destruct (split_live m k i v0 HI Hv) as (l1 & l2 & Hl & Hlen & Hn1 & Hn2).
        eexists. split; [|split].
        * rewrite Hl, live_app. cbn [live]. rewrite find_split; auto.
        * intros k' j. cbn [byKey olist]. rewrite (HI k' j). rewrite Hl, <- Hlen, upd_app_r.
          destruct (Nat.eq_dec j (length l1)) as [->|Hj].
          -- rewrite !nth_error_mid. split; intros (w & H); inversion H; subst; eauto.
          -- rewrite <- (upd_app_r l1 (Some (k, v0)) l2 (Some (k, v))). rewrite nth_error_upd_ne by auto.
             reflexivity.
        * cbn [olist]. rewrite Hl, <- Hlen, upd_app_r, !live_app. cbn [live]. unfold put.
          rewrite find_split by auto. rewrite map_app. cbn [map fst]. destruct (dec k k); [|congruence].
          now rewrite !map_other.
      + pose proof (inv_none m k HI Hb) as Hni.
        eexists. split; [|split].
        * rewrite (proj2 (find_none _ _)); auto.
        * intros k' j. cbn [byKey olist]. destruct (eqb k' k) eqn:Ek.
          -- apply Heq in Ek. subst k'. split.
             ++ intros H. inversion H; subst. exists v. apply nth_error_mid.
             ++ intros (w & H). destruct (Nat.lt_ge_cases j (length (olist m))) as [Hj|Hj].
                ** rewrite nth_error_app1 in H by auto. assert (byKey m k = Some j) by (apply HI; eauto). congruence.
                ** f_equal. apply nth_error_some_lt in H. rewrite app_length in H. cbn in H. lia.
          -- rewrite (HI k' j). apply (eqb_false_ne eqb Heq) in Ek. split; intros (w & H).
             ++ exists w. rewrite nth_error_app1; auto. apply nth_error_Some. congruence.
             ++ destruct (Nat.lt_ge_cases j (length (olist m))) as [Hj|Hj].
                ** rewrite nth_error_app1 in H by auto. eauto.
                ** assert (j = length (olist m)).
                   { apply nth_error_some_lt in H. rewrite app_length in H. cbn in H. lia. }
                   subst j. rewrite nth_error_mid in H. congruence.
        * cbn [olist]. rewrite live_app. cbn. unfold put. rewrite (proj2 (find_none _ _)); auto.
    - unfold oDelete. destruct (byKey m k) as [i|] eqn:Hb.
      + destruct (proj1 (HI k i) Hb) as (v0 & Hv). unfold pair_at. rewrite Hv. cbn [rbind snd fst].
        destruct (split_live m k i v0 HI Hv) as (l1 & l2 & Hl & Hlen & Hn1 & Hn2).
        eexists. split; [|split].
        * rewrite Hl, live_app. cbn [live]. rewrite find_split; auto.
        * intros k' j. cbn [byKey olist]. destruct (eqb k' k) eqn:Ek.
          -- apply Heq in Ek. subst k'. split; [discriminate|]. intros (w & H). exfalso.
             destruct (Nat.eq_dec j i) as [->|Hj].
             ++ rewrite nth_error_upd_eq in H; [discriminate|]. apply nth_error_Some. congruence.
             ++ rewrite nth_error_upd_ne in H by auto.
                rewrite <- Hl in H. assert (byKey m k = Some j) by (apply HI; exists w; exact H). congruence.
          -- rewrite (HI k' j). apply (eqb_false_ne eqb Heq) in Ek.
             destruct (Nat.eq_dec j i) as [->|Hj].
             ++ rewrite nth_error_upd_eq by (apply nth_error_Some; congruence). rewrite Hv.
                split; intros (w & H); congruence.
             ++ rewrite nth_error_upd_ne by auto. rewrite Hl; reflexivity.
        * cbn [olist]. rewrite Hl, <- Hlen, upd_app_r, !live_app. cbn [live]. unfold del. rewrite filter_app.
          cbn [filter fst]. destruct (dec k k); [|congruence].
          pose proof (filter_other _ _ Hn1) as H1. pose proof (filter_other _ _ Hn2) as H2.
          unfold del in H1, H2. now rewrite H1, H2.
      + exists m. pose proof (inv_none m k HI Hb) as Hni. rewrite (proj2 (find_none _ _)); auto.
        split; auto. split; auto. symmetry. now apply filter_other.
  Qed.

  Lemma run_ok ops : forall m, OInv m ->
    exists m', orun eqb m ops = Ok (fst (spec_run dec (live (olist m)) ops), m') /\ OInv m' /\
      live (olist m') = snd (spec_run dec (live (olist m)) ops).
  Proof.
    induction ops as [|o ops IH]; intros m HI; cbn [orun spec_run].
    - exists m. auto.
    - destruct (step_ok m o HI) as (m1 & Hs & HI1 & Hl1). rewrite Hs. cbn [rbind].
      destruct (IH m1 HI1) as (m2 & Hr & HI2 & Hl2). rewrite Hr. cbn [rbind].
      rewrite Hl1 in *. destruct (spec_step dec (live (olist m)) o) as [r l1]. cbn [fst snd] in *.
      destruct (spec_run dec l1 ops) as [rs l2]. cbn [fst snd] in *. exists m2. auto.
  Qed.

  Lemma range_live {S E} (f : S -> K -> V -> S * option E) l : forall s,
    range_list f l s = visit f (live l) s.
  Proof.
    induction l as [|[[k v]|] l IH]; intros s; cbn; auto. destruct (f s k v) as [s' [e|]]; auto.
  Qed.

  Lemma visit_len (l : list (K * V)) : forall n, fst (visit (E := Empty_set) (fun n _ _ => (S n, None)) l n) = n + length l.
  Proof. induction l as [|[k v] l IH]; intros n; cbn; [lia|]. rewrite IH. lia. Qed.
  Lemma visit_keys (l : list (K * V)) : forall acc,
    fst (visit (E := Empty_set) (fun a k _ => (a ++ [k], None)) l acc) = acc ++ map fst l.
  Proof. induction l as [|[k v] l IH]; intros acc; cbn; [now rewrite app_nil_r|]. rewrite IH, <- app_assoc. auto. Qed.
  Lemma visit_values (l : list (K * V)) : forall acc,
    fst (visit (E := Empty_set) (fun a _ v => (a ++ [v], None)) l acc) = acc ++ map snd l.
  Proof. induction l as [|[k v] l IH]; intros acc; cbn; [now rewrite app_nil_r|]. rewrite IH, <- app_assoc. auto. Qed.

  Lemma ordered_map ops :
    exists m, orun eqb NewOrderedMap ops = Ok (fst (spec_run dec [] ops), m) /\
      let l := snd (spec_run dec [] ops) in
      oLen m = length l /\ oKeys m = map fst l /\ oValues m = map snd l /\
      forall (S E : Type) (f : S -> K -> V -> S * option E) s, oRange f m s = visit f l s.
  Proof.
    destruct (run_ok ops NewOrderedMap inv_new) as (m & Hr & HI & Hl). exists m. split; auto.
    cbn zeta. cbn [olist NewOrderedMap live] in Hl. rewrite <- Hl.
    unfold oLen, oKeys, oValues, oRange.
    repeat split; intros; rewrite range_live; auto.
    - now rewrite visit_len.
    - now rewrite visit_keys.
    - now rewrite visit_values.
  Qed.

  (* the specification itself has the advertised shape *)
  Lemma spec_nodup ops : forall l : list (K * V), NoDup (map fst l) -> NoDup (map fst (snd (spec_run dec l ops))).
  Proof.
    induction ops as [|o ops IH]; intros l Hl; cbn [spec_run]; auto.
    destruct (spec_step dec l o) as [r l1] eqn:Hs.
    assert (Hl1 : NoDup (map fst l1)).
    { destruct o as [k|k v|k]; cbn in Hs; inversion Hs; subst; auto.
      - unfold put. destruct (find dec l k) eqn:Hf.
        + replace (map fst (map _ l)) with (map fst l); auto. rewrite map_map. apply map_ext.
          intros p. destruct (dec k (fst p)); auto.
        + rewrite map_app. cbn. apply find_none in Hf.
          clear -Hl Hf. induction (map fst l) as [|x xs IH]; cbn; [repeat constructor; auto|].
          inversion Hl; subst. constructor; [|apply IH; auto; cbn in Hf; tauto].
          rewrite in_app_iff. cbn in *. intuition.
      - unfold del. clear -Hl. induction l as [|p l IH]; cbn; auto. inversion Hl; subst.
        destruct (dec k (fst p)); auto. cbn. constructor; auto. intros H. apply H1.
        apply in_map_iff in H as (q & Hq & Hin). apply filter_In in Hin. rewrite <- Hq. apply in_map. tauto. }
    specialize (IH l1 Hl1). destruct (spec_run dec l1 ops) as [rs l2]. exact IH.
  Qed.
End P.
