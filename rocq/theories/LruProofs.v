From Coq Require Import Bool Arith ZArith Lia List Permutation Sorted.
From Verif Require Import Prelude PreludeFacts LruModel LruSpec HeapProofs.
Import ListNotations.

Section LruProofs.
  Context {K V E : Type} (eqb : K -> K -> bool) (Heq : eqb_ok eqb).
  Context (dec : forall x y : K, {x = y} + {x <> y}).
  Implicit Types (c : lru K V) (l s : list (entry K V)).

  Definition sumz l : Z := fold_right Z.add 0%Z (map size l).

  Lemma sumz_perm l l' : Permutation l l' -> sumz l = sumz l'.
  Proof. unfold sumz. induction 1; cbn; lia. Qed.
  Lemma sumz_cons e l : sumz (e :: l) = (size e + sumz l)%Z.
  Proof. reflexivity. Qed.

  Definition Inv c : Prop :=
    idx_ok (lheap c) /\ horder (length (hlist (lheap c))) (hlist (lheap c)) /\
    Forall (fun e => (0 < last e)%Z) (hlist (lheap c)) /\ curSize c = sumz (hlist (lheap c)).

  Lemma new_inv max : Inv (@NewLRU K V max).
  Proof.
    split; [|split; [|split]]; cbn; auto.
    - intros k i. cbn. split; [discriminate|]. intros (e & He & _). destruct i; discriminate.
    - intros p Hp. cbn in Hp. lia.
  Qed.

  Lemma fix_same h i : idx_ok h -> horder (length (hlist h)) (hlist h) -> i < length (hlist h) ->
    exists h', Fix eqb h i = Ok h' /\ idx_ok (V := V) h' /\ Permutation (hlist h) (hlist h') /\
      horder (length (hlist h')) (hlist h').
  Proof.
    intros Hx Ho Hi. apply Fix_ok; auto. intros c Hc Hpc Hpos.
    pose proof (par_lt i Hpos). pose proof (Ho i ltac:(lia)). pose proof (Ho c ltac:(lia)).
    rewrite Hpc in *. lia.
  Qed.

  (* ---------- eviction ---------- *)
  Lemma evict_ok fuel : forall c, Inv c -> (0 <= MaxSize c)%Z -> length (hlist (lheap c)) < fuel ->
    exists c' ev, evict eqb fuel c = Ok c' /\ Inv c' /\ MaxSize c' = MaxSize c /\
      Permutation (hlist (lheap c)) (ev ++ hlist (lheap c')) /\
      (curSize c' <= MaxSize c)%Z /\
      (forall x y, In x ev -> In y (hlist (lheap c')) -> (last x <= last y)%Z) /\
      (forall d, d < length ev -> (MaxSize c < curSize c - sumz (firstn d ev))%Z).
  Proof.
    induction fuel as [|fuel IH]; intros c HI Hmax Hf; [lia|]. cbn [evict].
    destruct (MaxSize c <? curSize c)%Z eqn:Em.
    - apply Z.ltb_lt in Em. destruct HI as (Hx & Ho & Hp & Hs).
      assert (Hne : hlist (lheap c) <> []) by (intros H0; rewrite H0 in Hs; cbn in Hs; lia).
      destruct (Pop_ok eqb Heq _ Hx Ho Hne) as (e & h & Hpop & Hx' & Hperm & Ho' & Hmin).
      rewrite Hpop. cbn [rbind].
      destruct (IH (LRU h (MaxSize c) (curSize c - size e))) as (c' & ev & Hev & HI' & Hm & Hpm & Hle & Hord & Hd).
      + split; [|split; [|split]]; cbn [lheap curSize]; auto.
        * apply (Permutation_Forall Hperm) in Hp. now inversion Hp.
        * rewrite Hs. rewrite (sumz_perm _ _ Hperm), sumz_cons. lia.
      + auto.
      + cbn [lheap]. apply Permutation_length in Hperm. cbn in Hperm. lia.
      + cbn [lheap MaxSize curSize] in *. exists c', (e :: ev). split; auto. split; auto. split; auto.
        split; [now rewrite Hperm, Hpm|]. split; auto. split.
        * intros x y [<-|Hin] Hy; auto. apply Hmin.
          eapply Permutation_in; [symmetry; exact Hperm|]. right.
          eapply Permutation_in; [symmetry; exact Hpm|]. apply in_or_app; auto.
        * intros [|d] Hdl; [cbn; lia|]. cbn [firstn length] in *. rewrite sumz_cons.
          specialize (Hd d ltac:(lia)). lia.
    - apply Z.ltb_ge in Em. exists c, []. split; auto. split; auto. split; auto. split; auto.
      split; auto. split; [intros x y []|]. intros d Hd. cbn in Hd. lia.
  Qed.

  (* ---------- Get ---------- *)
  Lemma index_in c k : Inv c ->
    (hindex (lheap c) k = None <-> ~ In k (Keys c)).
  Proof.
    intros (Hx & _). unfold Keys. split.
    - intros Hn Hin. apply in_map_iff in Hin as (e & Hk & Hin). apply In_nth_error in Hin as [i Hi].
      assert (hindex (lheap c) k = Some i) by (apply Hx; eauto). congruence.
    - intros Hni. destruct (hindex (lheap c) k) as [i|] eqn:Hi; auto. exfalso. apply Hni.
      apply Hx in Hi as (e & He & Hk). apply in_map_iff. exists e. split; auto. eapply nth_error_In; eauto.
  Qed.

  Lemma keys_nodup c : Inv c -> NoDup (Keys c).
  Proof.
    intros (Hx & _). unfold Keys. apply NoDup_nth_error. intros i j Hi He.
    rewrite map_length in Hi. destruct (nth_error_lt _ _ Hi) as [a Ha].
    rewrite !nth_error_map, Ha in He. cbn in He.
    destruct (nth_error (hlist (lheap c)) j) as [b|] eqn:Hb; [|discriminate]. cbn in He.
    eapply idx_unique; eauto. congruence.
  Qed.

  Lemma get_hit c e now (ld : loaded V E) : Inv c -> In e (hlist (lheap c)) ->
    exists c', Get eqb c (key e) now ld = Ok (GetResult (val e) HIT None [], c') /\ Inv c' /\
      MaxSize c' = MaxSize c /\ curSize c' = curSize c /\ Permutation (hlist (lheap c)) (hlist (lheap c')).
  Proof.
    intros (Hx & Ho & Hp & Hs) Hin. apply In_nth_error in Hin as [i Hi].
    assert (Hix : hindex (lheap c) (key e) = Some i) by (apply Hx; eauto).
    unfold Get. rewrite Hix, Hi.
    destruct (fix_same (lheap c) i Hx Ho) as (h & Hf & Hx' & Hpm & Ho').
    { eapply nth_error_some_lt; eauto. }
    rewrite Hf. cbn [rbind]. eexists; split; [reflexivity|]. cbn. split; [|auto].
    split; [|split; [|split]]; cbn; auto.
    - eapply Permutation_Forall; eauto.
    - now rewrite <- (sumz_perm _ _ Hpm).
  Qed.

  Lemma get_err c k now (ld : loaded V E) err : Inv c -> ~ In k (Keys c) -> lerr ld = Some err ->
    Get eqb c k now ld = Ok (GetResult (lval ld) ERR (Some err) [k], c).
  Proof. intros HI Hni Hl. unfold Get. apply index_in in Hni; auto. now rewrite Hni, Hl. Qed.

  Lemma get_no c k now (ld : loaded V E) : Inv c -> ~ In k (Keys c) -> lerr ld = None -> lsize ld = 0%Z ->
    Get eqb c k now ld = Ok (GetResult (lval ld) NO None [k], c).
  Proof. intros HI Hni Hl Hz. unfold Get. apply index_in in Hni; auto. now rewrite Hni, Hl, Hz. Qed.

  Lemma push_inv c k now (ld : loaded V E) : Inv c -> ~ In k (Keys c) -> (0 < now)%Z ->
    exists h, Push eqb (lheap c) (Entry k (lval ld) now (lsize ld)) = Ok h /\
      Inv (LRU h (MaxSize c) (curSize c + lsize ld)) /\
      Permutation (Entry k (lval ld) now (lsize ld) :: hlist (lheap c)) (hlist h).
  Proof.
    intros HI Hni Hnow. apply index_in in Hni; auto. destruct HI as (Hx & Ho & Hp & Hs).
    destruct (Push_ok eqb Heq (lheap c) (Entry k (lval ld) now (lsize ld)) Hx Ho Hni)
      as (h & Hpush & Hx' & Hpm & Ho').
    exists h. split; auto. split; auto. split; [|split; [|split]]; cbn; auto.
    - eapply Permutation_Forall; [exact Hpm|]. constructor; auto.
    - rewrite <- (sumz_perm _ _ Hpm), sumz_cons. cbn. lia.
  Qed.

  Lemma get_miss c k now (ld : loaded V E) : Inv c -> (0 <= MaxSize c)%Z -> (0 < now)%Z ->
    ~ In k (Keys c) -> lerr ld = None -> lsize ld <> 0%Z ->
    exists c' ev, Get eqb c k now ld = Ok (GetResult (lval ld) MISS None [k], c') /\ Inv c' /\
      MaxSize c' = MaxSize c /\ (curSize c' <= MaxSize c)%Z /\
      Permutation (Entry k (lval ld) now (lsize ld) :: hlist (lheap c)) (ev ++ hlist (lheap c')) /\
      (forall x y, In x ev -> In y (hlist (lheap c')) -> (last x <= last y)%Z) /\
      (forall d, d < length ev -> (MaxSize c < curSize c + lsize ld - sumz (firstn d ev))%Z).
  Proof.
    intros HI Hmax Hnow Hni Hl Hz. unfold Get.
    rewrite (proj2 (index_in c k HI) Hni), Hl. apply Z.eqb_neq in Hz. rewrite Hz.
    destruct (push_inv c k now ld HI Hni Hnow) as (h & Hpush & HI' & Hpm). rewrite Hpush. cbn [rbind].
    destruct (evict_ok (S (Len h)) (LRU h (MaxSize c) (curSize c + lsize ld)))
      as (c' & ev & Hev & HIc & Hm & Hpe & Hle & Hord & Hd); auto.
    rewrite Hev. cbn [rbind lheap MaxSize curSize] in *. exists c', ev. split; auto. split; auto.
    split; auto. split; auto. split; [now rewrite Hpm|]. auto.
  Qed.

  (* ---------- Invalidate ---------- *)
  Lemma invalidate_absent c k : Inv c -> ~ In k (Keys c) -> Invalidate eqb c k = Ok c.
  Proof. intros HI Hni. unfold Invalidate. apply index_in in Hni; auto. now rewrite Hni. Qed.

  Lemma invalidate_present c e : Inv c -> In e (hlist (lheap c)) ->
    exists c', Invalidate eqb c (key e) = Ok c' /\ Inv c' /\ MaxSize c' = MaxSize c /\
      Permutation (hlist (lheap c)) (e :: hlist (lheap c')).
  Proof.
    intros (Hx & Ho & Hp & Hs) Hin. apply In_nth_error in Hin as [i Hi].
    assert (Hil : i < length (hlist (lheap c))) by (eapply nth_error_some_lt; eauto).
    assert (Hix : hindex (lheap c) (key e) = Some i) by (apply Hx; eauto).
    unfold Invalidate. rewrite Hix, Hi.
    set (e0 := Entry (key e) (val e) 0 (size e)).
    set (h0 := Heap (upd (hlist (lheap c)) i e0) (hindex (lheap c))).
    assert (Hx0 : idx_ok h0).
    { intros k j. unfold h0. cbn [hindex hlist]. rewrite (Hx k j), nth_error_upd.
      destruct (j =? i) eqn:Ej; cbn [andb].
      - apply Nat.eqb_eq in Ej; subst j. apply Nat.ltb_lt in Hil. rewrite Hil. split.
        + intros (e' & He' & Hk). exists e0. split; auto. cbn. congruence.
        + intros (e' & He' & Hk). inversion He'; subst e'. exists e. split; auto.
      - reflexivity. }
    assert (Htm : forall p, tm (hlist h0) p = if p =? i then 0%Z else tm (hlist (lheap c)) p).
    { intros p. unfold tm, h0. cbn [hlist]. rewrite nth_error_upd. destruct (p =? i) eqn:Ep; cbn [andb]; auto.
      apply Nat.ltb_lt in Hil. now rewrite Hil. }
    assert (Hl0 : length (hlist h0) = length (hlist (lheap c))) by (unfold h0; cbn; apply upd_length).
    destruct (Fix_ok eqb Heq h0 i Hx0) as (h1 & Hf & Hx1 & Hp1 & Ho1).
    { lia. }
    { intros p Hpl Hpp Hpi. rewrite !Htm. apply Nat.eqb_neq in Hpp, Hpi. rewrite Hpp, Hpi. apply Ho. lia. }
    { intros ch Hc Hpc Hpos. rewrite !Htm. pose proof (par_lt i Hpos). pose proof (par_lt ch ltac:(lia)).
      rewrite (proj2 (Nat.eqb_neq (par i) i)) by lia. rewrite (proj2 (Nat.eqb_neq ch i)) by lia.
      pose proof (Ho i ltac:(lia)). pose proof (Ho ch ltac:(lia)) as Hch. rewrite Hpc in Hch. lia. }
    rewrite Hf. cbn [rbind].
    assert (Hin0 : In e0 (hlist h0)).
    { unfold h0. cbn. eapply nth_error_In. apply nth_error_upd_eq; auto. }
    assert (Hin1 : In e0 (hlist h1)) by (eapply Permutation_in; eauto).
    destruct (Pop_ok eqb Heq h1 Hx1 Ho1) as (e' & h2 & Hpop & Hx2 & Hp2 & Ho2 & Hmin).
    { intros H. rewrite H in Hin1. destruct Hin1. }
    rewrite Hpop. cbn [rbind].
    assert (Hpu : Permutation (e0 :: hlist (lheap c)) (e :: hlist h0)) by (apply upd_permutation; auto).
    assert (He' : e' = e0).
    { assert (Hle : (last e' <= 0)%Z) by (apply (Hmin e0); auto).
      assert (Hin' : In e' (hlist h0)).
      { eapply Permutation_in; [symmetry; exact Hp1|]. eapply Permutation_in; [symmetry; exact Hp2|]. cbn; auto. }
      unfold h0 in Hin'. cbn [hlist] in Hin'. apply In_nth_error in Hin' as [p Hpn].
      rewrite nth_error_upd in Hpn. destruct ((p =? i) && (i <? length (hlist (lheap c)))).
      - congruence.
      - assert ((0 < last e')%Z); [|lia]. rewrite Forall_forall in Hp. apply Hp. eapply nth_error_In; eauto. }
    subst e'.
    assert (Hfin : Permutation (hlist (lheap c)) (e :: hlist h2)).
    { assert (H3 : Permutation (e0 :: hlist (lheap c)) (e :: e0 :: hlist h2)).
      { rewrite Hpu. constructor. rewrite Hp1. exact Hp2. }
      rewrite (perm_swap e e0) in H3 || rewrite perm_swap in H3.
      now apply Permutation_cons_inv in H3. }
    eexists; split; [reflexivity|]. cbn [MaxSize lheap hlist].
    assert (Hixs : forall k, idel eqb (hindex h2) (key e0) k = hindex h2 k).
    { intros k. destruct (key_dec eqb Heq k (key e0)) as [->|]; [|now apply idel_ne].
      rewrite idel_eq by auto. destruct (hindex h2 (key e0)) as [j|] eqn:Ej; auto. exfalso.
      apply Hx2 in Ej as (e2 & He2 & Hk2).
      assert (Hnd : NoDup (map key (hlist (lheap c)))).
      { apply (keys_nodup c). split; [|split; [|split]]; auto. }
      apply (Permutation_NoDup (Permutation_map key Hfin)) in Hnd. cbn in Hnd. inversion Hnd; subst.
      apply H1. apply in_map_iff. exists e2. split; auto. eapply nth_error_In; eauto. }
    split; [|split; auto]. split; [|split; [|split]]; cbn [lheap hlist hindex curSize]; auto.
    - intros k j. cbn [hindex hlist]. rewrite Hixs. apply Hx2.
    - apply (Permutation_Forall Hfin) in Hp. now inversion Hp.
    - rewrite Hs, (sumz_perm _ _ Hfin), sumz_cons. cbn. lia.
  Qed.

  (* ---------- invariant over histories with arbitrary positive clocks ---------- *)
  Lemma key_in_dec c k : {e | In e (hlist (lheap c)) /\ key e = k} + {~ In k (Keys c)}.
  Proof.
    unfold Keys. induction (hlist (lheap c)) as [|e l IH]; [right; cbn; auto|].
    destruct (dec (key e) k) as [Hk|Hk]; [left; exists e; cbn; auto|].
    destruct IH as [(e' & Hin & Hk')|Hni]; [left; exists e'; cbn; auto|].
    right. cbn. intuition.
  Qed.

  Definition Inv2 max c : Prop :=
    Inv c /\ MaxSize c = max /\ (curSize c <= max)%Z /\ Forall (fun e => (0 <= size e)%Z) (hlist (lheap c)).

  (* value of the last kept load, for every resident entry *)
  Definition fresh c (hist : list (op K V E * option (get_result K V E))) : Prop :=
    forall e, In e (hlist (lheap c)) -> last_load dec (key e) hist = Some (val e).

  Lemma Forall_perm_in l l' (P : entry K V -> Prop) : Permutation l l' -> Forall P l -> Forall P l'.
  Proof. intros Hp Hf. eapply Permutation_Forall; eauto. Qed.

  Lemma step_ok max c o hist : (0 <= max)%Z -> Inv2 max c -> call_ok o -> fresh c hist ->
    exists r c', step eqb c o = Ok (r, c') /\ Inv2 max c' /\ fresh c' ((o, r) :: hist).
  Proof.
    intros Hmax (HI & HM & Hcur & Hsz) Hok Hfr. destruct o as [k now ld|k]; cbn [step].
    - destruct Hok as [Hnow Hls]. destruct (key_in_dec c k) as [(e & Hin & Hk)|Hni].
      + subst k. destruct (get_hit c e now ld HI Hin) as (c' & Hg & HI' & Hm & Hcs & Hp).
        rewrite Hg. cbn [rbind]. eexists _, c'. split; [reflexivity|]. split.
        * split; auto. split; [congruence|]. split; [lia|]. eapply Forall_perm_in; eauto.
        * intros x Hx. cbn. apply Hfr. eapply Permutation_in; [symmetry; exact Hp|auto].
      + destruct (lerr ld) as [err|] eqn:Hl.
        { rewrite (get_err c k now ld err HI Hni Hl). cbn [rbind]. eexists _, c. split; [reflexivity|].
          split; [split; auto|]. intros x Hx. cbn. auto. }
        destruct (Z.eq_dec (lsize ld) 0) as [Hz|Hz].
        { rewrite (get_no c k now ld HI Hni Hl Hz). cbn [rbind]. eexists _, c. split; [reflexivity|].
          split; [split; auto|]. intros x Hx. cbn. auto. }
        destruct (get_miss c k now ld HI ltac:(lia) Hnow Hni Hl Hz) as (c' & ev & Hg & HI' & Hm & Hle & Hp & _).
        rewrite Hg. cbn [rbind]. eexists _, c'. split; [reflexivity|]. split.
        * split; auto. split; [congruence|]. split; [lia|].
          assert (Hf : Forall (fun e => (0 <= size e)%Z) (ev ++ hlist (lheap c'))).
          { eapply Forall_perm_in; [exact Hp|]. constructor; auto. }
          apply Forall_app in Hf. tauto.
        * intros x Hx. cbn.
          assert (Hx' : In x (Entry k (lval ld) now (lsize ld) :: hlist (lheap c))).
          { eapply Permutation_in; [symmetry; exact Hp|]. apply in_or_app; auto. }
          destruct Hx' as [<-|Hx']; cbn.
          -- destruct (dec k k); congruence.
          -- destruct (dec (key x) k) as [He|]; auto. exfalso. apply Hni. unfold Keys. rewrite <- He.
             now apply in_map.
    - destruct (key_in_dec c k) as [(e & Hin & Hk)|Hni].
      + subst k. destruct (invalidate_present c e HI Hin) as (c' & Hg & HI' & Hm & Hp).
        rewrite Hg. cbn [rbind]. eexists _, c'. split; [reflexivity|].
        assert (Hf : Forall (fun e => (0 <= size e)%Z) (e :: hlist (lheap c'))) by (eapply Forall_perm_in; eauto).
        inversion Hf; subst. split.
        * split; auto. split; [congruence|]. split; auto.
          destruct HI as (_ & _ & _ & Hs), HI' as (_ & _ & _ & Hs').
          rewrite (sumz_perm _ _ Hp), sumz_cons in Hs. lia.
        * intros x Hx. cbn. apply Hfr. eapply Permutation_in; [symmetry; exact Hp|]. cbn; auto.
      + rewrite (invalidate_absent c k HI Hni). cbn [rbind]. eexists _, c. split; [reflexivity|].
        split; [split; auto|]. intros x Hx. cbn. auto.
  Qed.

  Lemma run_ok max (ops : list (op K V E)) : (0 <= max)%Z -> Forall call_ok ops -> forall c hist, Inv2 max c -> fresh c hist ->
    exists rs c', run eqb c ops = Ok (rs, c') /\ length rs = length ops /\ Inv2 max c' /\
      fresh c' (rev (combine ops rs) ++ hist).
  Proof.
    intros Hmax Hf. induction Hf as [|o ops Ho Hf IH]; intros c hist HI Hfr; cbn [run].
    - exists [], c. auto.
    - destruct (step_ok max c o hist Hmax HI Ho Hfr) as (r & c1 & Hs & HI1 & Hfr1). rewrite Hs. cbn [rbind].
      destruct (IH c1 _ HI1 Hfr1) as (rs & c2 & Hr & Hlen & HI2 & Hfr2). rewrite Hr. cbn [rbind].
      exists (r :: rs), c2. split; auto. split; [cbn; auto|]. split; auto.
      cbn [combine rev]. rewrite <- app_assoc. exact Hfr2.
  Qed.

  Lemma new_inv2 max : (0 <= max)%Z -> Inv2 max (NewLRU max).
  Proof. intros H. split; [apply new_inv|]. cbn. auto. Qed.
  Lemma new_fresh max hist : fresh (NewLRU max) hist.
  Proof. intros e []. Qed.

  Lemma total_residents c : total (residents c) = sumz (hlist (lheap c)).
  Proof.
    unfold total, residents, sumz. rewrite map_map. reflexivity.
  Qed.

  (* C08 *)
  Lemma budget max (ops : list (op K V E)) : (0 <= max)%Z -> Forall call_ok ops ->
    exists rs c, run eqb (NewLRU max) ops = Ok (rs, c) /\
      NoDup (Keys c) /\ curSize c = total (residents c) /\ (total (residents c) <= max)%Z /\
      (forall k i, hindex (lheap c) k = Some i <-> nth_error (Keys c) i = Some k).
  Proof.
    intros Hmax Hok. destruct (run_ok max ops Hmax Hok _ [] (new_inv2 max Hmax) (new_fresh max []))
      as (rs & c & Hr & _ & (HI & HM & Hcur & _) & _).
    exists rs, c. split; auto. split; [now apply keys_nodup|].
    rewrite total_residents. destruct HI as (Hx & Ho & Hp & Hs). split; auto. split; [lia|].
    intros k i. rewrite (Hx k i). unfold Keys. rewrite nth_error_map.
    destruct (nth_error (hlist (lheap c)) i) as [e|]; cbn.
    - split; [intros (e' & He' & Hk); congruence|]. intros Hk. exists e. split; auto. congruence.
    - split; [intros (e' & He' & Hk); discriminate|discriminate].
  Qed.

  Lemma step_any max c (o : op K V E) : (0 <= max)%Z -> Inv c -> MaxSize c = max ->
    match o with OGet _ now _ => (0 < now)%Z | OInvalidate _ => True end ->
    exists r c', step eqb c o = Ok (r, c') /\ Inv c' /\ MaxSize c' = max.
  Proof.
    intros Hmax HI HM Hok. destruct o as [k now ld|k]; cbn [step].
    - destruct (key_in_dec c k) as [(e & Hin & Hk)|Hni].
      + subst k. destruct (get_hit c e now ld HI Hin) as (c' & Hg & HI' & Hm & Hcs & Hp).
        rewrite Hg. cbn [rbind]. eexists _, c'. split; [reflexivity|]. split; auto. congruence.
      + destruct (lerr ld) as [err|] eqn:Hl.
        { rewrite (get_err c k now ld err HI Hni Hl). cbn [rbind]. eexists _, c. eauto. }
        destruct (Z.eq_dec (lsize ld) 0) as [Hz|Hz].
        { rewrite (get_no c k now ld HI Hni Hl Hz). cbn [rbind]. eexists _, c. eauto. }
        destruct (get_miss c k now ld HI ltac:(lia) Hok Hni Hl Hz) as (c' & ev & Hg & HI' & Hm & _).
        rewrite Hg. cbn [rbind]. eexists _, c'. split; [reflexivity|]. split; auto. congruence.
    - destruct (key_in_dec c k) as [(e & Hin & Hk)|Hni].
      + subst k. destruct (invalidate_present c e HI Hin) as (c' & Hg & HI' & Hm & Hp).
        rewrite Hg. cbn [rbind]. eexists _, c'. split; [reflexivity|]. split; auto. congruence.
      + rewrite (invalidate_absent c k HI Hni). cbn [rbind]. eexists _, c. eauto.
  Qed.

  Lemma any_size max (ops : list (op K V E)) : (0 <= max)%Z ->
    Forall (fun o => match o with OGet _ now _ => (0 < now)%Z | OInvalidate _ => True end) ops ->
    exists rs c, run eqb (NewLRU max) ops = Ok (rs, c) /\ NoDup (Keys c) /\ curSize c = total (residents c).
  Proof.
    intros Hmax Hok.
    assert (H : forall c, Inv c -> MaxSize c = max -> exists rs c', run eqb c ops = Ok (rs, c') /\ Inv c').
    { induction Hok as [|o ops Ho Hok IH]; intros c HI HM; cbn [run]; [eauto|].
      destruct (step_any max c o Hmax HI HM Ho) as (r & c1 & Hs & HI1 & HM1). rewrite Hs. cbn [rbind].
      destruct (IH c1 HI1 HM1) as (rs & c2 & Hr & HI2). rewrite Hr. cbn [rbind]. eauto. }
    destruct (H (NewLRU max) (new_inv max) eq_refl) as (rs & c & Hr & HI).
    exists rs, c. split; auto. split; [now apply keys_nodup|]. rewrite total_residents.
    now destruct HI as (_ & _ & _ & Hs).
  Qed.

  (* C07: one more Get after any history *)
  Lemma get_after max (ops : list (op K V E)) rs c k now (ld : loaded V E) : (0 <= max)%Z -> Forall call_ok ops ->
    run eqb (NewLRU max) ops = Ok (rs, c) -> (0 < now)%Z ->
    exists r c', Get eqb c k now ld = Ok (r, c') /\
      (In k (Keys c) -> rhit r = HIT /\ rloads r = [] /\ rerr r = None /\
         last_load dec k (rev (combine ops rs)) = Some (rval r) /\
         Permutation (residents c') (residents c)) /\
      (~ In k (Keys c) -> rloads r = [k] /\ rval r = lval ld /\ rerr r = lerr ld /\
         rhit r = (match lerr ld with Some _ => ERR | None => if (lsize ld =? 0)%Z then NO else MISS end) /\
         (rhit r <> MISS -> c' = c)).
  Proof.
    intros Hmax Hok Hrun Hnow.
    destruct (run_ok max ops Hmax Hok _ [] (new_inv2 max Hmax) (new_fresh max []))
      as (rs' & c1 & Hr & _ & (HI & HM & Hcur & Hsz) & Hfr).
    rewrite Hrun in Hr. inversion Hr; subst rs' c1; clear Hr. rewrite app_nil_r in Hfr.
    destruct (key_in_dec c k) as [(e & Hin & Hk)|Hni].
    - subst k. destruct (get_hit c e now ld HI Hin) as (c' & Hg & HI' & Hm & Hcs & Hp).
      eexists _, c'. split; [exact Hg|]. split.
      + intros _. cbn. split; auto. split; auto. split; auto. split; [now apply Hfr|].
        unfold residents. apply Permutation_map. now symmetry.
      + intros Hn. exfalso. apply Hn. unfold Keys. now apply in_map.
    - destruct (lerr ld) as [err|] eqn:Hl.
      { eexists _, c. split; [apply (get_err c k now ld err HI Hni Hl)|]. split; [contradiction|]. cbn. auto. }
      destruct (Z.eq_dec (lsize ld) 0) as [Hz|Hz].
      { eexists _, c. split; [apply (get_no c k now ld HI Hni Hl Hz)|]. split; [contradiction|].
        rewrite Hz. cbn. auto. }
      destruct (get_miss c k now ld HI ltac:(lia) Hnow Hni Hl Hz) as (c' & ev & Hg & _).
      eexists _, c'. split; [exact Hg|]. split; [contradiction|]. apply Z.eqb_neq in Hz. rewrite Hz. cbn.
      intros _. repeat split; auto. congruence.
  Qed.

  (* C10 *)
  Lemma invalidate_after max (ops : list (op K V E)) rs c k : (0 <= max)%Z -> Forall call_ok ops ->
    run eqb (NewLRU max) ops = Ok (rs, c) ->
    exists c', Invalidate eqb c k = Ok c' /\ ~ In k (Keys c') /\
      (forall k' v sz, k' <> k -> (In (k', v, sz) (residents c') <-> In (k', v, sz) (residents c))) /\
      (~ In k (Keys c) -> c' = c).
  Proof.
    intros Hmax Hok Hrun.
    destruct (run_ok max ops Hmax Hok _ [] (new_inv2 max Hmax) (new_fresh max []))
      as (rs' & c1 & Hr & _ & (HI & HM & Hcur & Hsz) & Hfr).
    rewrite Hrun in Hr. inversion Hr; subst rs' c1; clear Hr.
    destruct (key_in_dec c k) as [(e & Hin & Hk)|Hni].
    - subst k. destruct (invalidate_present c e HI Hin) as (c' & Hg & HI' & Hm & Hp).
      exists c'. split; auto.
      pose proof (keys_nodup c HI) as Hnd. unfold Keys in Hnd.
      apply (Permutation_NoDup (Permutation_map key Hp)) in Hnd. cbn in Hnd. inversion Hnd; subst.
      split; auto. split.
      + intros k' v sz Hne. unfold residents.
        assert (Hp' : Permutation (map (fun e => (key e, val e, size e)) (hlist (lheap c)))
                  ((key e, val e, size e) :: map (fun e => (key e, val e, size e)) (hlist (lheap c')))).
        { apply (Permutation_map (fun e => (key e, val e, size e)) Hp). }
        split; intros H.
        * eapply Permutation_in; [symmetry; exact Hp'|]. cbn; auto.
        * apply (Permutation_in _ Hp') in H. destruct H as [H|H]; auto. congruence.
      + intros Hn. exfalso. apply Hn. unfold Keys. now apply in_map.
    - exists c. split; [now apply invalidate_absent|]. split; auto. split; auto. tauto.
  Qed.

  (* ---------- with an increasing clock: exactly a bounded queue ---------- *)
  Definition ct (e : entry K V) : K * V * Z := (key e, val e, size e).

  Definition sorted s : Prop := StronglySorted (fun a b => (last a < last b)%Z) s.

  Lemma total_ct s : total (map ct s) = sumz s.
  Proof. unfold total, sumz. rewrite map_map. reflexivity. Qed.

  Lemma evict_queue fuel : forall c s, Inv c -> (0 <= MaxSize c)%Z -> length (hlist (lheap c)) < fuel ->
    sorted s -> Permutation (hlist (lheap c)) s ->
    exists c' s', evict eqb fuel c = Ok c' /\ Inv c' /\ MaxSize c' = MaxSize c /\
      Permutation (hlist (lheap c')) s' /\ sorted s' /\ map ct s' = shrink (MaxSize c) (map ct s) /\
      (forall x, In x s' -> In x s).
  Proof.
    induction fuel as [|fuel IH]; intros c s HI Hmax Hf Hso Hps; [lia|]. cbn [evict].
    pose proof HI as (Hx & Ho & Hp & Hs).
    destruct s as [|x s].
    - assert (Hnil : hlist (lheap c) = []) by (apply Permutation_nil; now symmetry).
      rewrite Hnil in Hs. cbn in Hs. replace (MaxSize c <? curSize c)%Z with false by (symmetry; apply Z.ltb_ge; lia).
      exists c, []. auto 10.
    - assert (Htot : total (map ct (x :: s)) = curSize c).
      { rewrite total_ct, <- (sumz_perm _ _ Hps). auto. }
      cbn [map shrink] in *. change (ct x :: map ct s) with (map ct (x :: s)) in *. rewrite Htot.
      destruct (MaxSize c <? curSize c)%Z eqn:Em.
      + assert (Hne : hlist (lheap c) <> []).
        { intros H0. rewrite H0 in Hps. apply Permutation_nil in Hps. discriminate. }
        destruct (Pop_ok eqb Heq _ Hx Ho Hne) as (e & h & Hpop & Hx' & Hperm & Ho' & Hmin).
        rewrite Hpop. cbn [rbind].
        inversion Hso as [|? ? Hso' Hall]; subst.
        assert (He : e = x).
        { assert (Hle : (last e <= last x)%Z).
          { apply Hmin. eapply Permutation_in; [symmetry; exact Hps|]. cbn; auto. }
          assert (Hin : In e (x :: s)).
          { eapply Permutation_in; [exact Hps|]. eapply Permutation_in; [symmetry; exact Hperm|]. cbn; auto. }
          destruct Hin as [|Hin]; auto. rewrite Forall_forall in Hall. specialize (Hall e Hin). lia. }
        subst e.
        assert (Hps' : Permutation (hlist h) s).
        { apply (Permutation_cons_inv (a := x)). now rewrite <- Hperm. }
        destruct (IH (LRU h (MaxSize c) (curSize c - size x)) s) as (c' & s' & Hev & HI' & Hm & Hpm & Hso2 & Hct & Hsub); auto.
        * split; [|split; [|split]]; cbn [lheap curSize]; auto.
          -- apply (Permutation_Forall Hperm) in Hp. now inversion Hp.
          -- rewrite Hs, (sumz_perm _ _ Hperm), sumz_cons. lia.
        * cbn [lheap]. apply Permutation_length in Hperm. cbn in Hperm. lia.
        * exists c', s'. cbn [MaxSize] in *. split; auto. split; auto. split; auto. split; auto. split; auto.
          split; auto. intros y Hy. right. auto.
      + exists c, (x :: s). auto 10.
  Qed.

  Definition QInv max (t : Z) c s : Prop :=
    Inv c /\ MaxSize c = max /\ Permutation (hlist (lheap c)) s /\ sorted s /\
    Forall (fun e => (last e <= t)%Z) s /\ (0 <= t)%Z.

  Lemma lookup_in s k : NoDup (map key s) ->
    lookup dec (map ct s) k = match find (fun e => if dec k (key e) then true else false) s with
                              | Some e => Some (val e) | None => None end.
  Proof.
    intros _. induction s as [|e s IH]; cbn; auto. destruct (dec k (key e)); auto.
  Qed.

  Lemma lookup_none s k : ~ In k (map key s) -> lookup dec (map ct s) k = None.
  Proof.
    induction s as [|e s IH]; cbn; auto. intros H. destruct (dec k (key e)); [subst; tauto|]. tauto.
  Qed.
  Lemma lookup_some s e : NoDup (map key s) -> In e s -> lookup dec (map ct s) (key e) = Some (val e).
  Proof.
    induction s as [|x s IH]; cbn; [tauto|]. intros Hnd Hin. inversion Hnd; subst.
    destruct Hin as [->|Hin].
    - destruct (dec (key e) (key e)); congruence.
    - destruct (dec (key e) (key x)) as [He|]; auto. exfalso. apply H1. rewrite <- He. now apply in_map.
  Qed.

  Lemma sorted_app s e : sorted s -> Forall (fun x => (last x < last e)%Z) s -> sorted (s ++ [e]).
  Proof.
    unfold sorted. induction 1 as [|x s Hs IH Hall]; cbn; intros Hf; [repeat constructor|].
    inversion Hf; subst. constructor; auto. apply Forall_app; auto.
  Qed.

  Lemma sorted_filter (f : entry K V -> bool) s : sorted s -> sorted (filter f s).
  Proof.
    unfold sorted. induction 1 as [|x s Hs IH Hall]; cbn; [constructor|].
    destruct (f x); auto. constructor; auto. rewrite Forall_forall in *. intros y Hy.
    apply filter_In in Hy. apply Hall. tauto.
  Qed.

  Lemma filter_key_perm s e l : NoDup (map key s) -> Permutation s (e :: l) ->
    Permutation l (filter (fun x => if dec (key e) (key x) then false else true) s).
  Proof.
    intros Hnd Hp.
    assert (Hnd2 : NoDup (map key (e :: l))) by (apply (Permutation_NoDup (Permutation_map key Hp)); auto).
    assert (Hpf : forall f : entry K V -> bool, Permutation (filter f s) (filter f (e :: l))).
    { intros f. clear -Hp. induction Hp; cbn; auto.
      - destruct (f x); auto.
      - destruct (f x), (f y); auto. constructor.
      - etransitivity; eauto. }
    rewrite Hpf. cbn. destruct (dec (key e) (key e)); [|congruence].
    cbn in Hnd2. inversion Hnd2; subst.
    replace (filter _ l) with l; auto. clear -H1.
    induction l as [|x l IH]; cbn; auto. cbn in H1. destruct (dec (key e) (key x)).
    - exfalso. apply H1. auto.
    - f_equal. apply IH. tauto.
  Qed.

  Lemma map_ct_filter s k :
    map ct (filter (fun x => if dec k (key x) then false else true) s) = spec_invalidate dec (map ct s) k.
  Proof.
    unfold spec_invalidate. induction s as [|x s IH]; cbn; auto.
    destruct (dec k (key x)); cbn; auto. now rewrite IH.
  Qed.

  Lemma queue_step max t c s (o : op K V E) : (0 <= max)%Z -> QInv max t c s ->
    (match o with OGet _ now _ => (t < now)%Z | OInvalidate _ => True end) ->
    exists c' s', step eqb c o = Ok (fst (spec_step dec max (map ct s) o), c') /\
      map ct s' = snd (spec_step dec max (map ct s) o) /\
      QInv max (match o with OGet _ now _ => now | OInvalidate _ => t end) c' s'.
  Proof.
    intros Hmax (HI & HM & Hp & Hso & Hle & Ht) Hclk.
    assert (Hnd : NoDup (map key s)).
    { eapply Permutation_NoDup; [|apply (keys_nodup c HI)]. unfold Keys. now apply Permutation_map. }
    assert (Hkeys : forall k, In k (Keys c) <-> In k (map key s)).
    { intros k. unfold Keys. split; apply Permutation_in; apply Permutation_map; [|symmetry]; auto. }
    destruct o as [k now ld|k]; cbn [step spec_step].
    - unfold spec_get.
      assert (Hle' : Forall (fun e => (last e <= now)%Z) s) by (eapply Forall_impl; [|exact Hle]; cbn; lia).
      destruct (key_in_dec c k) as [(e & Hin & Hk)|Hni].
      + subst k. destruct (get_hit c e now ld HI Hin) as (c' & Hg & HI' & Hm & Hcs & Hpm).
        rewrite Hg. cbn [rbind]. rewrite (lookup_some s e Hnd) by (eapply Permutation_in; eauto).
        cbn. exists c', s. split; auto. split; auto. split; auto. split; [congruence|].
        split; [now rewrite <- Hpm|]. split; auto. split; auto. lia.
      + rewrite lookup_none by (rewrite <- Hkeys; auto).
        destruct (lerr ld) as [err|] eqn:Hl.
        { rewrite (get_err c k now ld err HI Hni Hl). cbn. exists c, s. split; auto. split; auto.
          split; auto. split; auto. split; auto. split; auto. split; auto. lia. }
        destruct (Z.eq_dec (lsize ld) 0) as [Hz|Hz].
        { rewrite (get_no c k now ld HI Hni Hl Hz). cbn. exists c, s. split; auto. split; auto.
          split; auto. split; auto. split; auto. split; auto. split; auto. lia. }
        unfold Get. rewrite (proj2 (index_in c k HI) Hni), Hl. pose proof Hz as Hz'. apply Z.eqb_neq in Hz'. rewrite Hz'.
        destruct (push_inv c k now ld HI Hni ltac:(lia)) as (h & Hpush & HI' & Hpm). rewrite Hpush. cbn [rbind].
        destruct (evict_queue (S (Len h)) (LRU h (MaxSize c) (curSize c + lsize ld))
                    (s ++ [Entry k (lval ld) now (lsize ld)])) as (c' & s' & Hev & HIc & Hm & Hps & Hso' & Hct & Hsub); auto.
        * cbn [MaxSize]. lia.
        * apply sorted_app; auto. cbn. eapply Forall_impl; [|exact Hle]. cbn; lia.
        * cbn [lheap]. rewrite <- Hpm. rewrite Hp. apply Permutation_cons_append.
        * rewrite Hev. cbn [rbind fst snd MaxSize] in *. exists c', s'. split; auto. split.
          { rewrite Hct, map_app, HM. reflexivity. }
          split; auto. split; [congruence|]. split; auto. split; auto. split; [|lia].
          apply Forall_forall. intros x Hx. apply Hsub in Hx. apply in_app_or in Hx as [Hx|[<-|[]]].
          -- rewrite Forall_forall in Hle'. auto.
          -- cbn. lia.
    - cbn [fst snd]. destruct (key_in_dec c k) as [(e & Hin & Hk)|Hni].
      + subst k. destruct (invalidate_present c e HI Hin) as (c' & Hg & HI' & Hm & Hpm).
        rewrite Hg. cbn [rbind].
        exists c', (filter (fun x => if dec (key e) (key x) then false else true) s).
        split; auto. split; [apply map_ct_filter|]. split; auto. split; [congruence|]. split.
        * apply filter_key_perm; auto. now rewrite <- Hp.
        * split; [now apply sorted_filter|]. split; auto. rewrite Forall_forall in *. intros x Hx.
          apply filter_In in Hx. apply Hle. tauto.
      + rewrite (invalidate_absent c k HI Hni). cbn [rbind]. exists c, s. split; auto. split.
        * rewrite <- map_ct_filter. f_equal. symmetry.
          assert (Hk : ~ In k (map key s)) by (rewrite <- Hkeys; auto). clear -Hk.
          induction s as [|x s IH]; cbn; auto. cbn in Hk. destruct (dec k (key x)); [subst; tauto|].
          f_equal. tauto.
        * split; auto 10.
  Qed.

  Lemma queue_run max (ops : list (op K V E)) : (0 <= max)%Z -> forall t c s, QInv max t c s -> clock_increases t ops ->
    exists c' s' t', run eqb c ops = Ok (fst (spec_run dec max (map ct s) ops), c') /\
      map ct s' = snd (spec_run dec max (map ct s) ops) /\ QInv max t' c' s'.
  Proof.
    intros Hmax. induction ops as [|o ops IH]; intros t c s HQ Hclk; cbn [run spec_run].
    - exists c, s, t. auto.
    - assert (Ho : match o with OGet _ now _ => (t < now)%Z | OInvalidate _ => True end /\
                   clock_increases (match o with OGet _ now _ => now | OInvalidate _ => t end) ops).
      { destruct o; cbn in Hclk; tauto. }
      destruct Ho as [Ho1 Ho2].
      destruct (queue_step max t c s o Hmax HQ Ho1) as (c1 & s1 & Hs & Hct & HQ1). rewrite Hs. cbn [rbind].
      destruct (IH _ c1 s1 HQ1 Ho2) as (c2 & s2 & t2 & Hr & Hct2 & HQ2). rewrite Hr. cbn [rbind].
      rewrite Hct in *. destruct (spec_step dec max (map ct s) o) as [r sp1]. cbn [fst snd] in *.
      destruct (spec_run dec max sp1 ops) as [rs sp2]. cbn [fst snd] in *.
      exists c2, s2, t2. auto.
  Qed.

  (* C09 positive part, and full functional behaviour *)
  Lemma queue_refinement max (ops : list (op K V E)) : (0 <= max)%Z -> clock_increases 0 ops ->
    exists c, run eqb (NewLRU max) ops = Ok (fst (spec_run dec max [] ops), c) /\
      Permutation (residents c) (snd (spec_run dec max [] ops)).
  Proof.
    intros Hmax Hclk.
    destruct (queue_run max ops Hmax 0 (NewLRU max) []) as (c & s & t & Hr & Hct & HQ); auto.
    - split; [apply new_inv|]. cbn. repeat split; auto. constructor. lia.
    - exists c. cbn in Hr, Hct. split; auto. rewrite <- Hct. destruct HQ as (_ & _ & Hp & _).
      unfold residents. now apply (Permutation_map ct).
  Qed.

  (* eviction with arbitrary positive clocks: only oldest readings go *)
  Lemma evicts_oldest max (ops : list (op K V E)) rs c k now (ld : loaded V E) : (0 <= max)%Z -> Forall call_ok ops ->
    run eqb (NewLRU max) ops = Ok (rs, c) -> (0 < now)%Z ->
    ~ In k (Keys c) -> lerr ld = None -> lsize ld <> 0%Z ->
    exists r c' ev, Get eqb c k now ld = Ok (r, c') /\
      Permutation (Entry k (lval ld) now (lsize ld) :: hlist (lheap c)) (ev ++ hlist (lheap c')) /\
      (forall x y, In x ev -> In y (hlist (lheap c')) -> (last x <= last y)%Z) /\
      (total (residents c') <= max)%Z /\
      (forall d, d < length ev -> (max < total (residents c) + lsize ld - sumz (firstn d ev))%Z).
  Proof.
    intros Hmax Hok Hrun Hnow Hni Hl Hz.
    destruct (run_ok max ops Hmax Hok _ [] (new_inv2 max Hmax) (new_fresh max []))
      as (rs' & c1 & Hr & _ & (HI & HM & Hcur & Hsz) & _).
    rewrite Hrun in Hr. inversion Hr; subst rs' c1; clear Hr.
    destruct (get_miss c k now ld HI ltac:(lia) Hnow Hni Hl Hz) as (c' & ev & Hg & HI' & Hm & Hle & Hp & Hord & Hd).
    eexists _, c', ev. split; [exact Hg|]. split; auto. split; auto.
    rewrite !total_residents. destruct HI as (_ & _ & _ & Hs), HI' as (_ & _ & _ & Hs').
    rewrite HM in *. split; [lia|]. intros d Hdl. rewrite <- Hs. auto.
  Qed.
End LruProofs.
