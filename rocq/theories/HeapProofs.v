(* Correctness of the heap operations of LruModel. *)
From Coq Require Import Bool Arith ZArith Lia List Permutation.
From Verif Require Import Prelude PreludeFacts LruModel.
Import ListNotations.

Definition par (p : nat) := (p - 1) / 2.

Lemma par_lt p : 0 < p -> par p < p.
Proof. intros H. unfold par. apply Nat.div_lt_upper_bound; lia. Qed.
Lemma par_0 : par 0 = 0. Proof. reflexivity. Qed.
Lemma par_child p i : 0 < p -> (par p = i <-> p = 2 * i + 1 \/ p = 2 * i + 2).
Proof.
  intros H. unfold par. split.
  - intros <-. pose proof (Nat.div_mod (p - 1) 2 ltac:(lia)). pose proof (Nat.mod_upper_bound (p - 1) 2 ltac:(lia)). lia.
  - intros [->| ->].
    + replace (2 * i + 1 - 1) with (i * 2) by lia. now rewrite Nat.div_mul.
    + replace (2 * i + 2 - 1) with (1 + i * 2) by lia. rewrite Nat.div_add by lia. reflexivity.
Qed.

Section HeapProofs.
  Context {K V : Type} (eqb : K -> K -> bool) (Heq : eqb_ok eqb).
  Implicit Types (h : heap K V) (l : list (entry K V)).

  Definition tm l p : Z := match nth_error l p with Some e => last e | None => 0%Z end.

  Definition idx_ok h := forall k i,
    hindex h k = Some i <-> exists e, nth_error (hlist h) i = Some e /\ key e = k.

  Definition horder n l := forall p, 0 < p < n -> (tm l (par p) <= tm l p)%Z.

  Lemma Less_ok h i j : i < length (hlist h) -> j < length (hlist h) ->
    Less h i j = Ok (tm (hlist h) i <? tm (hlist h) j)%Z.
  Proof.
    intros Hi Hj. unfold Less, tm.
    destruct (nth_error_lt _ _ Hi) as [a ->], (nth_error_lt _ _ Hj) as [b ->]. reflexivity.
  Qed.

  Lemma iset_eq ix k i : iset eqb ix k i k = Some i.
  Proof. unfold iset. now rewrite (proj2 (Heq k k) eq_refl). Qed.
  Lemma iset_ne ix k i k' : k' <> k -> iset eqb ix k i k' = ix k'.
  Proof. intros H. unfold iset. now rewrite (eqb_ne eqb Heq k' k H). Qed.
  Lemma idel_eq ix k : idel eqb ix k k = None.
  Proof. unfold idel. now rewrite (proj2 (Heq k k) eq_refl). Qed.
  Lemma idel_ne ix k k' : k' <> k -> idel eqb ix k k' = ix k'.
  Proof. intros H. unfold idel. now rewrite (eqb_ne eqb Heq k' k H). Qed.

  Lemma idx_unique h i j a b : idx_ok h -> nth_error (hlist h) i = Some a ->
    nth_error (hlist h) j = Some b -> key a = key b -> i = j.
  Proof.
    intros Hx Ha Hb Hk.
    assert (H1 : hindex h (key a) = Some i) by (apply Hx; eauto).
    assert (H2 : hindex h (key a) = Some j) by (apply Hx; exists b; auto).
    congruence.
  Qed.

  Lemma Swap_ok h i j : idx_ok h -> i < length (hlist h) -> j < length (hlist h) ->
    exists h', Swap eqb h i j = Ok h' /\ swap (hlist h) i j = Ok (hlist h') /\ idx_ok h'.
  Proof.
    intros Hx Hi Hj. unfold Swap. destruct (swap_ok (hlist h) i j Hi Hj) as [l' Hs].
    rewrite Hs. cbn [rbind].
    pose proof (swap_nth _ _ _ _ i Hs) as Hni. pose proof (swap_nth _ _ _ _ j Hs) as Hnj.
    rewrite Nat.eqb_refl in Hnj. rewrite Nat.eqb_refl in Hni.
    assert (Hni' : nth_error l' i = nth_error (hlist h) j).
    { rewrite Hni. destruct (i =? j) eqn:E; auto. apply Nat.eqb_eq in E; congruence. }
    clear Hni. destruct (nth_error_lt _ _ Hi) as [a Ha], (nth_error_lt _ _ Hj) as [b Hb].
    rewrite Hni', Hnj, Ha, Hb. eexists; split; [reflexivity|]. cbn [hlist]. split; auto.
    intros k p. cbn [hindex hlist]. rewrite (swap_nth _ _ _ _ p Hs).
    destruct (key_dec eqb Heq k (key a)) as [->|Hka].
    - rewrite iset_eq. split.
      + intros H; inversion H; subst p. rewrite Nat.eqb_refl. eauto.
      + intros (e & He & Hk). destruct (p =? j) eqn:Epj.
        * apply Nat.eqb_eq in Epj. congruence.
        * destruct (p =? i) eqn:Epi.
          -- apply Nat.eqb_eq in Epi; subst p. assert (e = b) by congruence. subst e.
             assert (j = i) by (eapply idx_unique; eauto). congruence.
          -- apply Nat.eqb_neq in Epi. exfalso. apply Epi. eapply idx_unique; eauto.
    - rewrite iset_ne by auto. destruct (key_dec eqb Heq k (key b)) as [->|Hkb].
      + rewrite iset_eq. split.
        * intros H; inversion H; subst p. destruct (i =? j) eqn:E.
          -- apply Nat.eqb_eq in E; subst. exists b. split; auto.
          -- rewrite Nat.eqb_refl. eauto.
        * intros (e & He & Hk). destruct (p =? j) eqn:Epj.
          -- assert (e = a) by congruence. subst. congruence.
          -- destruct (p =? i) eqn:Epi.
             ++ apply Nat.eqb_eq in Epi; congruence.
             ++ apply Nat.eqb_neq in Epj. exfalso. apply Epj. eapply idx_unique; eauto.
      + rewrite iset_ne by auto. rewrite (Hx k p). split; intros (e & He & Hk).
        * destruct (p =? j) eqn:Epj; [apply Nat.eqb_eq in Epj; subst; congruence|].
          destruct (p =? i) eqn:Epi; [apply Nat.eqb_eq in Epi; subst; congruence|]. eauto.
        * destruct (p =? j) eqn:Epj; [congruence|]. destruct (p =? i) eqn:Epi; [congruence|]. eauto.
  Qed.

  Lemma swap_tm l i j l' p : swap l i j = Ok l' ->
    tm l' p = if p =? j then tm l i else if p =? i then tm l j else tm l p.
  Proof.
    intros H. unfold tm. rewrite (swap_nth _ _ _ _ p H).
    destruct (p =? j); auto. destruct (p =? i); auto.
  Qed.

  Ltac eqbs :=
    repeat match goal with
    | H : (_ =? _) = true |- _ => apply Nat.eqb_eq in H
    | H : (_ =? _) = false |- _ => apply Nat.eqb_neq in H
    end.

  (* ---------- up ---------- *)
  Lemma up_ok fuel : forall h j,
    idx_ok h -> j < length (hlist h) -> j < fuel ->
    (forall p, 0 < p < length (hlist h) -> p <> j -> (tm (hlist h) (par p) <= tm (hlist h) p)%Z) ->
    (forall c, 0 < c < length (hlist h) -> par c = j -> 0 < j -> (tm (hlist h) (par j) <= tm (hlist h) c)%Z) ->
    exists h', up eqb fuel h j = Ok h' /\ idx_ok h' /\ Permutation (hlist h) (hlist h') /\
      horder (length (hlist h')) (hlist h').
  Proof.
    induction fuel as [|fuel IH]; intros h j Hx Hj Hf H1 H2; [lia|].
    cbn [up]. fold (par j). destruct (par j =? j) eqn:E.
    - eqbs. assert (j = 0) by (destruct j; auto; pose proof (par_lt (S j)); lia). subst.
      exists h. split; auto. split; auto. split; auto. intros p Hp. apply H1; lia.
    - eqbs. assert (Hj0 : 0 < j) by (destruct j; [cbn in E; lia|lia]).
      pose proof (par_lt j Hj0) as Hpj.
      rewrite Less_ok by lia. cbn [rbind].
      destruct (tm (hlist h) j <? tm (hlist h) (par j))%Z eqn:El; cbn [negb].
      2:{ apply Z.ltb_ge in El. exists h. split; auto. split; auto. split; auto. intros p Hp.
          destruct (Nat.eq_dec p j) as [->|]; auto. }
      apply Z.ltb_lt in El.
      destruct (Swap_ok h (par j) j Hx) as (h1 & Hs & Hsl & Hx1); [lia|lia|].
      rewrite Hs. cbn [rbind]. pose proof (swap_inv _ _ _ _ Hsl) as (_ & _ & Hlen).
      destruct (IH h1 (par j)) as (h' & Hu & Hx' & Hp' & Ho); auto; try lia.
      + intros p Hp Hne. rewrite !(swap_tm _ _ _ _ _ Hsl).
        destruct (p =? j) eqn:Epj; eqbs.
        * subst p. rewrite (proj2 (Nat.eqb_neq (par j) j)) by lia. rewrite Nat.eqb_refl. lia.
        * rewrite (proj2 (Nat.eqb_neq p (par j))) by lia.
          destruct (par p =? j) eqn:E1; eqbs.
          -- apply H2; lia.
          -- destruct (par p =? par j) eqn:E2; eqbs.
             ++ specialize (H1 p ltac:(lia) Epj). rewrite E2 in H1. lia.
             ++ apply H1; lia.
      + intros c Hc Hpc Hpos. rewrite !(swap_tm _ _ _ _ _ Hsl).
        pose proof (par_lt (par j) Hpos) as Hpp.
        rewrite (proj2 (Nat.eqb_neq (par (par j)) j)) by lia.
        rewrite (proj2 (Nat.eqb_neq (par (par j)) (par j))) by lia.
        assert (Hb : (tm (hlist h) (par (par j)) <= tm (hlist h) (par j))%Z) by (apply H1; lia).
        destruct (c =? j) eqn:Ecj; eqbs; auto.
        pose proof (par_lt c ltac:(lia)).
        rewrite (proj2 (Nat.eqb_neq c (par j))) by lia.
        assert (Hc' : (tm (hlist h) (par c) <= tm (hlist h) c)%Z) by (apply H1; lia).
        rewrite Hpc in Hc'. lia.
      + exists h'. split; auto. split; auto. split; auto.
        transitivity (hlist h1); auto. eapply swap_permutation; eauto.
  Qed.

  (* ---------- down ---------- *)
  Lemma down_loop_ok n fuel : forall h i,
    idx_ok h -> n <= length (hlist h) -> i < fuel + i -> n < fuel + i ->
    (forall p, 0 < p < n -> par p <> i -> p <> i -> (tm (hlist h) (par p) <= tm (hlist h) p)%Z) ->
    (forall c, 0 < c < n -> par c = i -> 0 < i -> (tm (hlist h) (par i) <= tm (hlist h) c)%Z) ->
    exists h' r, down_loop eqb fuel h i n = Ok (h', r) /\ idx_ok h' /\
      Permutation (hlist h) (hlist h') /\
      (forall p, n <= p -> nth_error (hlist h') p = nth_error (hlist h) p) /\
      ((r = i /\ h' = h /\ forall p, 0 < p < n -> p <> i -> (tm (hlist h) (par p) <= tm (hlist h) p)%Z) \/
       (i < r /\ horder n (hlist h'))).
  Proof.
    induction fuel as [|fuel IH]; intros h i Hx Hn Hf1 Hf2 H1 H2; [lia|].
    cbn [down_loop]. destruct (n <=? 2 * i + 1) eqn:En.
    - apply Nat.leb_le in En. exists h, i. split; auto. split; auto. split; auto. split; auto.
      left. split; auto. split; auto. intros p Hp Hne. apply H1; auto. intros Hpi.
      apply par_child in Hpi; lia.
    - apply Nat.leb_gt in En.
      set (j1 := 2 * i + 1) in *. set (j2 := j1 + 1) in *.
      assert (Hsec : exists b, (if j2 <? n then Less h j2 j1 else Ok false) = Ok b /\
                (b = true -> j2 < n /\ (tm (hlist h) j2 < tm (hlist h) j1)%Z) /\
                (b = false -> j2 < n -> (tm (hlist h) j1 <= tm (hlist h) j2)%Z)).
      { destruct (j2 <? n) eqn:E2.
        - apply Nat.ltb_lt in E2. rewrite Less_ok by lia. eexists; split; [reflexivity|].
          split; intros H; [apply Z.ltb_lt in H|apply Z.ltb_ge in H]; lia.
        - exists false. split; auto. split; [discriminate|]. apply Nat.ltb_ge in E2. lia. }
      destruct Hsec as (sec & -> & Hs1 & Hs2). cbn [rbind].
      set (j := if sec then j2 else j1).
      assert (Hj : j < n /\ (j = j1 \/ j = j2)).
      { unfold j. destruct sec; [destruct (Hs1 eq_refl); auto|auto]. }
      destruct Hj as [Hjn Hj12].
      assert (Hjc : par j = i) by (apply par_child; lia).
      assert (Hmin : forall c, 0 < c < n -> par c = i -> (tm (hlist h) j <= tm (hlist h) c)%Z).
      { intros c Hc Hpc. apply par_child in Hpc; [|lia].
        assert (c = j1 \/ c = j2) as [-> | ->] by (unfold j2, j1; lia); unfold j; destruct sec; lia. }
      assert (Hij : i < j) by (pose proof (par_lt j); lia).
      rewrite Less_ok by lia. cbn [rbind].
      destruct (tm (hlist h) j <? tm (hlist h) i)%Z eqn:El; cbn [negb].
      2:{ apply Z.ltb_ge in El. exists h, i. split; auto. split; auto. split; auto. split; auto.
          left. split; auto. split; auto. intros p Hp Hne.
          destruct (Nat.eq_dec (par p) i) as [Hpi|]; auto. rewrite Hpi.
          specialize (Hmin p Hp Hpi). lia. }
      apply Z.ltb_lt in El.
      destruct (Swap_ok h i j Hx) as (h1 & Hs & Hsl & Hxh1); [lia|lia|].
      rewrite Hs. cbn [rbind]. pose proof (swap_inv _ _ _ _ Hsl) as (_ & _ & Hlen).
      destruct (IH h1 j) as (h' & r & Hd & Hx' & Hp' & Hout & Hres); auto; try lia.
      + intros p Hp Hpj Hne. rewrite !(swap_tm _ _ _ _ _ Hsl).
        rewrite (proj2 (Nat.eqb_neq p j)) by auto. rewrite (proj2 (Nat.eqb_neq (par p) j)) by auto.
        destruct (p =? i) eqn:Epi; eqbs.
        * subst p. pose proof (par_lt i ltac:(lia)).
          rewrite (proj2 (Nat.eqb_neq (par i) i)) by lia. apply H2; lia.
        * destruct (par p =? i) eqn:E2; eqbs; [apply Hmin; lia|apply H1; lia].
      + intros c Hc Hpc Hpos. rewrite Hjc. rewrite !(swap_tm _ _ _ _ _ Hsl).
        pose proof (par_lt c ltac:(lia)).
        rewrite (proj2 (Nat.eqb_neq i j)) by lia. rewrite Nat.eqb_refl.
        rewrite (proj2 (Nat.eqb_neq c j)) by lia. rewrite (proj2 (Nat.eqb_neq c i)) by lia.
        rewrite <- Hpc. apply H1; lia.
      + exists h', r. split; auto. split; auto. split.
        { transitivity (hlist h1); auto. eapply swap_permutation; eauto. }
        split.
        { intros p Hp. rewrite Hout by auto. rewrite (swap_nth _ _ _ _ p Hsl).
          rewrite (proj2 (Nat.eqb_neq p j)) by lia. rewrite (proj2 (Nat.eqb_neq p i)) by lia. reflexivity. }
        right. destruct Hres as [(-> & -> & He)|(Hr & Ho)]; [|split; [lia|auto]].
        split; [lia|]. intros p Hp. destruct (Nat.eq_dec p j) as [->|]; auto.
        rewrite Hjc, !(swap_tm _ _ _ _ _ Hsl). rewrite Nat.eqb_refl.
        rewrite (proj2 (Nat.eqb_neq i j)) by lia. rewrite Nat.eqb_refl. lia.
  Qed.

  Lemma down_ok h i n :
    idx_ok h -> n <= length (hlist h) ->
    (forall p, 0 < p < n -> par p <> i -> p <> i -> (tm (hlist h) (par p) <= tm (hlist h) p)%Z) ->
    (forall c, 0 < c < n -> par c = i -> 0 < i -> (tm (hlist h) (par i) <= tm (hlist h) c)%Z) ->
    exists h' b, down eqb h i n = Ok (h', b) /\ idx_ok h' /\
      Permutation (hlist h) (hlist h') /\
      (forall p, n <= p -> nth_error (hlist h') p = nth_error (hlist h) p) /\
      ((b = false /\ h' = h /\ forall p, 0 < p < n -> p <> i -> (tm (hlist h) (par p) <= tm (hlist h) p)%Z) \/
       (b = true /\ horder n (hlist h'))).
  Proof.
    intros Hx Hn H1 H2. unfold down.
    destruct (down_loop_ok n (S n) h i) as (h' & r & Hd & Hx' & Hp & Ho & Hr); auto; try lia.
    rewrite Hd. cbn [rbind]. exists h', (i <? r). split; auto. split; auto. split; auto. split; auto.
    destruct Hr as [(-> & -> & He)|(Hr & Hh)].
    - left. split; [apply Nat.ltb_irrefl|]. auto.
    - right. split; auto. now apply Nat.ltb_lt.
  Qed.

  (* ---------- Push, Pop, Fix ---------- *)
  Lemma tm_app_l l l2 p : p < length l -> tm (l ++ l2) p = tm l p.
  Proof. intros H. unfold tm. now rewrite nth_error_app1. Qed.

  Lemma Push_ok h e : idx_ok h -> horder (length (hlist h)) (hlist h) -> hindex h (key e) = None ->
    exists h', Push eqb h e = Ok h' /\ idx_ok h' /\ Permutation (e :: hlist h) (hlist h') /\
      horder (length (hlist h')) (hlist h').
  Proof.
    intros Hx Ho Hnone. unfold Push, Len. set (h0 := hPush eqb h e).
    assert (Hl0 : length (hlist h0) = S (length (hlist h))).
    { unfold h0, hPush. cbn. rewrite app_length. cbn. lia. }
    assert (Hx0 : idx_ok h0).
    { intros k i. unfold h0, hPush. cbn [hindex hlist].
      destruct (key_dec eqb Heq k (key e)) as [->|Hne].
      - rewrite iset_eq. split.
        + intros H; inversion H; subst. exists e. split; auto. apply nth_error_mid.
        + intros (e' & He' & Hk). destruct (lt_dec i (length (hlist h))) as [Hi|Hi].
          * rewrite nth_error_app1 in He' by auto.
            assert (hindex h (key e) = Some i) by (apply Hx; eauto). congruence.
          * pose proof (nth_error_some_lt _ _ _ He') as Hl. rewrite app_length in Hl. cbn in Hl.
            f_equal. lia.
      - rewrite iset_ne by auto. rewrite (Hx k i). split; intros (e' & He' & Hk).
        + exists e'. split; auto. rewrite nth_error_app1; auto. eapply nth_error_some_lt; eauto.
        + destruct (lt_dec i (length (hlist h))) as [Hi|Hi].
          * rewrite nth_error_app1 in He' by auto. eauto.
          * rewrite nth_error_app2 in He' by lia.
            destruct (i - length (hlist h)) as [|q]; cbn in He'; [congruence|destruct q; discriminate]. }
    destruct (up_ok (length (hlist h0)) h0 (length (hlist h0) - 1)) as (h' & Hu & Hx' & Hp & Hh); auto; try lia.
    - intros p Hp Hne. assert (Hpl : p < length (hlist h)) by lia.
      pose proof (par_lt p ltac:(lia)). unfold h0, hPush. cbn [hlist]. rewrite !tm_app_l by lia.
      apply Ho. lia.
    - intros c Hc Hpc. pose proof (par_lt c ltac:(lia)). lia.
    - exists h'. split; auto. split; auto. split; auto. rewrite <- Hp. unfold h0, hPush. cbn [hlist].
      apply Permutation_cons_append.
  Qed.

  Lemma root_min l : horder (length l) l -> forall p, p < length l -> (tm l 0 <= tm l p)%Z.
  Proof.
    intros Ho p. induction p as [p IH] using (well_founded_induction lt_wf). intros Hp.
    destruct (Nat.eq_dec p 0) as [->|Hne]; [lia|].
    pose proof (par_lt p ltac:(lia)). specialize (IH (par p) ltac:(lia) ltac:(lia)).
    specialize (Ho p ltac:(lia)). lia.
  Qed.

  Lemma tm_in l e : In e l -> exists p, p < length l /\ nth_error l p = Some e /\ tm l p = last e.
  Proof.
    intros H. apply In_nth_error in H as [p Hp]. exists p. split; [eapply nth_error_some_lt; eauto|].
    split; auto. unfold tm. now rewrite Hp.
  Qed.

  Lemma Pop_ok h : idx_ok h -> horder (length (hlist h)) (hlist h) -> hlist h <> [] ->
    exists e h', Pop eqb h = Ok (e, h') /\ idx_ok h' /\ Permutation (hlist h) (e :: hlist h') /\
      horder (length (hlist h')) (hlist h') /\ (forall x, In x (hlist h) -> (last e <= last x)%Z).
  Proof.
    intros Hx Ho Hne. unfold Pop, Len.
    assert (Hl : 0 < length (hlist h)) by (destruct (hlist h); [congruence|cbn; lia]).
    set (n := length (hlist h) - 1).
    destruct (Swap_ok h 0 n Hx) as (h1 & Hs & Hsl & Hx1); [lia|unfold n; lia|].
    rewrite Hs. cbn [rbind]. pose proof (swap_inv _ _ _ _ Hsl) as (_ & _ & Hlen).
    destruct (down_ok h1 0 n) as (h2 & b & Hd & Hx2 & Hp2 & Hout & Hres); auto.
    - unfold n; lia.
    - intros p Hp Hpp Hp0. rewrite !(swap_tm _ _ _ _ _ Hsl).
      pose proof (par_lt p ltac:(lia)).
      rewrite !(proj2 (Nat.eqb_neq p _)) by lia. rewrite !(proj2 (Nat.eqb_neq (par p) _)) by lia.
      apply Ho. unfold n in *; lia.
    - intros; lia.
    - rewrite Hd. cbn [rbind]. unfold hPop.
      pose proof (Permutation_length Hp2) as Hl2. rewrite Hlen in Hl2.
      rewrite <- Hl2. fold n. rewrite Hout by lia.
      assert (Hn : nth_error (hlist h1) n = nth_error (hlist h) 0).
      { rewrite (swap_nth _ _ _ _ n Hsl). now rewrite Nat.eqb_refl. }
      rewrite Hn. destruct (nth_error_lt (hlist h) 0 Hl) as [e He]. rewrite He.
      eexists e, _. split; [reflexivity|]. cbn [hlist hindex].
      assert (Hsplit : hlist h2 = firstn n (hlist h2) ++ [e]).
      { rewrite <- (firstn_skipn n (hlist h2)) at 1. f_equal.
        assert (Hn2 : nth_error (hlist h2) n = Some e) by (rewrite Hout by lia; congruence).
        destruct (nth_error_split _ _ Hn2) as (l1 & l2 & Hl12 & Hl1).
        rewrite Hl12. rewrite <- Hl1. rewrite skipn_app, skipn_all, Nat.sub_diag. cbn.
        destruct l2; auto. rewrite Hl12, app_length in Hl2. cbn in Hl2. unfold n in Hl1. lia. }
      assert (Hln : length (firstn n (hlist h2)) = n) by (rewrite firstn_length; unfold n in *; lia).
      split; [|split; [|split]].
      + intros k i. cbn [hindex hlist]. destruct (key_dec eqb Heq k (key e)) as [->|Hk].
        * rewrite idel_eq. split; [discriminate|]. intros (e' & He' & Hk').
          assert (Hi : nth_error (hlist h2) i = Some e').
          { rewrite Hsplit, nth_error_app1; auto. eapply nth_error_some_lt; eauto. }
          assert (Hn2 : nth_error (hlist h2) n = Some e) by (rewrite Hout by lia; congruence).
          assert (i = n) by (eapply idx_unique; eauto). subst i.
          apply nth_error_some_lt in He'. lia.
        * rewrite idel_ne by auto. rewrite (Hx2 k i). split; intros (e' & He' & Hk').
          -- exists e'. split; auto. rewrite Hsplit in He'.
             destruct (lt_dec i n) as [Hi|Hi].
             ++ rewrite nth_error_app1 in He' by lia. auto.
             ++ rewrite nth_error_app2 in He' by lia.
                destruct (i - length (firstn n (hlist h2))) as [|q]; cbn in He'; [congruence|destruct q; discriminate].
          -- exists e'. split; auto. rewrite Hsplit, nth_error_app1; auto. eapply nth_error_some_lt; eauto.
      + transitivity (hlist h1); [eapply swap_permutation; eauto|]. rewrite Hp2, Hsplit at 1.
        rewrite <- Permutation_cons_append. reflexivity.
      + rewrite Hln. intros p Hp.
        assert (Hh : horder n (hlist h2)).
        { destruct Hres as [(_ & -> & He')|(_ & Hh)]; auto. intros q Hq. apply He'; lia. }
        specialize (Hh p Hp). rewrite Hsplit in Hh. pose proof (par_lt p ltac:(lia)).
        rewrite !tm_app_l in Hh by lia. auto.
      + intros x Hin. destruct (tm_in _ _ Hin) as (p & Hp & _ & <-).
        pose proof (root_min _ Ho p Hp) as Hr. unfold tm at 1 in Hr. now rewrite He in Hr.
  Qed.

  (* Fix on a heap whose entry i was replaced. *)
  Lemma Fix_ok h i :
    idx_ok h -> i < length (hlist h) ->
    (forall p, 0 < p < length (hlist h) -> par p <> i -> p <> i -> (tm (hlist h) (par p) <= tm (hlist h) p)%Z) ->
    (forall c, 0 < c < length (hlist h) -> par c = i -> 0 < i -> (tm (hlist h) (par i) <= tm (hlist h) c)%Z) ->
    exists h', Fix eqb h i = Ok h' /\ idx_ok h' /\ Permutation (hlist h) (hlist h') /\
      horder (length (hlist h')) (hlist h').
  Proof.
    intros Hx Hi H1 H2. unfold Fix, Len.
    destruct (down_ok h i (length (hlist h))) as (h1 & b & Hd & Hx1 & Hp1 & _ & Hres); auto.
    rewrite Hd. cbn [rbind]. destruct Hres as [(-> & -> & He)|(-> & Hh)].
    - destruct (up_ok (S i) h i) as (h' & Hu & Hx' & Hp & Hh); auto.
      rewrite Hu. eauto.
    - exists h1. split; auto. split; auto. split; auto. now rewrite <- (Permutation_length Hp1).
  Qed.
End HeapProofs.
