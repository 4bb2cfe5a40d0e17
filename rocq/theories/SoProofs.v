(* Proofs about lists.Sort. *)
From Coq Require Import Bool Arith ZArith Lia List Permutation.
From Verif Require Import SoModel SoSpec.
Import ListNotations.

Section Proofs.
  Context {A : Type} (lt : A -> A -> bool) (rnd : nat -> nat -> nat) (d : A).
  Notation get l i := (nth i l d).
  Definition wp {X} (m : M X) (l : list A) (Q : X -> list A -> Prop) : Prop := match m l with Some (x, l') => Q x l' | None => False end.
  Lemma wp_bind {X Y} (m : M X) (f : X -> M Y) l Q : wp m l (fun x l' => wp (f x) l' Q) -> wp (bind m f) l Q.
  Proof. unfold wp, bind. destruct (m l) as [[x l']|]; auto. Qed.
  Lemma wp_mono {X} (m : M X) l (P Q : X -> list A -> Prop) : wp m l P -> (forall x l', P x l' -> Q x l') -> wp m l Q.
  Proof. unfold wp. destruct (m l) as [[x l']|]; auto. Qed.
  Lemma wp_ret {X} (x : X) l (Q : X -> list A -> Prop) : Q x l -> wp (ret x) l Q.
  Proof. auto. Qed.
  Lemma wp_less i j l (Q : bool -> list A -> Prop) : i < length l -> j < length l -> Q (lt (get l i) (get l j)) l -> wp (Less lt i j) l Q.
  Proof. intros Hi Hj H. unfold wp, Less. rewrite (nth_error_nth' l d Hi), (nth_error_nth' l d Hj). exact H. Qed.
  Definition swp (l : list A) i j : list A := put (put l i (get l j)) j (get l i).
  Lemma wp_swap i j l (Q : unit -> list A -> Prop) : i < length l -> j < length l -> Q tt (swp l i j) -> wp (Swap i j) l Q.
  Proof. intros Hi Hj H. unfold wp, Swap. rewrite (nth_error_nth' l d Hi), (nth_error_nth' l d Hj). exact H. Qed.
  Lemma put_length (l : list A) : forall i x, length (put l i x) = length l.
  Proof. induction l as [|y l IH]; intros [|i] x; cbn; auto. Qed.
  Lemma get_put (l : list A) : forall i x k, i < length l -> get (put l i x) k = if k =? i then x else get l k.
  Proof. induction l as [|y l IH]; intros [|i] x [|k] H; cbn in *; try lia; auto. apply IH. lia. Qed.
  Lemma swp_length l i j : length (swp l i j) = length l.
  Proof. unfold swp. now rewrite !put_length. Qed.
  Lemma get_swp l i j k : i < length l -> j < length l -> get (swp l i j) k = if k =? j then get l i else if k =? i then get l j else get l k.
  Proof. intros Hi Hj. unfold swp. rewrite !get_put by (rewrite ?put_length; lia). reflexivity. Qed.
  Lemma swp_perm l i j : i < length l -> j < length l -> Permutation l (swp l i j).
  Proof.
    intros Hi Hj. apply (Permutation_nth l (swp l i j) d). cbv zeta. split; [apply swp_length|]. exists (fun k => if k =? j then i else if k =? i then j else k). split; [|split].
    - intros k Hk. destruct (k =? j), (k =? i); lia.
    - intros k k' Hk Hk'. destruct (Nat.eqb_spec k j), (Nat.eqb_spec k' j), (Nat.eqb_spec k i), (Nat.eqb_spec k' i); lia.
    - intros k Hk. rewrite get_swp by lia. destruct (k =? j), (k =? i); reflexivity.
  Qed.

  (* only the part from a to b is changed, and its elements are those it had *)
  Definition frame a b (l l' : list A) : Prop := Permutation l l' /\ (forall k, ~ (a <= k < b) -> get l' k = get l k) /\
    forall k, a <= k < b -> exists k', a <= k' < b /\ get l' k = get l k'.
  Lemma frame_refl a b l : frame a b l l.
  Proof. split; [reflexivity|]. split; [reflexivity|]. intros k Hk. exists k. auto. Qed.
  Lemma frame_len a b l l' : frame a b l l' -> length l' = length l.
  Proof. intros (H & _). symmetry. now apply Permutation_length. Qed.
  Lemma frame_trans a b l1 l2 l3 : frame a b l1 l2 -> frame a b l2 l3 -> frame a b l1 l3.
  Proof.
    intros (P1 & O1 & I1) (P2 & O2 & I2). split; [now transitivity l2|]. split.
    - intros k Hk. now rewrite O2, O1.
    - intros k Hk. destruct (I2 k Hk) as (k2 & H2 & E2). destruct (I1 k2 H2) as (k1 & H1 & E1). exists k1. split; auto. congruence.
  Qed.
  Lemma frame_widen a b a' b' l l' : a' <= a -> b <= b' -> frame a b l l' -> frame a' b' l l'.
  Proof.
    intros Ha Hb (P & O & I). split; auto. split.
    - intros k Hk. apply O. lia.
    - intros k Hk. destruct (le_lt_dec a k); [destruct (le_lt_dec b k)|].
      + exists k. split; auto. apply O. lia.
      + destruct (I k ltac:(lia)) as (k' & Hk' & E). exists k'. split; auto. lia.
      + exists k. split; auto. apply O. lia.
  Qed.
  Lemma frame_swp a b l i j : b <= length l -> a <= i < b -> a <= j < b -> frame a b l (swp l i j).
  Proof.
    intros Hb Hi Hj. split; [apply swp_perm; lia|]. split; intros k Hk; rewrite get_swp by lia; destruct (Nat.eqb_spec k j), (Nat.eqb_spec k i); subst; try lia; auto; eauto.
  Qed.
  Lemma frame_all a b l l' (P : A -> Prop) : frame a b l l' -> (forall k, a <= k < b -> P (get l k)) -> forall k, a <= k < b -> P (get l' k).
  Proof. intros (_ & _ & I) H k Hk. destruct (I k Hk) as (k' & Hk' & ->). auto. Qed.
  Lemma frame_out a b l l' k : frame a b l l' -> ~ (a <= k < b) -> get l' k = get l k.
  Proof. intros (_ & O & _). apply O. Qed.

  (* ---- the order ---- *)
  Definition le x y : Prop := lt y x = false.
  Definition SW : Prop := (forall x, le x x) /\ (forall x y z, le x y -> le y z -> le x z) /\ forall x y, lt x y = true -> le x y.
  Lemma sw_of : strict_weak lt -> SW.
  Proof.
    intros (H1 & H2 & H3). assert (As : forall x y, lt x y = true -> lt y x = false).
    { intros x y E. destruct (lt y x) eqn:F; auto. rewrite <- (H1 x). symmetry. now apply (H2 x y x). }
    split; [exact H1|]. split; [|exact As]. unfold le. intros x y z Ha Hb. destruct (lt z x) eqn:E; auto.
    destruct (lt x y) eqn:E1; [rewrite (H2 z x y E E1) in Hb; discriminate|]. destruct (lt y z) eqn:E2; [rewrite (H2 y z x E2 E) in Ha; discriminate|].
    destruct (H3 x y z E1 Ha E2 Hb). congruence.
  Qed.
  (* the part from a to b is in order *)
  Definition srt a b l : Prop := forall p q, a <= p -> p < q -> q < b -> le (get l p) (get l q).
  (* the element before a is at most those of the part *)
  Definition lb a b l : Prop := 0 < a -> forall k, a <= k < b -> le (get l (a - 1)) (get l k).
  Lemma lb_frame a b l l' : frame a b l l' -> lb a b l -> lb a b l'.
  Proof. intros F H Ha k Hk. rewrite (frame_out a b l l' (a - 1) F) by lia. apply (frame_all a b l l' (fun x => le (get l (a - 1)) x) F); auto. Qed.

  Ltac swps := rewrite ?get_swp by lia; repeat match goal with |- context [?x =? ?y] => destruct (Nat.eqb_spec x y); subst; try lia end.

  (* ---- insertion ---- *)
  Lemma ins_any lo : forall j l, lo <= j -> j < length l -> wp (ins lt lo j) l (fun _ l' => frame lo (S j) l l').
  Proof.
    induction j as [|j IH]; intros l Hl Hj; cbn [ins]; [apply wp_ret, frame_refl|]. destruct (Nat.ltb_spec lo (S j)); [|apply wp_ret, frame_refl].
    apply wp_bind, wp_less; try lia. destruct (lt (get l (S j)) (get l j)); [|apply wp_ret, frame_refl]. apply wp_bind, wp_swap; try lia.
    eapply wp_mono; [apply IH; rewrite ?swp_length; lia|]. cbv beta. intros _ l' F. apply (frame_trans _ _ _ (swp l (S j) j)); [apply frame_swp; lia|]. eapply frame_widen; [| |exact F]; lia.
  Qed.
  Lemma ins_sorted lo a e : SW -> lo <= a -> forall j l, a <= j < e -> e <= length l ->
    (forall p q, a <= p -> p < q -> q < e -> p <> j -> q <> j -> le (get l p) (get l q)) -> (forall q, j < q < e -> le (get l j) (get l q)) ->
    (lo < a -> lb a e l) -> wp (ins lt lo j) l (fun _ l' => frame a e l l' /\ srt a e l').
  Proof.
    intros (S1 & S2 & S3) Ha. 
    assert (Stop : forall j l, a <= j < e -> (forall p q, a <= p -> p < q -> q < e -> p <> j -> q <> j -> le (get l p) (get l q)) -> (forall q, j < q < e -> le (get l j) (get l q)) ->
      (a < j -> le (get l (j - 1)) (get l j)) -> frame a e l l /\ srt a e l).
    { intros j l Hj H1 H2 H3. split; [apply frame_refl|]. intros p q Hp Hpq Hq. destruct (Nat.eq_dec p j) as [->|Np]; [apply H2; lia|].
      destruct (Nat.eq_dec q j) as [->|Nq]; [|apply H1; auto]. destruct (Nat.eq_dec p (j - 1)) as [->|N1]; [apply H3; lia|]. apply S2 with (get l (j - 1)); [apply H1; lia|apply H3; lia]. }
    induction j as [|j IH]; intros l Hj He H1 H2 H3; cbn [ins]; [apply wp_ret, (Stop 0); auto; lia|].
    destruct (Nat.ltb_spec lo (S j)); [|apply wp_ret, (Stop (S j)); auto; lia].
    apply wp_bind, wp_less; try lia. destruct (lt (get l (S j)) (get l j)) eqn:El.
    2: { apply wp_ret, (Stop (S j)); auto. intros _. replace (S j - 1) with j by lia. exact El. }
    assert (Haj : a <= j).
    { destruct (le_lt_dec a j); auto. exfalso. assert (a = S j) by lia. subst a. specialize (H3 ltac:(lia) ltac:(lia) (S j) ltac:(lia)). replace (S j - 1) with j in H3 by lia. unfold le in H3. congruence. }
    apply wp_bind, wp_swap; try lia. eapply wp_mono.
    - apply IH; rewrite ?swp_length; try lia.
      + intros p q Hp Hpq Hq N1 N2. swps; apply H1; lia.
      + intros q Hq. swps; [apply S3; exact El|apply H2; lia].
      + intros Hlo. apply (lb_frame a e l); [apply frame_swp; lia|auto].
    - cbv beta. intros _ l' (F & Hso). split; auto. apply (frame_trans _ _ _ (swp l (S j) j)); auto. apply frame_swp; lia.
  Qed.
  Lemma for_up_inv (I : nat -> list A -> Prop) f : forall n k l, I k l -> (forall i l, k <= i < k + n -> I i l -> wp (f i) l (fun _ l' => I (S i) l')) -> wp (for_up n k f) l (fun _ l' => I (k + n) l').
  Proof.
    induction n as [|n IH]; intros k l Hk H; cbn [for_up]; [apply wp_ret; now rewrite Nat.add_0_r|]. apply wp_bind. eapply wp_mono; [apply H; auto; lia|]. cbv beta. intros _ l' HI.
    replace (k + S n) with (S k + n) by lia. apply IH; auto. intros i l2 Hi. apply H. lia.
  Qed.
  Lemma for_down_inv (I : nat -> list A -> Prop) f : forall n l, I n l -> (forall i l, i < n -> I (S i) l -> wp (f i) l (fun _ l' => I i l')) -> wp (for_down n f) l (fun _ l' => I 0 l').
  Proof.
    induction n as [|n IH]; intros l Hk H; cbn [for_down]; [now apply wp_ret|]. apply wp_bind. eapply wp_mono; [apply H; auto; lia|]. cbv beta. intros _ l' HI. apply IH; auto.
  Qed.
  Lemma insertion_ok a b l : a <= b -> b <= length l -> wp (insertionSort lt a b) l (fun _ l' => frame a b l l' /\ (SW -> srt a b l')).
  Proof.
    intros Hab Hb. unfold insertionSort. destruct (le_lt_dec b (a + 1)).
    - replace (b - (a + 1)) with 0 by lia. apply wp_ret. split; [apply frame_refl|]. intros _ p q. lia.
    - eapply wp_mono; [apply (for_up_inv (fun i l' => frame a b l l' /\ (SW -> srt a i l')))|].
      + split; [apply frame_refl|]. intros _ p q. lia.
      + intros i l1 Hi (F & Hso). assert (L := frame_len _ _ _ _ F). destruct (ins lt a i l1) as [[u l2]|] eqn:E.
        2: { assert (W := ins_any a i l1 ltac:(lia) ltac:(lia)). unfold wp in W. rewrite E in W. destruct W. }
        unfold wp. rewrite E. assert (W := ins_any a i l1 ltac:(lia) ltac:(lia)). unfold wp in W. rewrite E in W. split.
        * apply (frame_trans _ _ _ l1); auto. eapply frame_widen; [| |exact W]; lia.
        * intros HS. assert (V := ins_sorted a a (Datatypes.S i) HS (le_n a) i l1 ltac:(lia) ltac:(lia)). unfold wp in V. rewrite E in V. apply V.
          -- intros p q Hp Hq Hq2 N1 N2. apply (Hso HS); lia.
          -- intros q. lia.
          -- lia.
      + cbv beta. intros _ l' (F & Hso). split; auto. intros HS p q Hp Hq Hb'. apply (Hso HS); lia.
  Qed.

  (* ---- the heap ---- *)
  Definition child r c : Prop := c = 2 * r + 1 \/ c = 2 * r + 2.
  Definition heap first lo hi l : Prop := forall r c, lo <= r -> child r c -> c < hi -> le (get l (first + c)) (get l (first + r)).
  Lemma sift_ok first hi lo : forall fuel root l, first + hi <= length l -> hi <= root + fuel -> 0 < fuel -> wp (sift lt fuel root hi first) l (fun _ l' => frame first (first + hi) l l' /\
    (SW -> (forall r c, lo <= r -> child r c -> c < hi -> r <> root -> le (get l (first + c)) (get l (first + r))) ->
      (forall r c, lo <= r -> child r root -> child root c -> c < hi -> le (get l (first + c)) (get l (first + r))) -> heap first lo hi l')).
  Proof.
    induction fuel as [|fuel IH]; intros root l Hb Hf Hr.
    { exfalso. lia. }
    cbn [sift]. cbv zeta. destruct (Nat.leb_spec hi (2 * root + 1)) as [Hc|Hc].
    { apply wp_ret. split; [apply frame_refl|]. intros _ H1 _ r c Hlo Hch Hhi. apply H1; auto. unfold child in Hch. lia. }
    apply wp_bind.
    assert (W : wp (if 2 * root + 1 + 1 <? hi then Less lt (first + (2 * root + 1)) (first + (2 * root + 1) + 1) else ret false) l
      (fun g l' => l' = l /\ (if g then 2 * root + 2 < hi /\ lt (get l (first + (2 * root + 1))) (get l (first + (2 * root + 2))) = true
        else 2 * root + 2 < hi -> le (get l (first + (2 * root + 2))) (get l (first + (2 * root + 1)))))).
    { destruct (Nat.ltb_spec (2 * root + 1 + 1) hi).
      - apply wp_less; try lia. split; auto. replace (first + (2 * root + 1) + 1) with (first + (2 * root + 2)) by lia.
        destruct (lt (get l (first + (2 * root + 1))) (get l (first + (2 * root + 2)))) eqn:E; [split; auto; lia|intros _; exact E].
      - apply wp_ret. split; auto. lia. }
    eapply wp_mono; [exact W|]. clear W. cbv beta. intros g l0 (-> & Hg).
    set (c := if g then 2 * root + 1 + 1 else 2 * root + 1).
    assert (Hc1 : child root c) by (unfold child; subst c; destruct g; lia).
    assert (Hc2 : c < hi) by (subst c; destruct g; lia).
    assert (Hc3 : SW -> forall c', child root c' -> c' < hi -> le (get l (first + c')) (get l (first + c))).
    { intros (S1 & S2 & S3) c' Hc' Hh. subst c. destruct g.
      - destruct Hg as [Hg1 Hg2]. replace (first + (2 * root + 1 + 1)) with (first + (2 * root + 2)) by lia. destruct Hc' as [->| ->]; [now apply S3|apply S1].
      - destruct Hc' as [->| ->]; [apply S1|]. apply Hg. lia. }
    apply wp_bind, wp_less; try lia. destruct (lt (get l (first + root)) (get l (first + c))) eqn:El.
    - apply wp_bind, wp_swap; try lia. assert (Fs : frame first (first + hi) l (swp l (first + root) (first + c))) by (apply frame_swp; lia).
      eapply wp_mono; [apply IH; rewrite ?swp_length; [lia|unfold child in Hc1; lia|unfold child in Hc1; lia]|]. cbv beta. intros _ l' (F & Hh). split; [eapply frame_trans; eauto|].
      intros HS H1 H2. apply (Hh HS); clear Hh; destruct HS as (S1 & S2 & S3).
      + intros r c' Hlo Hch Hhi Nr. unfold child in *. swps; try (apply Hc3; [split; auto|unfold child; lia|lia]); try (apply H1; unfold child; lia).
        * now apply S3.
        * apply H2; unfold child; try lia.
      + intros r c' Hlo Hch1 Hch2 Hhi. unfold child in *. swps. apply H1; unfold child; lia.
    - apply wp_ret. split; [apply frame_refl|]. intros HS H1 _ r c' Hlo Hch Hhi. destruct (Nat.eq_dec r root) as [->|Nr]; [|now apply H1].
      destruct HS as (S1 & S2 & S3). apply S2 with (get l (first + c)); [apply Hc3; auto; split; auto|exact El].
  Qed.
  Lemma heap_max first hi l : SW -> heap first 0 hi l -> forall r, r < hi -> le (get l (first + r)) (get l (first + 0)).
  Proof.
    intros (S1 & S2 & S3) H. induction r as [r IH] using (well_founded_induction Wf_nat.lt_wf). intros Hr. destruct r as [|r]; [apply S1|]. assert (D := Nat.div_mod r 2 ltac:(lia)). assert (D2 := Nat.mod_upper_bound r 2 ltac:(lia)).
    apply S2 with (get l (first + r / 2)); [apply H; unfold child; lia|apply IH; lia].
  Qed.
  Lemma heapSort_ok a b l : a < b -> b <= length l -> wp (heapSort lt a b) l (fun _ l' => frame a b l l' /\ (SW -> srt a b l')).
  Proof.
    intros Hab Hb. unfold heapSort. cbv zeta. set (hi := b - a). assert (Eb : a + hi = b) by (subst hi; lia). clearbody hi. apply wp_bind.
    eapply wp_mono; [apply (for_down_inv (fun i l' => frame a b l l' /\ (SW -> heap a i hi l')))|].
    - split; [apply frame_refl|]. intros _ r c Hr Hc Hh. unfold child in Hc. exfalso. assert (D := Nat.div_mod (hi - 1) 2 ltac:(lia)). assert (D2 := Nat.mod_upper_bound (hi - 1) 2 ltac:(lia)). lia.
    - intros i l1 Hi (F & Hh). assert (D := Nat.div_mod (hi - 1) 2 ltac:(lia)). assert (L := frame_len _ _ _ _ F). eapply wp_mono; [apply (sift_ok a hi i); lia|]. cbv beta. intros _ l2 (F2 & H2). rewrite Eb in F2. split; [eapply frame_trans; eauto|].
      intros HS. apply (H2 HS).
      + intros r c Hr Hc Hlt Nr. apply (Hh HS); auto. lia.
      + intros r c Hr Hc Hc2. unfold child in *. lia.
    - cbv beta. intros _ l1 (F1 & H1). eapply wp_mono; [apply (for_down_inv (fun i l' => frame a b l l' /\ (SW -> heap a 0 i l' /\ srt (a + i) b l' /\ forall k q, k < i -> a + i <= q < b -> le (get l' (a + k)) (get l' q))))|].
      + split; auto. intros HS. split; [auto|]. split; [intros p q; lia|]. intros k q. lia.
      + intros i l2 Hi (F2 & H2). assert (L := frame_len _ _ _ _ F2). apply wp_bind, wp_swap; try lia.
        assert (Fs : frame a b l2 (swp l2 a (a + i))) by (apply frame_swp; lia). assert (Ls := swp_length l2 a (a + i)).
        eapply wp_mono; [apply (sift_ok a i 0); lia|]. cbv beta. intros _ l3 (F3 & H3). split.
        * apply (frame_trans _ _ _ l2); auto. apply (frame_trans _ _ _ (swp l2 a (a + i))); auto. eapply frame_widen; [| |exact F3]; lia.
        * intros HS. destruct (H2 HS) as (Hp & Hs & Hm). assert (Mx := heap_max a (S i) l2 HS Hp). destruct HS as (S1 & S2 & S3). assert (HS : SW) by (split; auto).
          assert (O : forall q, a + i <= q -> get l3 q = if q =? a + i then get l2 a else get l2 q).
          { intros q Hq. rewrite (frame_out _ _ _ _ q F3) by lia. rewrite get_swp by lia. destruct (Nat.eqb_spec q (a + i)); [reflexivity|]. destruct (Nat.eqb_spec q a); [lia|reflexivity]. }
          split; [|split].
          -- apply (H3 HS); unfold child; intros r c Hr Hc Hlt; try lia. intros Nr. swps. apply Hp; unfold child; lia.
          -- intros p q Hp1 Hpq Hq. rewrite !O by lia. destruct (Nat.eqb_spec p (a + i)), (Nat.eqb_spec q (a + i)); subst; try lia.
             ++ specialize (Hm 0 q ltac:(lia) ltac:(lia)). rewrite Nat.add_0_r in Hm. exact Hm.
             ++ apply Hs; lia.
          -- intros k q Hk Hq. rewrite (O q) by lia.
             apply (frame_all a (a + i) (swp l2 a (a + i)) l3 (fun x => le x (if q =? a + i then get l2 a else get l2 q)) F3); [|lia].
             intros k' Hk'. destruct (Nat.eqb_spec q (a + i)).
             ++ swps.
                ** specialize (Mx i ltac:(lia)). now rewrite Nat.add_0_r in Mx.
                ** replace k' with (a + (k' - a)) by lia. specialize (Mx (k' - a) ltac:(lia)). now rewrite Nat.add_0_r in Mx.
             ++ swps.
                ** apply Hm; lia.
                ** replace k' with (a + (k' - a)) by lia. apply Hm; lia.
      + cbv beta. intros _ l2 (F2 & H2). split; auto. intros HS. destruct (H2 HS) as (_ & Hs & _). rewrite Nat.add_0_r in Hs. exact Hs.
  Qed.

  (* ---- partition ---- *)
  Lemma up_ok (tb : nat -> bool) test j l : (forall k, k <= j -> test k l = Some (tb k, l)) -> forall fuel i, i <= j + 1 -> j + 1 < i + fuel ->
    wp (up fuel i j test) l (fun i' l' => l' = l /\ i <= i' <= j + 1 /\ (forall k, i <= k < i' -> tb k = true) /\ (i' <= j -> tb i' = false)).
  Proof.
    intros Ht. induction fuel as [|fuel IH]; intros i Hi Hf; [lia|]. cbn [up]. destruct (Nat.leb_spec i j).
    - apply wp_bind. unfold wp at 1. rewrite Ht by lia. destruct (tb i) eqn:E.
      + eapply wp_mono; [apply IH; lia|]. cbv beta. intros i' l' (-> & H1 & H2 & H3). split; auto. split; [lia|]. split; auto. intros k Hk. destruct (Nat.eq_dec k i) as [->|]; auto. apply H2. lia.
      + apply wp_ret. split; auto. split; [lia|]. split; auto. intros k. lia.
    - apply wp_ret. split; auto. split; [lia|]. split; [intros k; lia|lia].
  Qed.
  Lemma down_ok (tb : nat -> bool) test i l : 0 < i -> forall fuel j, (forall k, i <= k <= j -> test k l = Some (tb k, l)) -> i <= j + 1 -> j + 1 < i + fuel ->
    wp (down fuel i j test) l (fun j' l' => l' = l /\ j' <= j /\ i <= j' + 1 /\ (forall k, j' < k <= j -> tb k = true) /\ (i <= j' -> tb j' = false)).
  Proof.
    intros H0. induction fuel as [|fuel IH]; intros j Ht Hi Hf; [lia|]. cbn [down]. destruct (Nat.leb_spec i j).
    - apply wp_bind. unfold wp at 1. rewrite Ht by lia. destruct (tb j) eqn:E.
      + eapply wp_mono; [apply IH; [intros k Hk; apply Ht; lia|lia|lia]|]. cbv beta. intros j' l' (-> & H1 & H2 & H3 & H4). split; auto. split; [lia|]. split; [lia|]. split; auto.
        intros k Hk. destruct (Nat.eq_dec k j) as [->|]; auto. apply H3. lia.
      + apply wp_ret. split; auto. split; [lia|]. split; [lia|]. split; auto. intros k. lia.
    - apply wp_ret. split; auto. split; [lia|]. split; [lia|]. split; [intros k; lia|lia].
  Qed.
  (* the tests of the loops are f and not f of the pivot, which is at a, and an element *)
  Definition tests a (f : A -> A -> bool) (ti tj : nat -> M bool) : Prop :=
    forall l k, a < length l -> k < length l -> ti k l = Some (f (get l a) (get l k), l) /\ tj k l = Some (negb (f (get l a) (get l k)), l).
  Lemma part_loop_ok a b f ti tj : tests a f ti tj -> forall fuel i j l, b <= length l -> a < i -> i <= j + 1 -> j < b -> j + 1 < i + fuel ->
    (forall k, a < k < i -> f (get l a) (get l k) = true) -> (forall k, j < k < b -> f (get l a) (get l k) = false) ->
    wp (part_loop fuel i j ti tj) l (fun r l' => let (i', j') := r in frame (a + 1) b l l' /\ i' = j' + 1 /\ a <= j' < b /\
      (forall k, a < k < i' -> f (get l a) (get l' k) = true) /\ (forall k, j' < k < b -> f (get l a) (get l' k) = false)).
  Proof.
    intros Ht. induction fuel as [|fuel IH]; intros i j l Hb Ha Hij Hj Hf H1 H2; [lia|]. cbn [part_loop]. apply wp_bind.
    eapply wp_mono; [apply (up_ok (fun k => f (get l a) (get l k))); [intros k Hk; apply Ht; lia|lia|lia]|]. cbv beta. intros i1 l0 (-> & U1 & U2 & U3). apply wp_bind.
    eapply wp_mono; [apply (down_ok (fun k => negb (f (get l a) (get l k)))); [lia|intros k Hk; apply Ht; lia|lia|lia]|]. cbv beta. intros j1 l0 (-> & D1 & D2 & D3 & D4).
    assert (H1' : forall k, a < k < i1 -> f (get l a) (get l k) = true) by (intros k Hk; destruct (le_lt_dec i k); [apply U2; lia|apply H1; lia]).
    assert (H2' : forall k, j1 < k < b -> f (get l a) (get l k) = false).
    { intros k Hk. destruct (le_lt_dec k j); [|apply H2; lia]. specialize (D3 k ltac:(lia)). now destruct (f (get l a) (get l k)). }
    destruct (Nat.ltb_spec j1 i1).
    - apply wp_ret. split; [apply frame_refl|]. split; [lia|]. split; [lia|]. split; auto.
    - assert (V1 := U3 ltac:(lia)). assert (V2 := D4 ltac:(lia)). apply negb_false_iff in V2. assert (i1 <> j1) by (intros ->; congruence).
      apply wp_bind, wp_swap; try lia. assert (Fs : frame (a + 1) b l (swp l i1 j1)) by (apply frame_swp; lia).
      assert (Ea : get (swp l i1 j1) a = get l a) by (apply (frame_out _ _ _ _ a Fs); lia). rewrite <- Ea.
      eapply wp_mono; [apply (IH (i1 + 1) (j1 - 1) (swp l i1 j1)); rewrite ?swp_length; try lia; rewrite Ea|].
      + intros k Hk. swps; auto. apply H1'. lia.
      + intros k Hk. swps; auto. apply H2'. lia.
      + cbv beta. intros [i' j'] l' (F & R). split; [eapply frame_trans; eauto|exact R].
  Qed.
  Lemma partition_ok a b pivot l : a <= pivot < b -> b <= length l -> wp (partition lt a b pivot) l (fun r l' => frame a b l l' /\ a <= fst r < b /\
    (forall k, a <= k < fst r -> lt (get l' k) (get l' (fst r)) = true) /\ (forall k, fst r < k < b -> lt (get l' k) (get l' (fst r)) = false)).
  Proof.
    intros Hp Hb. unfold partition. cbv zeta. apply wp_bind, wp_swap; try lia. assert (F0 : frame a b l (swp l a pivot)) by (apply frame_swp; lia).
    assert (L := swp_length l a pivot). set (l0 := swp l a pivot) in *. clearbody l0.
    assert (Ht : tests a (fun p x => lt x p) (fun i => Less lt i a) (fun j => Not (Less lt j a))).
    { intros l1 k Hk1 Hk2. unfold Not, bind, Less. rewrite (nth_error_nth' l1 d Hk1), (nth_error_nth' l1 d Hk2). auto. }
    apply wp_bind. eapply wp_mono; [apply (up_ok (fun k => lt (get l0 k) (get l0 a))); [intros k Hk; apply (Ht l0 k); lia|lia|lia]|]. cbv beta. intros i1 lx (-> & U1 & U2 & U3). apply wp_bind.
    eapply wp_mono; [apply (down_ok (fun k => negb (lt (get l0 k) (get l0 a)))); [lia|intros k Hk; apply (Ht l0 k); lia|lia|lia]|]. cbv beta. intros j1 lx (-> & D1 & D2 & D3 & D4).
    assert (Fin : forall l1 j, b <= length l1 -> frame a b l l1 -> a <= j < b -> (forall k, a < k <= j -> lt (get l1 k) (get l1 a) = true) -> (forall k, j < k < b -> lt (get l1 k) (get l1 a) = false) ->
      frame a b l (swp l1 j a) /\ a <= j < b /\ (forall k, a <= k < j -> lt (get (swp l1 j a) k) (get (swp l1 j a) j) = true) /\ (forall k, j < k < b -> lt (get (swp l1 j a) k) (get (swp l1 j a) j) = false)).
    { intros l1 j Hl1 F Hj E1 E2. split; [apply (frame_trans _ _ _ l1); auto; apply frame_swp; lia|]. split; auto.
      assert (Ej : get (swp l1 j a) j = get l1 a) by (swps; reflexivity). rewrite Ej. split; intros k Hk.
      - swps; [apply E1; lia|apply E1; lia].
      - swps. apply E2. lia. }
    destruct (Nat.ltb_spec j1 i1).
    - apply wp_bind, wp_swap; try lia. apply wp_ret. cbn [fst]. apply Fin; auto; try lia.
      + intros k Hk. apply U2. lia.
      + intros k Hk. specialize (D3 k ltac:(lia)). now destruct (lt (get l0 k) (get l0 a)).
    - assert (V1 := U3 ltac:(lia)). assert (V2 := D4 ltac:(lia)). apply negb_false_iff in V2. assert (i1 <> j1) by (intros ->; congruence).
      apply wp_bind, wp_swap; try lia. assert (Fs : frame a b l0 (swp l0 i1 j1)) by (apply frame_swp; lia).
      assert (Ea : get (swp l0 i1 j1) a = get l0 a) by (swps; reflexivity). assert (L1 := swp_length l0 i1 j1).
      apply wp_bind. eapply wp_mono; [apply (part_loop_ok a b _ _ _ Ht); try lia; rewrite Ea|].
      + intros k Hk. swps; auto. apply U2. lia.
      + intros k Hk. swps; auto. specialize (D3 k ltac:(lia)). now destruct (lt (get l0 k) (get l0 a)).
      + cbv beta. intros [i2 j2] l2 (F2 & -> & Hj2 & E1 & E2). assert (L2 := frame_len _ _ _ _ F2). cbn [snd]. apply wp_bind, wp_swap; try lia. apply wp_ret. cbn [fst].
        assert (Ea2 : get l2 a = get l0 a) by (rewrite (frame_out _ _ _ _ a F2) by lia; exact Ea).
        apply Fin; auto; try lia; try (intros k Hk; rewrite Ea2, <- Ea; first [apply E1|apply E2]; lia).
        apply (frame_trans _ _ _ l0); auto. apply (frame_trans _ _ _ (swp l0 i1 j1)); auto. eapply frame_widen; [| |exact F2]; lia.
  Qed.
  Lemma partitionEqual_ok a b pivot l : a <= pivot < b -> b <= length l -> wp (partitionEqual lt a b pivot) l (fun mid l' => frame a b l l' /\ a < mid <= b /\ get l' a = get l pivot /\
    (forall k, a < k < mid -> lt (get l' a) (get l' k) = false)).
  Proof.
    intros Hp Hb. unfold partitionEqual. apply wp_bind, wp_swap; try lia. assert (F0 : frame a b l (swp l a pivot)) by (apply frame_swp; lia). assert (L := swp_length l a pivot).
    assert (E0 : get (swp l a pivot) a = get l pivot) by (swps; reflexivity).
    set (l0 := swp l a pivot) in *. clearbody l0.
    assert (Ht : tests a (fun p x => negb (lt p x)) (fun i => Not (Less lt a i)) (fun j => Less lt a j)).
    { intros l1 k Hk1 Hk2. unfold Not, bind, Less. rewrite (nth_error_nth' l1 d Hk1), (nth_error_nth' l1 d Hk2). rewrite negb_involutive. auto. }
    apply wp_bind. eapply wp_mono; [apply (part_loop_ok a b _ _ _ Ht); try lia|].
    cbv beta. intros [i2 j2] l2 (F2 & -> & Hj2 & E1 & E2). apply wp_ret. cbn [fst]. assert (Ea : get l2 a = get l0 a) by (apply (frame_out _ _ _ _ a F2); lia).
    split; [apply (frame_trans _ _ _ l0); auto; eapply frame_widen; [| |exact F2]; lia|]. split; [lia|]. split; [congruence|]. intros k Hk. rewrite Ea. specialize (E1 k Hk). now apply negb_true_iff in E1.
  Qed.

  (* ---- the rest of pdqsort ---- *)
  Lemma wp_if {X} (H : Prop) (m : M X) l (P Q : X -> list A -> Prop) : wp m l P -> (H -> wp m l Q) -> wp m l (fun x l' => P x l' /\ (H -> Q x l')).
  Proof. unfold wp. destruct (m l) as [[x l']|]; auto. Qed.
  Lemma shift_right_ok b : forall fuel j l, 0 < j <= b -> b <= length l -> b < j + fuel -> wp (shift_right lt fuel j b) l (fun _ l' => frame (j - 1) b l l').
  Proof.
    induction fuel as [|fuel IH]; intros j l Hj Hb Hf; [lia|]. cbn [shift_right]. destruct (Nat.ltb_spec j b); [|apply wp_ret, frame_refl].
    apply wp_bind, wp_less; try lia. destruct (lt (get l j) (get l (j - 1))); [|apply wp_ret, frame_refl]. apply wp_bind, wp_swap; try lia.
    eapply wp_mono; [apply IH; rewrite ?swp_length; lia|]. cbv beta. intros _ l' F. apply (frame_trans _ _ _ (swp l j (j - 1))); [apply frame_swp; lia|]. eapply frame_widen; [| |exact F]; lia.
  Qed.
  Lemma srt_more a i j l : SW -> a < i -> srt a i l -> (forall k, i <= k < j -> le (get l (k - 1)) (get l k)) -> srt a j l.
  Proof.
    intros (S1 & S2 & S3) Ha Hs H. induction j as [|j IH]; [intros p q; lia|]. destruct (le_lt_dec (S j) i); [intros p q H1 H2 H3; apply Hs; lia|].
    assert (Hj : srt a j l) by (apply IH; intros k Hk; apply H; lia). intros p q H1 H2 H3. destruct (Nat.eq_dec q j) as [->|]; [|apply Hj; lia].
    assert (L := H j ltac:(lia)). destruct (Nat.eq_dec p (j - 1)) as [->|]; auto. apply S2 with (get l (j - 1)); auto. apply Hj; lia.
  Qed.
  Lemma partial_ok a b : forall n i l, a < i <= b -> b <= length l -> wp (partial_rounds lt n i a b) l (fun r l' => frame 0 b l l' /\
    (SW /\ lb a b l /\ srt a i l -> frame a b l l' /\ (r = true -> srt a b l'))).
  Proof.
    induction n as [|n IH]; intros i l Hi Hb; cbn [partial_rounds].
    { apply wp_ret. split; [apply frame_refl|]. intros _. split; [apply frame_refl|discriminate]. }
    apply wp_bind. eapply wp_mono; [apply (up_ok (fun k => negb (lt (get l k) (get l (k - 1)))))|].
    { intros k Hk. unfold Not, bind, Less. rewrite (nth_error_nth' l d (n := k)), (nth_error_nth' l d (n := k - 1)) by lia. reflexivity. }
    { lia. } { lia. }
    cbv beta. intros i1 l0 (-> & U1 & U2 & U3).
    assert (Hs : SW /\ lb a b l /\ srt a i l -> srt a i1 l).
    { intros (HS & _ & H). apply (srt_more a i i1 l HS); auto; [lia|]. intros k Hk. apply negb_true_iff. apply U2. lia. }
    destruct (Nat.eqb_spec i1 b) as [->|Nb].
    { apply wp_ret. split; [apply frame_refl|]. intros H. split; [apply frame_refl|]. intros _. now apply Hs. }
    destruct (b - a <? 50). { apply wp_ret. split; [apply frame_refl|]. intros _. split; [apply frame_refl|discriminate]. }
    apply wp_bind, wp_swap; try lia. assert (F1 : frame a b l (swp l i1 (i1 - 1))) by (apply frame_swp; lia). assert (L1 := swp_length l i1 (i1 - 1)). set (l1 := swp l i1 (i1 - 1)) in *.
    apply wp_bind. eapply wp_mono.
    { apply (wp_if (SW /\ lb a b l /\ srt a i l) _ l1 (fun _ l2 => frame 0 b l1 l2) (fun _ l2 => frame a b l1 l2 /\ srt a i1 l2)).
      - destruct (2 <=? i1 - a); [|apply wp_ret, frame_refl]. eapply wp_mono; [apply ins_any; lia|]. cbv beta. intros _ l2 F. eapply frame_widen; [| |exact F]; lia.
      - intros H. destruct (Nat.leb_spec 2 (i1 - a)).
        + eapply wp_mono; [apply (ins_sorted 0 a i1); try lia|].
          * apply H.
          * intros p q Hp Hpq Hq N1 N2. unfold l1. swps. apply Hs; auto.
          * intros Ha. assert (Lb : lb a b l1) by (apply (lb_frame a b l); auto; apply H). intros Hp k Hk. apply Lb; lia.
          * cbv beta. intros _ l2 (F & S2). split; auto. eapply frame_widen; [| |exact F]; lia.
        + apply wp_ret. split; [apply frame_refl|]. intros p q. lia. }
    cbv beta. intros _ l2 (F2 & G2). assert (L2 := frame_len _ _ _ _ F2). apply wp_bind.
    apply (wp_mono _ l2 (fun _ l3 => frame i1 b l2 l3)).
    { destruct (2 <=? b - i1); [|apply wp_ret, frame_refl]. eapply wp_mono; [apply shift_right_ok; lia|]. cbv beta. intros _ l3 F. eapply frame_widen; [| |exact F]; lia. }
    intros _ l3 F3. assert (L3 := frame_len _ _ _ _ F3). eapply wp_mono; [apply (IH i1 l3); lia|]. cbv beta. intros r l4 (F4 & G4). split.
    { apply (frame_trans _ _ _ l3); auto. apply (frame_trans _ _ _ l2); [|eapply frame_widen; [| |exact F3]; lia]. apply (frame_trans _ _ _ l1); auto. eapply frame_widen; [| |exact F1]; lia. }
    intros H. destruct (G2 H) as (F2' & S2). assert (F13 : frame a b l l3).
    { apply (frame_trans _ _ _ l2); [|eapply frame_widen; [| |exact F3]; lia]. apply (frame_trans _ _ _ l1); auto. }
    destruct G4 as (F4' & S4).
    - split; [apply H|]. split; [apply (lb_frame a b l); auto; apply H|]. intros p q Hp Hpq Hq. rewrite !(frame_out _ _ _ _ _ F3) by lia. apply S2; lia.
    - split; auto. apply (frame_trans _ _ _ l3); auto.
  Qed.
  Lemma break_ok a b l : 12 < b - a -> b <= length l -> wp (breakPatterns rnd a b) l (fun _ l' => frame a b l l').
  Proof.
    intros Hl Hb. unfold breakPatterns. cbv zeta. destruct (8 <=? b - a); [|apply wp_ret, frame_refl].
    eapply wp_mono; [apply (for_up_inv (fun _ l' => frame a b l l')); [apply frame_refl|]|cbv beta; auto].
    intros i l1 Hi F. assert (L := frame_len _ _ _ _ F). assert (D := Nat.div_mod (b - a) 4 ltac:(lia)). assert (D2 := Nat.mod_upper_bound (b - a) 4 ltac:(lia)).
    set (o := rnd (b - a) i mod 2 ^ S (Nat.log2 (b - a))). assert (Ho : o < 2 * (b - a)).
    { assert (Hp := Nat.log2_spec (b - a) ltac:(lia)). assert (o < 2 ^ S (Nat.log2 (b - a))) by (apply Nat.mod_upper_bound, Nat.pow_nonzero; lia). cbn [Nat.pow] in *. lia. }
    assert (Hx : (if b - a <=? o then o - (b - a) else o) < b - a) by (destruct (Nat.leb_spec (b - a) o); lia). set (x := if b - a <=? o then o - (b - a) else o) in *. clearbody x.
    apply wp_swap; try lia. apply (frame_trans _ _ _ l1); auto. apply frame_swp; lia.
  Qed.
  Lemma reverse_ok a b : forall fuel i j l, a <= i -> j < b -> b <= length l -> 0 < fuel -> j < i + fuel -> wp (reverse_loop fuel i j) l (fun _ l' => frame a b l l').
  Proof.
    induction fuel as [|fuel IH]; intros i j l Hi Hj Hb Hf Hf2; [lia|]. cbn [reverse_loop]. destruct (Nat.ltb_spec i j); [|apply wp_ret, frame_refl].
    apply wp_bind, wp_swap; try lia. eapply wp_mono; [apply IH; rewrite ?swp_length; lia|]. cbv beta. intros _ l' F. apply (frame_trans _ _ _ (swp l i j)); auto. apply frame_swp; lia.
  Qed.
  Lemma median_ok a b c s l : a < length l -> b < length l -> c < length l -> wp (median lt a b c s) l (fun r l' => l' = l /\ (fst r = a \/ fst r = b \/ fst r = c)).
  Proof.
    intros Ha Hb Hc. assert (O : forall x y s (Q : nat * nat * nat -> list A -> Prop), x < length l -> y < length l -> (forall s', Q (x, y, s') l) -> (forall s', Q (y, x, s') l) -> wp (order2 lt x y s) l Q).
    { intros x y s' Q Hx Hy H1 H2. unfold order2. apply wp_bind, wp_less; auto. apply wp_ret. destruct (lt (get l y) (get l x)); auto. }
    unfold median. apply wp_bind. apply O; auto; intros s1; apply wp_bind; apply O; auto; intros s2; apply wp_bind; apply O; auto; intros s3; apply wp_ret; cbn; auto.
  Qed.
  Lemma choose_ok a b l : 12 < b - a -> b <= length l -> wp (choosePivot lt a b) l (fun r l' => l' = l /\ a <= fst r < b).
  Proof.
    intros Hl Hb. unfold choosePivot. cbv zeta. assert (D := Nat.div_mod (b - a) 4 ltac:(lia)). assert (D2 := Nat.mod_upper_bound (b - a) 4 ltac:(lia)). set (q := (b - a) / 4) in *. clearbody q.
    destruct (Nat.leb_spec 8 (b - a)); [|lia]. apply wp_bind.
    apply (wp_mono _ l (fun r l' => l' = l /\ a <= fst r < b)); [|intros r l' (-> & H'); apply wp_ret; auto]. apply wp_bind.
    apply (wp_mono _ l (fun r l' => l' = l /\ let '(i, j, k, _) := r in (a <= i < b) /\ (a <= j < b) /\ a <= k < b)).
    - destruct (Nat.leb_spec 50 (b - a)).
      + apply wp_bind. eapply wp_mono; [apply median_ok; lia|]. cbv beta. intros [i s1] lx (-> & H1). cbn [fst] in H1.
        apply wp_bind. eapply wp_mono; [apply median_ok; lia|]. cbv beta. intros [j s2] lx (-> & H2). cbn [fst] in H2.
        apply wp_bind. eapply wp_mono; [apply median_ok; lia|]. cbv beta. intros [k s3] lx (-> & H3). cbn [fst] in H3. apply wp_ret. split; auto. lia.
      + apply wp_ret. split; auto. lia.
    - intros [[[i j] k] s] lx (-> & H1 & H2 & H3). eapply wp_mono; [apply median_ok; lia|]. cbv beta. intros r l' (-> & Hr). split; auto. lia.
  Qed.
  Lemma join a b mid l : SW -> srt a mid l -> srt (mid + 1) b l -> (forall k, a <= k < mid -> le (get l k) (get l mid)) -> (forall k, mid < k < b -> le (get l mid) (get l k)) -> srt a b l.
  Proof.
    intros (S1 & S2 & S3) H1 H2 H3 H4 p q Hp Hpq Hq. destruct (lt_eq_lt_dec p mid) as [[Hm| ->]|Hm]; [|apply H4; lia|apply H2; lia].
    destruct (lt_eq_lt_dec q mid) as [[Hn| ->]|Hn]; [apply H1; lia|apply H3; lia|]. apply S2 with (get l mid); [apply H3; lia|apply H4; lia].
  Qed.
  Lemma pdq_ok : forall fuel a b limit wb wpd l, a <= b -> b <= length l -> b - a < fuel -> wp (pdqsort lt rnd fuel a b limit wb wpd) l (fun _ l' => Permutation l l' /\
    (SW -> lb a b l -> frame a b l l' /\ srt a b l')).
  Proof.
    induction fuel as [|fuel IH]; intros a b limit wb wpd l Hab Hb Hf; [lia|]. cbn [pdqsort]. cbv zeta. destruct (Nat.leb_spec (b - a) 12) as [Hl|Hl].
    { eapply wp_mono; [apply insertion_ok; auto|]. cbv beta. intros _ l' (F & H). split; [apply F|]. intros HS _. split; auto. }
    destruct (limit =? 0).
    { eapply wp_mono; [apply heapSort_ok; auto; lia|]. cbv beta. intros _ l' (F & H). split; [apply F|]. intros HS _. split; auto. }
    apply wp_bind. apply (wp_mono _ l (fun _ l1 => frame a b l l1)); [destruct wb; [apply wp_ret, frame_refl|apply break_ok; auto]|]. intros _ l1 F1. assert (L1 := frame_len _ _ _ _ F1).
    apply wp_bind. eapply wp_mono; [apply choose_ok; lia|]. cbv beta. intros [pivot h] lx (-> & Hp). cbn [fst] in Hp. apply wp_bind.
    apply (wp_mono _ l1 (fun r l2 => frame a b l1 l2 /\ a <= fst r < b)).
    { destruct h; try (apply wp_ret; split; [apply frame_refl|exact Hp]). apply wp_bind. eapply wp_mono; [apply (reverse_ok a b); lia|]. cbv beta. intros _ l2 F. apply wp_ret. split; auto. cbn [fst]. lia. }
    clear pivot h Hp. intros [pivot h] l2 (F2 & Hp). cbn [fst] in Hp. assert (L2 := frame_len _ _ _ _ F2). assert (F12 : frame a b l l2) by (eapply frame_trans; eauto). clear F1 F2. apply wp_bind.
    apply (wp_mono _ l2 (fun r l3 => frame 0 b l2 l3 /\ (SW -> lb a b l2 -> frame a b l2 l3 /\ (r = true -> srt a b l3)))).
    { destruct h; try (apply wp_ret; split; [apply frame_refl|]; intros _ _; split; [apply frame_refl|discriminate]).
      destruct (wb && wpd); [|apply wp_ret; split; [apply frame_refl|]; intros _ _; split; [apply frame_refl|discriminate]].
      eapply wp_mono; [apply (partial_ok a b 5 (a + 1) l2); lia|]. cbv beta. intros r l3 (F & G). split; auto. intros HS HL. apply G. split; auto. split; auto. intros p q. lia. }
    intros done l3 (F3 & G3). assert (L3 := frame_len _ _ _ _ F3).
    assert (P3 : Permutation l l3) by (transitivity l2; [apply F12|apply F3]).
    assert (G : SW -> lb a b l -> frame a b l l3 /\ lb a b l3 /\ (done = true -> srt a b l3)).
    { intros HS HL. assert (HL2 : lb a b l2) by (apply (lb_frame a b l); auto). destruct (G3 HS HL2) as [G4 G5]. assert (frame a b l l3) by (eapply frame_trans; eauto). split; auto. split; auto. apply (lb_frame a b l); auto. }
    clear G3 F3 F12. destruct done.
    { apply wp_ret. split; auto. intros HS HL. destruct (G HS HL) as (G1 & G2 & G3). auto. }
    apply wp_bind. apply (wp_mono _ l3 (fun r lx => lx = l3 /\ (r = true -> 0 < a /\ lt (get l3 (a - 1)) (get l3 pivot) = false))).
    { destruct (Nat.ltb_spec 0 a); [|apply wp_ret; split; auto; discriminate]. unfold Not. apply wp_bind, wp_less; try lia. apply wp_ret. split; auto. intros E. split; auto. now apply negb_true_iff in E. }
    intros eq lx (-> & He). destruct eq.
    - destruct (He eq_refl) as [Ha Hle]. apply wp_bind. eapply wp_mono; [apply partitionEqual_ok; lia|]. cbv beta. intros mid l4 (F4 & Hm & E4 & H4). assert (L4 := frame_len _ _ _ _ F4).
      eapply wp_mono; [apply (IH mid b); lia|]. cbv beta. intros _ l5 (P5 & G5). split; [transitivity l3; auto; transitivity l4; auto; apply F4|]. intros HS HL.
      destruct (G HS HL) as (F3 & HL3 & _). assert (HL4 : lb a b l4) by (apply (lb_frame a b l3); auto). assert (HS' := HS). destruct HS as (S1 & S2 & S3).
      assert (Q : forall k q, a <= k < mid -> a <= q < b -> le (get l4 k) (get l4 q)).
      { intros k q Hk Hq. apply S2 with (get l4 a). { destruct (Nat.eq_dec k a) as [->|]; [apply S1|]. apply H4. lia. }
        apply S2 with (get l4 (a - 1)); [|apply HL4; auto]. rewrite E4, (frame_out _ _ _ _ (a - 1) F4) by lia. exact Hle. }
      destruct (G5 HS') as (F5 & S5). { intros _ k Hk. apply Q; lia. }
      split. { apply (frame_trans _ _ _ l3); auto. apply (frame_trans _ _ _ l4); auto. eapply frame_widen; [| |exact F5]; lia. }
      intros p q Hp1 Hpq Hq. destruct (le_lt_dec mid p); [apply S5; lia|]. rewrite (frame_out _ _ _ _ p F5) by lia.
      assert (F5' : frame a b l4 l5) by (eapply frame_widen; [| |exact F5]; lia). apply (frame_all a b l4 l5 (fun x => le (get l4 p) x) F5'); [|lia]. intros k Hk. apply Q; lia.
    - apply wp_bind. eapply wp_mono; [apply partition_ok; lia|]. cbv beta. intros [mid already] l4 (F4 & Hm & H4 & H4'). cbn [fst] in *. assert (L4 := frame_len _ _ _ _ F4).
      destruct (mid - a <? b - mid); apply wp_bind.
      + eapply wp_mono; [apply (IH a mid); lia|]. cbv beta. intros _ l5 (P5 & G5). assert (L5 := Permutation_length P5).
        eapply wp_mono; [apply (IH (mid + 1) b); lia|]. cbv beta. intros _ l6 (P6 & G6). split; [transitivity l3; auto; transitivity l4; [apply F4|]; transitivity l5; auto|]. intros HS HL.
        destruct (G HS HL) as (F3 & HL3 & _). assert (HL4 : lb a b l4) by (apply (lb_frame a b l3); auto). assert (HS' := HS). destruct HS as (S1 & S2 & S3).
        destruct (G5 HS') as (F5 & S5). { intros Ha k Hk. apply HL4; auto. lia. }
        destruct (G6 HS') as (F6 & S6). { intros _ k Hk. replace (mid + 1 - 1) with mid by lia. rewrite !(frame_out _ _ _ _ _ F5) by lia. apply H4'. lia. }
        split. { apply (frame_trans _ _ _ l3); auto. apply (frame_trans _ _ _ l4); auto. apply (frame_trans _ _ _ l5); [eapply frame_widen; [| |exact F5]|eapply frame_widen; [| |exact F6]]; lia. }
        assert (Em : get l6 mid = get l4 mid) by (rewrite (frame_out _ _ _ _ mid F6), (frame_out _ _ _ _ mid F5) by lia; reflexivity).
        apply (join a b mid l6 HS'); auto.
        * intros p q Hp1 Hpq Hq. rewrite !(frame_out _ _ _ _ _ F6) by lia. apply S5; lia.
        * intros k Hk. rewrite Em, (frame_out _ _ _ _ k F6) by lia. apply (frame_all a mid l4 l5 (fun x => le x (get l4 mid)) F5); [|lia]. intros k' Hk'. apply S3, H4. lia.
        * intros k Hk. rewrite Em. apply (frame_all (mid + 1) b l5 l6 (fun x => le (get l4 mid) x) F6); [|lia]. intros k' Hk'. rewrite (frame_out _ _ _ _ k' F5) by lia. apply H4'. lia.
      + eapply wp_mono; [apply (IH (mid + 1) b); lia|]. cbv beta. intros _ l5 (P5 & G5). assert (L5 := Permutation_length P5).
        eapply wp_mono; [apply (IH a mid); lia|]. cbv beta. intros _ l6 (P6 & G6). split; [transitivity l3; auto; transitivity l4; [apply F4|]; transitivity l5; auto|]. intros HS HL.
        destruct (G HS HL) as (F3 & HL3 & _). assert (HL4 : lb a b l4) by (apply (lb_frame a b l3); auto). assert (HS' := HS). destruct HS as (S1 & S2 & S3).
        destruct (G5 HS') as (F5 & S5). { intros _ k Hk. replace (mid + 1 - 1) with mid by lia. apply H4'. lia. }
        destruct (G6 HS') as (F6 & S6). { intros Ha k Hk. rewrite !(frame_out _ _ _ _ _ F5) by lia. apply HL4; auto. lia. }
        split. { apply (frame_trans _ _ _ l3); auto. apply (frame_trans _ _ _ l4); auto. apply (frame_trans _ _ _ l5); [eapply frame_widen; [| |exact F5]|eapply frame_widen; [| |exact F6]]; lia. }
        assert (Em : get l6 mid = get l4 mid) by (rewrite (frame_out _ _ _ _ mid F6), (frame_out _ _ _ _ mid F5) by lia; reflexivity).
        apply (join a b mid l6 HS'); auto.
        * intros p q Hp1 Hpq Hq. rewrite !(frame_out _ _ _ _ _ F6) by lia. apply S5; lia.
        * intros k Hk. rewrite Em. apply (frame_all a mid l5 l6 (fun x => le x (get l4 mid)) F6); [|lia]. intros k' Hk'. rewrite (frame_out _ _ _ _ k' F5) by lia. apply S3, H4. lia.
        * intros k Hk. rewrite Em, (frame_out _ _ _ _ k F6) by lia. apply (frame_all (mid + 1) b l4 l5 (fun x => le (get l4 mid) x) F5); [|lia]. intros k' Hk'. apply H4'. lia.
  Qed.
End Proofs.
