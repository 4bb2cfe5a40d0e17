From Coq Require Import Bool Ascii String Arith NArith ZArith List Lia.
From Verif Require Import Prelude PreludeFacts Utf8Model DecModel DurModel EncModel JsonModel MarModel MarProofs UfModel.
Import ListNotations.

(* ---- slices ---- *)
Lemma put_length {A} (l : list A) i x : length (put l i x) = length l.
Proof. revert i. induction l as [|y l IH]; intros [|i]; cbn; auto. Qed.
Lemma put_same {A} (l : list A) i x d : i < length l -> nth i (put l i x) d = x.
Proof. revert i. induction l as [|y l IH]; intros [|i] H; cbn in *; try lia; [reflexivity|]. apply IH. lia. Qed.
Lemma put_other {A} (l : list A) i j x d : i <> j -> nth j (put l i x) d = nth j l d.
Proof. revert i j. induction l as [|y l IH]; intros [|i] [|j] H; cbn; try reflexivity; [lia|]. apply IH. lia. Qed.
Lemma put_firstn {A} (l : list A) i x : i < length l -> firstn (S i) (put l i x) = firstn i l ++ [x].
Proof. revert i. induction l as [|y l IH]; intros [|i] H; cbn in *; try lia; [reflexivity|]. f_equal. apply IH. lia. Qed.
Lemma put_before {A} (l : list A) i x : firstn i (put l i x) = firstn i l.
Proof. revert i. induction l as [|y l IH]; intros [|i]; cbn; try reflexivity. f_equal. apply IH. Qed.

Section M.
  Context (grow : nat -> nat).
  Notation append := (append grow).
  (* the capacity of a path of this length *)
  Fixpoint capof (n : nat) : nat := match n with 0 => 0 | S m => if m <? capof m then capof m else Nat.max (S m) (grow m) end.
  Record sok (h : heap) (s : slice) : Prop := { k_arr : arr s < length h; k_len : len s <= capa h s; k_cap : capa h s = capof (len s) }.
  (* what is left alone *)
  Record frame (h h' : heap) (s : slice) : Prop := {
    fr_len : length h <= length h';
    fr_other : forall a, a < length h -> a <> arr s -> nth a h' [] = nth a h [];
    fr_size : capa h' s = capa h s;
    fr_own : read h' s = read h s }.
  Lemma frame_refl : forall h s, frame h h s.
  Proof. intros h s. constructor; auto. Qed.
  Lemma sok_frame : forall h h' s, sok h s -> frame h h' s -> sok h' s.
  Proof. intros h h' s [K1 K2 K3] [F1 F2 F3 F4]. constructor; [lia|rewrite F3; exact K2|rewrite F3; exact K3]. Qed.
  Lemma append_spec : forall h s x h' q, sok h s -> append h s x = (h', q) ->
    read h' q = read h s ++ [x] /\ sok h' q /\ frame h h' s /\ len q = S (len s) /\
    ((arr q = arr s /\ len s < capof (len s)) \/ (arr q = length h /\ capof (len s) = len s)).
  Proof.
    intros h s x h' q [K1 K2 K3] H. unfold append in H. destruct (len s <? capa h s) eqn:E.
    - apply Nat.ltb_lt in E. injection H as <- <-. set (a := nth (arr s) h []) in *.
      assert (R : nth (arr s) (put h (arr s) (put a (len s) x)) [] = put a (len s) x) by (apply put_same; exact K1).
      assert (L : len s < length a) by exact E.
      split; [unfold read; cbn [arr len]; rewrite R; apply put_firstn; exact L|]. split.
      { constructor; cbn [arr len]; unfold capa; cbn [arr]; rewrite ?put_length, ?R, ?put_length; [exact K1|lia|]. cbn [capof].
        assert (L2 : (len s <? capof (len s)) = true) by (apply Nat.ltb_lt; rewrite <- K3; exact E). rewrite L2. exact K3. }
      split.
      { constructor; [rewrite put_length; lia|intros b _ N; apply put_other; auto|unfold capa; rewrite R, put_length; reflexivity|unfold read; rewrite R; apply put_before]. }
      split; [reflexivity|]. left. split; [reflexivity|]. rewrite <- K3. exact E.
    - apply Nat.ltb_ge in E. injection H as <- <-. assert (C : capof (len s) = len s) by lia.
      set (b := read h s ++ x :: repeat PRoot (grow (len s) - S (len s))).
      assert (R : nth (length h) (h ++ [b]) [] = b) by (rewrite app_nth2, Nat.sub_diag by lia; reflexivity).
      assert (LR : length (read h s) = len s) by (unfold read; rewrite firstn_length; unfold capa in K2; lia).
      split.
      { unfold read at 1. cbn [arr len]. rewrite R. unfold b. rewrite firstn_app, LR. replace (S (len s) - len s) with 1 by lia. rewrite firstn_all2 by lia. reflexivity. }
      split.
      { constructor; cbn [arr len]; unfold capa; cbn [arr]; rewrite ?R; rewrite ?app_length; cbn [length]; [lia| |]; unfold b; rewrite app_length; cbn [length]; rewrite repeat_length, LR; [lia|].
        cbn [capof]. assert (L2 : (len s <? capof (len s)) = false) by (apply Nat.ltb_ge; lia). rewrite L2. lia. }
      split.
      { constructor; [rewrite app_length; lia|intros c L _; apply app_nth1; exact L| |]; unfold capa, read; rewrite app_nth1 by exact K1; reflexivity. }
      split; [reflexivity|]. right. auto.
  Qed.
  (* the calls whose path has an array of its own *)
  Definition full (c : mcall) : Prop := exists n, length (m_seen c) = S n /\ capof n = n.
  Definition kept (h h' : heap) (cs : list mcall) : Prop :=
    forall c, In c cs -> full c -> length h <= arr (m_path c) < length h' /\ read h' (m_path c) = m_seen c.
  Definition good (h : heap) (s : slice) (cs : list mcall) (h' : heap) : Prop := frame h h' s /\ kept h h' cs.
  Lemma good_nil : forall h s, good h s [] h.
  Proof. intros h s. split; [apply frame_refl|intros c []]. Qed.
  Lemma good_trans : forall h s cs h1 cs' h2, sok h s -> good h s cs h1 -> good h1 s cs' h2 -> good h s (cs ++ cs') h2.
  Proof.
    intros h s cs h1 cs' h2 K [F1 Q1] [F2 Q2]. destruct K as [K1 _ _]. destruct F1 as [A1 A2 A3 A4]. destruct F2 as [B1 B2 B3 B4]. split.
    - constructor; [lia| |congruence|congruence]. intros a L N. rewrite B2 by (auto; lia). apply A2; auto.
    - intros c I W. apply in_app_iff in I. destruct I as [I|I].
      + destruct (Q1 c I W) as [L E]. split; [lia|]. unfold read in *. rewrite B2 by lia. exact E.
      + destruct (Q2 c I W) as [L E]. split; [lia|exact E].
  Qed.
  Lemma good_sub : forall h s x h1 q cs h2, sok h s -> append h s x = (h1, q) -> good h1 q cs h2 -> good h s cs h2.
  Proof.
    intros h s x h1 q cs h2 K H [[B1 B2 B3 B4] Q]. destruct (append_spec _ _ _ _ _ K H) as (R & Kq & [A1 A2 A3 A4] & Lq & D). destruct K as [K1 K2 K3]. split.
    - constructor.
      + lia.
      + intros a L N. rewrite B2; [apply A2; auto|lia|]. destruct D as [[-> _]|[-> _]]; [exact N|lia].
      + rewrite <- A3. destruct D as [[E _]|[E _]].
        * unfold capa in *. rewrite <- E. exact B3.
        * unfold capa. rewrite B2 by lia. reflexivity.
      + rewrite <- A4. destruct D as [[E _]|[E _]].
        * unfold read in *. rewrite E in B4. apply (f_equal (firstn (len s))) in B4. rewrite !firstn_firstn in B4. rewrite Lq in B4. rewrite Nat.min_l in B4 by lia. exact B4.
        * unfold read. rewrite B2 by lia. reflexivity.
    - intros c I W. destruct (Q c I W) as [L E]. split; [lia|exact E].
  Qed.
  Lemma good_call : forall h s x h1 q n, sok h s -> append h s x = (h1, q) -> good h s [MC q (read h1 q) n] h1.
  Proof.
    intros h s x h1 q n K H. destruct (append_spec _ _ _ _ _ K H) as (R & Kq & F & Lq & D). split; [exact F|]. intros c [<-|[]] (k & Hk & Hc). cbn [m_path m_seen] in *.
    assert (LR : length (read h1 q) = len q) by (unfold read; rewrite firstn_length; pose proof (k_len _ _ Kq) as KL; unfold capa in KL; lia).
    assert (k = len s) by lia. subst k. destruct D as [[_ L]|[E _]]; [lia|]. split; [|reflexivity]. pose proof (k_arr _ _ Kq). lia.
  Qed.

  Context (f2i f2u : floatv -> Z).
  Context (uf : option (list pel -> node -> bool)).
  Notation munm := (munm grow f2i f2u uf).
  Notation unm := (unm f2i f2u uf).
  Definition strip (c : mcall) : call := (m_seen c, m_node c).
  (* the slices give what the paths give *)
  Definition refines (h : heap) (s : slice) (r : ures * list mcall * heap) (q : ures * list call) : Prop :=
    let '(u, cs, h') := r in q = (u, map strip cs) /\ good h s cs h'.
  Lemma elems_ok : forall (f : slice -> node -> heap -> ures * list mcall * heap) (g : list pel -> node -> ures * list call) s,
    (forall q n h, sok h q -> refines h q (f q n h) (g (read h q) n)) -> forall l i h, sok h s ->
    let '(e, cs, h') := munm_elems grow f s i l h in unm_elems g (read h s) i l = (e, map strip cs) /\ good h s cs h'.
  Proof.
    intros f g s H. induction l as [|n l IH]; intros i h K; cbn [munm_elems unm_elems]; [split; [reflexivity|apply good_nil]|].
    destruct (append h s (PIdx i)) as [h1 q] eqn:E. destruct (append_spec _ _ _ _ _ K E) as (R & Kq & F & _ & _). rewrite <- R. specialize (H q n h1 Kq). unfold refines in H.
    destruct (f q n h1) as [[u c] h2]. destruct H as [-> G]. apply (good_sub _ _ _ _ _ _ _ K E) in G. destruct u as [v|v|]; [|split; [reflexivity|exact G]|split; [reflexivity|exact G]].
    assert (K2 := sok_frame _ _ _ K (proj1 G)). specialize (IH (S i) h2 K2). destruct (munm_elems grow f s (S i) l h2) as [[e c'] h3]. destruct IH as [IH1 IH2].
    rewrite (fr_own _ _ _ (proj1 G)) in IH1. rewrite IH1, map_app. split; [reflexivity|]. exact (good_trans _ _ _ _ _ _ K G IH2).
  Qed.
  Lemma entries_ok : forall (f : slice -> node -> heap -> ures * list mcall * heap) (g : list pel -> node -> ures * list call) s k,
    (forall q n h, sok h q -> refines h q (f q n h) (g (read h q) n)) -> forall m acc h, sok h s ->
    let '(e, cs, h') := munm_entries grow k f s acc m h in unm_entries k g (read h s) acc m = (e, map strip cs) /\ good h s cs h'.
  Proof.
    intros f g s k H. induction m as [|[w n] m IH]; intros acc h K; cbn [munm_entries unm_entries]; [split; [reflexivity|apply good_nil]|].
    destruct (ukey k w) as [x|]; [|split; [reflexivity|apply good_nil]].
    destruct (append h s PVal) as [h1 q] eqn:E. destruct (append_spec _ _ _ _ _ K E) as (R & Kq & F & _ & _). rewrite <- R. specialize (H q n h1 Kq). unfold refines in H.
    destruct (f q n h1) as [[u c] h2]. destruct H as [-> G]. apply (good_sub _ _ _ _ _ _ _ K E) in G. destruct u as [v|v|]; [|split; [reflexivity|exact G]|split; [reflexivity|exact G]].
    assert (K2 := sok_frame _ _ _ K (proj1 G)). specialize (IH (kset acc x v) h2 K2). destruct (munm_entries grow k f s (kset acc x v) m h2) as [[e c'] h3]. destruct IH as [IH1 IH2].
    rewrite (fr_own _ _ _ (proj1 G)) in IH1. rewrite IH1, map_app. split; [reflexivity|]. exact (good_trans _ _ _ _ _ _ K G IH2).
  Qed.
  Lemma fields_ok : forall s m fs, (forall f t, In (f, t) fs -> forall q n v h, sok h q -> refines h q (munm t q n v h) (unm t (read h q) n v)) -> forall vs h, sok h s ->
    let '(e, r, cs, h') := munm_fields grow s m (map (fun f => (fst f, munm (snd f))) fs) vs h in
    unm_fields (read h s) m (map (fun f => (fst f, unm (snd f))) fs) vs = (e, r, map strip cs) /\ good h s cs h'.
  Proof.
    intros s m fs. induction fs as [|[f t] fs IH]; intros H vs h K; cbn [map munm_fields unm_fields fst snd]; [split; [reflexivity|apply good_nil]|].
    destruct vs as [|v vs]; [split; [reflexivity|apply good_nil]|]. specialize (IH (fun f t I => H f t (or_intror I))).
    assert (SKIP : forall w c h1, good h s c h1 ->
      let '(e, r, cs, h') := (let '(e, r, c', h') := munm_fields grow s m (map (fun f => (fst f, munm (snd f))) fs) vs h1 in (e, w :: r, c ++ c', h')) in
      (let '(e, r, c') := unm_fields (read h s) m (map (fun f => (fst f, unm (snd f))) fs) vs in (e, w :: r, map strip c ++ c')) = (e, r, map strip cs) /\ good h s cs h').
    { intros w c h1 G. assert (K2 := sok_frame _ _ _ K (proj1 G)). specialize (IH vs h1 K2). destruct (munm_fields grow s m _ vs h1) as [[[e r] c'] h']. destruct IH as [IH1 IH2].
      rewrite (fr_own _ _ _ (proj1 G)) in IH1. rewrite IH1, map_app. split; [reflexivity|]. exact (good_trans _ _ _ _ _ _ K G IH2). }
    destruct (f_exported f); [|exact (SKIP v [] h (good_nil h s))]. destruct (parseTag f) as [tg|]; [|split; [reflexivity|apply good_nil]].
    destruct (mget beqb m (g_json tg)) as [n|]; [|exact (SKIP v [] h (good_nil h s))].
    destruct (append h s (PName (f_name f))) as [h1 q] eqn:E. destruct (append_spec _ _ _ _ _ K E) as (R & Kq & F & _ & _). rewrite <- R.
    pose proof (H f t (or_introl eq_refl) q n v h1 Kq) as Hf. unfold refines in Hf. destruct (munm t q n v h1) as [[u c] h2]. destruct Hf as [-> G]. apply (good_sub _ _ _ _ _ _ _ K E) in G.
    destruct u as [w|w|]; [exact (SKIP w c h2 G)|split; [reflexivity|exact G]|split; [reflexivity|exact G]].
  Qed.
  Lemma unhandled_ok : forall g s names m h, sok h s ->
    let '(e, cs, h') := munhandled grow g s names m h in unhandled g (read h s) names m = (e, map strip cs) /\ good h s cs h'.
  Proof.
    intros g s names. induction m as [|[k n] m IH]; intros h K; cbn [munhandled unhandled]; [split; [reflexivity|apply good_nil]|].
    destruct (existsb (beqb k) names); [exact (IH h K)|]. destruct (append h s (PKey k)) as [h1 q] eqn:E. destruct (append_spec _ _ _ _ _ K E) as (R & Kq & F & _ & _). rewrite <- R.
    pose proof (good_call _ _ _ _ _ n K E) as G. destruct (g (read h1 q) n); [split; [reflexivity|exact G]|].
    assert (K2 := sok_frame _ _ _ K (proj1 G)). specialize (IH h1 K2). destruct (munhandled grow g s names m h1) as [[e c'] h3]. destruct IH as [IH1 IH2].
    rewrite (fr_own _ _ _ (proj1 G)) in IH1. rewrite IH1. split; [reflexivity|]. exact (good_trans _ _ [MC q (read h1 q) n] _ _ _ K G IH2).
  Qed.
  Lemma munm_ok : forall t s n old h, sok h s -> refines h s (munm t s n old h) (unm t (read h s) n old).
  Proof.
    assert (MAP : forall t k m s old h, (forall s n old h, sok h s -> refines h s (munm t s n old h) (unm t (read h s) n old)) -> sok h s ->
      refines h s (let '(e, c, h') := munm_entries grow k (fun p n h => munm t p n (zero t) h) s [] m h in (match e with EOk l => UOk (VMap l) | EErr => UErr old | EPanic => UPanic end, c, h'))
        (let (e, c) := unm_entries k (fun p n => unm t p n (zero t)) (read h s) [] m in (match e with EOk l => UOk (VMap l) | EErr => UErr old | EPanic => UPanic end, c))).
    { intros t k m s old h IH K. pose proof (entries_ok (fun p n h => munm t p n (zero t) h) (fun p n => unm t p n (zero t)) s k (fun q n h => IH q n (zero t) h) m [] h K) as H.
      destruct (munm_entries grow k _ s [] m h) as [[e c] h']. destruct H as [-> G]. split; [reflexivity|exact G]. }
    assert (LST : forall t l s old h, (forall s n old h, sok h s -> refines h s (munm t s n old h) (unm t (read h s) n old)) -> sok h s ->
      refines h s (let '(e, c, h') := munm_elems grow (fun p n h => munm t p n (zero t) h) s 0 l h in (match e with EOk vs => UOk (VList vs) | EErr => UErr old | EPanic => UPanic end, c, h'))
        (let (e, c) := unm_elems (fun p n => unm t p n (zero t)) (read h s) 0 l in (match e with EOk vs => UOk (VList vs) | EErr => UErr old | EPanic => UPanic end, c))).
    { intros t l s old h IH K. pose proof (elems_ok (fun p n h => munm t p n (zero t) h) (fun p n => unm t p n (zero t)) s (fun q n h => IH q n (zero t) h) l 0 h K) as H.
      destruct (munm_elems grow _ s 0 l h) as [[e c] h']. destruct H as [-> G]. split; [reflexivity|exact G]. }
    induction t as [ | w | w | | t IH | t IH | k t IH | k t IH | fs IH] using ty_nest; intros s n old h K.
    1-4: destruct n; (split; [reflexivity|apply good_nil]).
    - cbn [UfModel.munm MarModel.unm]. destruct n; try (split; [reflexivity|apply good_nil]);
        (match goal with |- context [munm t s ?x (zero t) h] => pose proof (IH s x (zero t) h K) as H; unfold refines in H; destruct (munm t s x (zero t) h) as [[u c] h']; destruct H as [-> G] end);
        (split; [destruct u; reflexivity|exact G]).
    - destruct n; try (split; [reflexivity|apply good_nil]). apply (LST t l s old h IH K).
    - destruct n; try (split; [reflexivity|apply good_nil]). cbn [UfModel.munm MarModel.unm]. destruct (length l =? k); [|split; [reflexivity|apply good_nil]]. apply (LST t l s old h IH K).
    - destruct n; try (split; [reflexivity|apply good_nil]); [apply (MAP t k l s old h IH K)|apply (MAP t k (AsMap l) s old h IH K)].
    - assert (ST : forall m, refines h s (match old with
        | VStruct vs => let '(e, vs', c, h') := munm_fields grow s m (map (fun f => (fst f, munm (snd f))) fs) vs h in
            match e with EOk _ => match uf with None => (UOk (VStruct vs'), c, h') | Some f => let '(bad, c', h'') := munhandled grow f s (seen (map fst fs)) m h' in
               (if bad then UErr (VStruct vs') else UOk (VStruct vs'), c ++ c', h'') end | EErr => (UErr (VStruct vs'), c, h') | EPanic => (UPanic, c, h') end
        | _ => (UErr old, [], h) end)
        (match old with
        | VStruct vs => let '(e, vs', c) := unm_fields (read h s) m (map (fun f => (fst f, unm (snd f))) fs) vs in
            match e with EOk _ => match uf with None => (UOk (VStruct vs'), c) | Some f => let (bad, c') := unhandled f (read h s) (seen (map fst fs)) m in
               (if bad then UErr (VStruct vs') else UOk (VStruct vs'), c ++ c') end | EErr => (UErr (VStruct vs'), c) | EPanic => (UPanic, c) end
        | _ => (UErr old, []) end)).
      { intros m. destruct old as [ | | | | | | |vs]; try (split; [reflexivity|apply good_nil]). pose proof (fields_ok s m fs IH vs h K) as H.
        destruct (munm_fields grow s m (map (fun f => (fst f, munm (snd f))) fs) vs h) as [[[e vs'] c] h']. destruct H as [-> G].
        destruct e; [|split; [reflexivity|exact G]|split; [reflexivity|exact G]]. destruct uf as [g|]; [|split; [reflexivity|exact G]].
        assert (K2 := sok_frame _ _ _ K (proj1 G)). pose proof (unhandled_ok g s (seen (map fst fs)) m h' K2) as H2. destruct (munhandled grow g s (seen (map fst fs)) m h') as [[bad c'] h''].
        destruct H2 as [H2 G2]. rewrite (fr_own _ _ _ (proj1 G)) in H2. rewrite H2. split; [rewrite map_app; reflexivity|]. exact (good_trans _ _ _ _ _ _ K G G2). }
      destruct n; try (split; [reflexivity|apply good_nil]); [exact (ST l)|exact (ST (AsMap l))].
  Qed.
  Lemma start_ok : forall h p, append [[]] (Sl 0 0) PRoot = (h, p) -> sok h p /\ read h p = [PRoot] /\ len p = 1.
  Proof.
    intros h p E. assert (K0 : sok [[]] (Sl 0 0)) by (constructor; cbn; auto). destruct (append_spec _ _ _ _ _ K0 E) as (R & K & _ & L & _). split; [exact K|]. split; [exact R|exact L].
  Qed.
End M.
(* with Go's growth: the capacities are powers of two *)
Lemma capof_double : forall n, n <= capof double n /\ (n = 0 \/ exists k, capof double n = 2 ^ k /\ 2 ^ k < 2 * n).
Proof.
  induction n as [|n [L IH]]; [split; auto|]. cbn [capof]. destruct (n <? capof double n) eqn:E.
  - apply Nat.ltb_lt in E. split; [lia|]. right. destruct IH as [->|(k & H1 & H2)]; [cbn in E; lia|]. exists k. split; [exact H1|lia].
  - apply Nat.ltb_ge in E. split; [apply Nat.le_max_l|]. right. destruct IH as [->|(k & H1 & H2)]; [exists 0; cbn; lia|]. exists (S k). unfold double. cbn [Nat.pow]. lia.
Qed.
Lemma pow2_between : forall j k n, 2 ^ j < 2 * n -> n <= 2 ^ j -> n = 2 ^ k -> j = k.
Proof.
  intros j k n H1 H2 ->. destruct (Nat.lt_trichotomy j k) as [L|[L|L]]; [|exact L|]; exfalso.
  - apply (Nat.pow_lt_mono_r 2) in L; lia.
  - assert (2 ^ (S k) <= 2 ^ j) by (apply Nat.pow_le_mono_r; lia). cbn [Nat.pow] in H. lia.
Qed.
Lemma capof_pow : forall k, capof double (2 ^ k) = 2 ^ k.
Proof.
  intros k. destruct (capof_double (2 ^ k)) as [L [H|(j & H1 & H2)]].
  - pose proof (Nat.pow_nonzero 2 k). lia.
  - rewrite H1 in *. rewrite (pow2_between j k (2 ^ k) H2 L eq_refl). reflexivity.
Qed.
