(* Proofs about whole calls through api.Client and api.Server. *)
From Coq Require Import Bool Ascii String Arith NArith ZArith Lia List Permutation.
From Verif Require Import Prelude PreludeFacts Utf8Model Utf8Facts DecModel DecFacts DurModel DurProofs EncModel JsonModel KvSpec JsonSpec JsonFacts KvProofs JsonProofs MarModel MarSpec MarFacts MarProofs MarStruct MarOrder ConfModel ConfSpec ConfProofs ApiModel ApiSpec ApiMar ApiProofs ApiRecv.
Import ListNotations.

(* ---- data that is carried over ---- *)
Lemma rel_map Q R (d d' : data) : harmless Q R -> NoDup (map fst d) -> R (NMap d) (NMap d') -> maps_rel R d d'.
Proof.
  intros HR Hnd H. apply (h_map _ _ HR) in H as (mm & m2 & E & Hp & Hf). injection E as ->. eapply perm_rel; eauto. apply ent_rel; auto.
  eapply Permutation_NoDup; [apply Permutation_map; eauto|auto].
Qed.
Lemma carried_get Q d d' k : carried Q d d' -> NoDup (map fst d) ->
  match mget beqb d k, mget beqb d' k with Some n, Some n' => reorder n n' \/ (Q /\ reads_as n n') | None, None => True | _, _ => False end.
Proof.
  intros [H|[q H]] Hnd; [apply (rel_map _ _ _ _ reorder_harmless Hnd) in H as [_ H]|apply (rel_map _ _ _ _ reads_harmless Hnd) in H as [_ H]]; specialize (H k);
    destruct (mget beqb d k), (mget beqb d' k); auto.
Qed.
Lemma carried_repr (Q : Prop) t v n n' : wfty t -> hasty t v -> (Q -> textual t v) -> repr t v n -> reorder n n' \/ (Q /\ reads_as n n') -> repr t v n'.
Proof.
  intros Hw Ht Hq Hr [H|[q H]]; [eapply repr_harmless; eauto using reorder_harmless; contradiction|eapply repr_harmless; eauto using reads_harmless].
Qed.

(* ---- what is sent ---- *)
Lemma nodup_snd {A} (l : list (nat * A)) : NoDup (map fst l) -> (forall i j x, In (i, x) l -> In (j, x) l -> i = j) -> NoDup (map snd l).
Proof.
  induction l as [|[i x] l IH]; cbn [map fst snd]; intros Hnd H; [constructor|]. inversion Hnd as [|? ? Hni Hnd']; subst. constructor.
  - intros Hi. apply in_map_iff in Hi as ([j y] & E & Hj). cbn in E. subst y. assert (i = j) by (eapply H; [now left|right; eauto]). subst j.
    apply Hni. now apply (in_map fst) in Hj.
  - apply IH; auto. intros a b y Ha Hb. eapply H; right; eauto.
Qed.
Lemma F2_in_l {A C} (R : A -> C -> Prop) l m x : Forall2 R l m -> In x l -> exists y, In y m /\ R x y.
Proof. induction 1 as [|a c l m H Hs IH]; intros Hi; [destruct Hi|]. destruct Hi as [<-|Hi]; [exists c; split; auto; now left|]. destruct (IH Hi) as (y & Y1 & Y2). exists y. split; auto. now right. Qed.
Lemma sent_get h obj l d : send h obj [] l = Ok d -> NoDup (map snd l) -> forall i name, In (i, name) l ->
  exists f v n, the_field h obj i = Some (f, v) /\ a_exported f = true /\ mar (a_type f) v = Ok n /\ mget beqb d name = Some n.
Proof.
  intros H Hnd i name Hi. apply send_ok in H as (es & Hes & ->). destruct (F2_in_l _ _ _ _ Hes Hi) as ([k n] & Hk & E & f & v & F1 & F2 & F3). cbn in E, F1, F3. subst k.
  exists f, v, n. repeat split; auto. rewrite last_of_fold. rewrite (last_of_nodup es name n); auto. now rewrite (sent_keys _ _ _ _ Hes).
Qed.
Lemma sent_nodup h obj l d : send h obj [] l = Ok d -> NoDup (map fst d).
Proof. intros H. apply send_ok in H as (es & _ & ->). apply fold_mset_nodup'. constructor. Qed.
Lemma send_defined h obj l : (forall i name, In (i, name) l -> exists f v, the_field h obj i = Some (f, v) /\ a_exported f = true /\ wfty (a_type f) /\ hasty (a_type f) v) ->
  forall d, exists d', send h obj d l = Ok d'.
Proof.
  induction l as [|[i name] l IH]; intros H d; cbn [send]; [eauto|]. destruct (H i name (or_introl eq_refl)) as (f & v & E & Ee & Hw & Ht). rewrite E. unfold put. rewrite Ee.
  destruct (mar_repr _ _ Hw Ht) as (n & -> & _). cbn [rbind]. apply IH. intros j nm Hj. apply (H j nm). now right.
Qed.
Lemma client_recv_in f2i f2u h d l : forall obj, length obj = length (h_fields h) -> (forall i name, In (i, name) l -> i < length (h_fields h)) ->
  client_recv f2i f2u h d obj l = recv_in f2i f2u h d obj (map (fun x => (x, false)) l).
Proof.
  induction l as [|[i name] l IH]; intros obj Hl Hi; cbn [client_recv recv_in map]; auto.
  destruct (match mget beqb d name with Some n => into f2i f2u h obj i n | None => ROk obj end) as [o| |] eqn:E; auto.
  assert (Ho : length o = length obj).
  { destruct (mget beqb d name) as [n|]; [|now injection E as ->]. unfold into in E. destruct (the_field h obj i) as [[f v]|]; [|discriminate]. destruct (a_exported f); [|discriminate].
    destruct (fst _); try discriminate. injection E as <-. apply PreludeFacts.upd_length. }
  destruct (nth_error_lt (h_fields h) i) as (f & Ef); [apply (Hi i name); now left|]. destruct (nth_error_lt o i) as (v & Ev); [rewrite Ho, Hl; apply (Hi i name); now left|].
  rewrite (field_at _ _ _ _ _ Ef Ev). cbn [andb]. apply IH; [congruence|]. intros j nm Hj. apply (Hi j nm). now right.
Qed.

(* ---- text ---- *)
Lemma by_json_carries short h obj l d : send h obj [] l = Ok d ->
  (forall i name f v, In (i, name) l -> the_field h obj i = Some (f, v) -> hasty (a_type f) v /\ textual (a_type f) v /\ (N.of_nat (tdepth (a_type f)) < 10000)%N /\ valid_utf8 name = true) ->
  exists d', by_json short d = Some d' /\ reads_as (NMap d) (NMap d').
Proof.
  intros H Hl. pose proof (sent_nodup _ _ _ _ H) as Hnd. apply send_ok in H as (es & Hes & ->).
  assert (Hall : Forall (fun e => valid_utf8 (fst e) = true /\ good_node (snd e) /\ (N.of_nat (ndepth (snd e)) < 10000)%N) es).
  { clear Hnd. induction Hes as [|[i name] [k n] l es (E & f & v & F1 & F2 & F3) Hes IH]; constructor.
    - cbn [fst snd] in *. subst k. destruct (Hl i name f v (or_introl eq_refl) F1) as (G1 & G2 & G3 & G4). split; auto. split; [eapply mar_good; eauto|].
      pose proof (mar_depth _ _ _ G1 F3). lia.
    - apply IH. intros j nm g w Hj. apply Hl. now right. }
  assert (Hd : Forall (fun e => valid_utf8 (fst e) = true /\ good_node (snd e) /\ (N.of_nat (ndepth (snd e)) < 10000)%N) (fold_left (fun m e => mset beqb m (fst e) (snd e)) es [])).
  { clear -Hall. assert (G : forall acc, Forall (fun e : bytes * node => valid_utf8 (fst e) = true /\ good_node (snd e) /\ (N.of_nat (ndepth (snd e)) < 10000)%N) acc ->
      Forall (fun e => valid_utf8 (fst e) = true /\ good_node (snd e) /\ (N.of_nat (ndepth (snd e)) < 10000)%N) (fold_left (fun m e => mset beqb m (fst e) (snd e)) es acc)); [|apply G; constructor].
    induction Hall as [|[k n] es H Hs IH]; intros acc Ha; cbn [fold_left fst snd]; auto. apply IH. apply mset_forall; auto. }
  set (d := fold_left (fun m e => mset beqb m (fst e) (snd e)) es []) in *. clearbody d.
  destruct (encode_decode short false (NMap d)) as (j & m & E1 & E2 & E3).
  - split; auto. clear Hnd. induction Hd as [|e d [H1 [H2 _]] Hd IH]; cbn; auto.
  - cbn [ndepth]. assert (Hm : (N.of_nat (fold_right (fun e m => Nat.max (ndepth (snd e)) m) 0%nat d) < 10000)%N).
    { clear -Hd. induction Hd as [|e d (_ & _ & H) Hd IH]; cbn [fold_right]; lia. }
    lia.
  - inversion E3; subst. exists l'. unfold by_json. rewrite E1, E2. auto.
Qed.

Section Call.
  Context (f2i f2u : floatv -> Z).
  Notation Unm := (Unmarshal f2i f2u None).
  Context (fs : list afld).
  Notation ins := (flat_map ins_of (idx 0 fs)). Notation outs := (flat_map outs_of (idx 0 fs)).

  Lemma ins_names : distinct fs is_in -> NoDup (map snd (map fst ins)).
  Proof.
    intros H. apply nodup_snd.
    - rewrite map_map. apply ins_nodup.
    - intros i j x Hi Hj. apply in_map_iff in Hi as ([[i' x'] r] & E & Hi). cbn in E. injection E as -> ->. apply in_map_iff in Hj as ([[j' x'] r'] & E & Hj). cbn in E. injection E as -> ->.
      apply ins_in in Hi as (f & F1 & F2 & F3 & _). apply ins_in in Hj as (g & G1 & G2 & G3 & _). eapply H; eauto.
  Qed.
  Lemma outs_names : distinct fs is_out -> NoDup (map snd outs).
  Proof.
    intros H. apply nodup_snd; [apply outs_nodup|]. intros i j x Hi Hj.
    apply outs_in in Hi as (f & F1 & F2 & F3). apply outs_in in Hj as (g & G1 & G2 & G3). eapply H; eauto.
  Qed.
  Lemma in_fst_ins i name : In (i, name) (map fst ins) <-> exists f, nth_error fs i = Some f /\ is_in f /\ wire f name.
  Proof.
    rewrite in_map_iff. split.
    - intros ([[i' x'] r] & E & Hi). cbn in E. injection E as -> ->. apply ins_in in Hi as (f & F1 & F2 & F3 & _). eauto.
    - intros (f & F1 & F2 & F3). exists (i, name, breq f). split; auto. apply ins_in. eauto 6.
  Qed.
  Lemma wire_ex f : wire f (tagName f).
  Proof. now apply wire_iff. Qed.

  (* what arrives for a field that was sent *)
  Lemma arrives h obj l d d' (Q : Prop) i name f v : h_fields h = fs -> send h obj [] l = Ok d -> NoDup (map snd l) -> carried Q d d' -> In (i, name) l ->
    nth_error fs i = Some f -> nth_error obj i = Some v -> wfty (a_type f) -> hasty (a_type f) v -> (Q -> textual (a_type f) v) ->
    exists n, mget beqb d' name = Some n /\ repr (a_type f) v n.
  Proof.
    intros Hh Hs Hnd Hc Hi Hf Hv Hw Ht Hq. destruct (sent_get _ _ _ _ Hs Hnd _ _ Hi) as (f' & v' & n & E & _ & Hm & Hg).
    apply field_inv in E as [E1 E2]. rewrite Hh, Hf in E1. injection E1 as <-. rewrite Hv in E2. injection E2 as <-.
    pose proof (carried_get Q d d' name Hc (sent_nodup _ _ _ _ Hs)) as Hx. rewrite Hg in Hx. destruct (mget beqb d' name) as [n'|]; [|contradiction].
    exists n'. split; auto. destruct (mar_repr _ _ Hw Ht) as (n2 & E & Hr). rewrite Hm in E. injection E as <-. eapply carried_repr; eauto.
  Qed.
  Lemma unm_reprs t v n old : wfty t -> hasty t v -> hasty t old -> repr t v n -> (forall c, Unm t n old = (UOk v, c) <-> c = [] /\ comes t v old).
  Proof.
    intros Hw Ht Ho Hr c. destruct (unm_into f2i f2u None t v n [PRoot] old Hw Ht Ho Hr) as [H1 H2]. unfold Unmarshal in *. split.
    - intros E. rewrite E in H2. cbn in H2. subst c. tauto.
    - intros [-> E]. tauto.
  Qed.
  Lemma zero_hasty t : hasty t (zero t).
  Proof.
    induction t as [ | w | w | | t IH | t IH | k t IH | k t IH | fs' IH] using ty_nest; cbn [zero hasty]; auto.
    - unfold int_range. pose proof (bits_pos w). assert (0 < 2 ^ (bits w - 1))%Z by (apply Z.pow_pos_nonneg; lia). lia.
    - unfold uint_range. pose proof (bits_pos w). assert (0 < 2 ^ bits w)%Z by (apply Z.pow_pos_nonneg; lia). lia.
    - split; [apply repeat_length|]. apply Forall_forall. intros x Hx. apply repeat_spec in Hx. now subst.
    - induction fs' as [|[f t] fs' IHf]; cbn [map fieldwise snd]; auto. split; [apply (IH f t); now left|]. apply IHf. intros g u Hg. apply (IH g u). now right.
  Qed.
  Lemma comes_zero t v : wfty t -> hasty t v -> (comes t v (zero t) <-> keeps t v).
  Proof.
    intros Hw Ht. destruct (mar_repr t v Hw Ht) as (n & _ & Hr). destruct (unm_into f2i f2u None t v n [PRoot] (zero t) Hw Ht (zero_hasty t) Hr) as [H1 _].
    destruct (came_iff t v _ Hw Ht (unm_repr f2i f2u None t v n [PRoot] Hw Ht Hr)) as [H2 _]. tauto.
  Qed.

  Context (vs : list val) (Htv : typed fs vs).
  Let h := made fs vs.

  (* the in fields *)
  Lemma in_kept f : is_in f -> ~ kept f.
  Proof. unfold kept. tauto. Qed.
  Lemma is_in_dec f : {is_in f} + {~ is_in f}.
  Proof. destruct (bin f) eqn:E; [left; now apply bin_iff|right; rewrite <- bin_iff; congruence]. Qed.
  Lemma is_out_dec f : {is_out f} + {~ is_out f}.
  Proof. destruct (bout f) eqn:E; [left; now apply bout_iff|right; rewrite <- bout_iff; congruence]. Qed.
  Lemma is_auth_dec f : {is_auth f} + {~ is_auth f}.
  Proof. destruct (bauth f) eqn:E; [left; now apply bauth_iff|right; rewrite <- bauth_iff; congruence]. Qed.
  Lemma not_in_keys i f : nth_error fs i = Some f -> ~ is_in f -> ~ In i (map key3 ins).
  Proof.
    intros Hf Hn Hi. apply in_map_iff in Hi as ([[k name] r] & E & Hi). unfold key3 in E. cbn in E. subst k. apply ins_in in Hi as (g & G1 & G2 & _). congruence.
  Qed.
  Lemma recv_shape d uid obj : Recv f2i f2u h d uid = ROk obj -> exists st o2, starts fs vs st /\ length o2 = length fs /\ recv_in f2i f2u h d st ins = ROk o2 /\ recv_auth f2i f2u h uid o2 = ROk obj /\ length obj = length fs.
  Proof.
    intros H. apply Recv_inv in H as (o1 & o2 & H1 & H2 & H3). apply init_starts in H1; auto. exists o1, o2. cbn [h made h_in] in H2.
    pose proof (proj1 (recv_in_ok f2i f2u h d ins o1 o2 (ins_nodup fs)) H2) as (L & _). destruct (auth_other _ _ _ _ _ _ H3) as (L2 & _). destruct H1 as [L1 H1].
    cbn [h made h_fields] in L1, H1. split; [exact (conj L1 H1)|]. split; [congruence|]. split; [exact H2|]. split; [exact H3|congruence].
  Qed.
  Lemma recv_in_field d uid obj i f : Recv f2i f2u h d uid = ROk obj -> nth_error fs i = Some f -> is_in f -> 
    exists w, (is_auth f \/ nth_error obj i = Some w) /\ (forall name, wire f name -> match mget beqb d name with None => w = zero (a_type f) | Some n => a_exported f = true /\ exists c, Unm (a_type f) n (zero (a_type f)) = (UOk w, c) end) /\
      (is_required f -> is_zero (a_type f) w = false).
  Proof.
    intros H Hf Hi. destruct (recv_shape _ _ _ H) as (st & o2 & [L1 Hst] & L2 & H2 & H3 & L3).
    apply (recv_in_ok f2i f2u h d ins st o2 (ins_nodup fs)) in H2 as (_ & H2 & _).
    destruct (H2 i (tagName f) (breq f)) as (w & W1 & g & v & E & Hm & Hr); [apply ins_in; exists f; repeat split; auto; apply wire_ex|].
    apply field_inv in E as [E1 E2]. cbn [h made h_fields] in E1. rewrite Hf in E1. injection E1 as <-.
    assert (Hv : v = zero (a_type f)) by (eapply (Hst i f v); eauto; now apply in_kept). subst v.
    exists w. split; [|split].
    - destruct (is_auth_dec f) as [Ha|Ha]; [now left|right]. destruct (auth_other _ _ _ _ _ _ H3) as (_ & H4). rewrite H4; auto.
      intros r Hr'. cbn [h made h_auth] in Hr'. apply Ha. assert (Hin : In (i, r) (flat_map auth_of (idx 0 fs))) by (destruct (flat_map auth_of (idx 0 fs)); [discriminate|left; now injection Hr'; intros]).
      apply auth_in in Hin as (g & G1 & G2 & _). congruence.
    - intros name Hname. apply wire_iff in Hname. subst name. exact Hm.
    - intros Hq. apply Hr. now apply breq_iff.
  Qed.

  Lemma auth_none i f : nth_error fs i = Some f -> ~ is_auth f -> forall r, h_auth h <> Some (i, r).
  Proof.
    intros Hf Ha r Hr. cbn [h made h_auth] in Hr. apply Ha.
    assert (Hin : In (i, r) (flat_map auth_of (idx 0 fs))) by (destruct (flat_map auth_of (idx 0 fs)); [discriminate|left; now injection Hr; intros]).
    apply auth_in in Hin as (g & G1 & G2 & _). congruence.
  Qed.
  Lemma auth_some i f : one_auth fs -> nth_error fs i = Some f -> is_auth f -> h_auth h = Some (i, breq f).
  Proof.
    intros H1 Hf Ha. cbn [h made h_auth]. assert (Hin : In (i, breq f) (flat_map auth_of (idx 0 fs))) by (apply auth_in; eauto).
    apply idx_auth_len in H1. destruct (flat_map auth_of (idx 0 fs)) as [|a [|b l]]; cbn in H1; [destruct Hin| |lia]. destruct Hin as [->|[]]. reflexivity.
  Qed.
  (* a field that is not in *)
  Lemma recv_other d uid obj i f : one_auth fs -> Recv f2i f2u h d uid = ROk obj -> nth_error fs i = Some f -> ~ is_in f ->
    exists st s, starts fs vs st /\ nth_error st i = Some s /\
      ((is_auth f -> nobody uid) -> nth_error obj i = Some s) /\
      (is_auth f -> forall u, uid = Some u -> u <> NNil -> a_exported f = true /\ exists w c, Unm (a_type f) u s = (UOk w, c) /\ nth_error obj i = Some w) /\
      (is_auth f -> nobody uid -> ~ is_required f).
  Proof.
    intros H1 H Hf Hn. destruct (recv_shape _ _ _ H) as (st & o2 & Hst & L2 & H2 & H3 & L3).
    apply (recv_in_ok f2i f2u h d ins st o2 (ins_nodup fs)) in H2 as (_ & _ & H2). specialize (H2 i (not_in_keys i f Hf Hn)).
    destruct (nth_error_lt o2 i) as (s & Es); [rewrite L2; eapply nth_error_some_lt; eauto|]. exists st, s. split; auto. split; [congruence|].
    destruct (is_auth_dec f) as [Ha|Ha].
    - destruct (auth_set f2i f2u h uid o2 obj i (breq f) f s H3 (auth_some i f H1 Hf Ha) Hf Es) as [A1 A2]. split; [|split].
      + intros Hu. destruct (A1 (Hu Ha)) as [_ ->]. exact Es.
      + intros _. exact A2.
      + intros _ Hu Hr. destruct (A1 Hu) as [X _]. apply breq_iff in Hr. congruence.
    - destruct (auth_other _ _ _ _ _ _ H3) as (_ & H4). split; [|split; contradiction]. intros _. rewrite H4; auto. eapply auth_none; eauto.
  Qed.
  Lemma required_auth d uid obj i f : one_auth fs -> Recv f2i f2u h d uid = ROk obj -> nth_error fs i = Some f -> is_auth f -> is_required f -> ~ nobody uid.
  Proof.
    intros H1 H Hf Ha Hr Hu. destruct (recv_shape _ _ _ H) as (st & o2 & Hst & L2 & H2 & H3 & L3).
    destruct (nth_error_lt o2 i) as (s & Es); [rewrite L2; eapply nth_error_some_lt; eauto|].
    destruct (auth_set f2i f2u h uid o2 obj i (breq f) f s H3 (auth_some i f H1 Hf Ha) Hf Es) as [A1 _]. destruct (A1 Hu) as [X _]. apply breq_iff in Hr. congruence.
  Qed.

  (* ---- there ---- *)
  Lemma recv_there cobj d d' (Q : Prop) uid sobj cvs : api_type fs -> one_auth fs -> typed fs cobj -> init_ok fs vs -> auth_ok fs uid ->
    send (made fs cvs) cobj [] (map fst ins) = Ok d -> carried Q d d' -> (Q -> texts fs is_in cobj) ->
    in_ok fs cobj -> serves f2i f2u fs vs cobj uid sobj -> Recv f2i f2u h d' uid = ROk sobj.
  Proof.
    intros Ha H1 Htc Hi Hau Hs Hc Hq Hin (Ls & st & Hst & Hsv). unfold Recv.
    destruct (set_init_ok h (inits_of 0 fs vs) (fresh fs) (inits_nodup fs vs 0)) as (st' & E & _).
    { intros i v Hv. apply inits_in in Hv as (_ & f & F1 & F2 & F3 & F4). rewrite Nat.sub_0_r in F1, F2. exists f. split; [exact F1|].
      apply (Hi i f v F1 F2 F3). apply is_zero_false; [exact (typed_nth fs vs Htv i f v F1 F2)|exact F4]. }
    cbn [h made h_fields h_init h_in]. fold h. rewrite E. assert (Hst' : st' = st) by (apply (starts_unique fs vs); [exact (init_starts fs vs st' Htv E)|exact Hst]). subst st'. clear E.
    destruct Hst as [Lst Hst]. pose proof (typed_length _ _ Htc) as Lc.
    assert (Hcv : forall i f, nth_error fs i = Some f -> exists s c v, nth_error st i = Some s /\ nth_error cobj i = Some c /\ nth_error sobj i = Some v).
    { intros i f Hf. pose proof (nth_error_some_lt _ _ _ Hf) as Hl. destruct (nth_error_lt st i) as (s & ?); [lia|]. destruct (nth_error_lt cobj i) as (c & ?); [lia|].
      destruct (nth_error_lt sobj i) as (v & ?); [lia|]. eauto 6. }
    (* the object before the identity is set *)
    set (auth_now := match h_auth h with Some (i, _) => match uid with None | Some NNil => None | Some _ => Some i end | None => None end).
    set (o2 := match auth_now with Some i => match nth_error st i with Some s => upd sobj i s | None => sobj end | None => sobj end).
    assert (Lo : length o2 = length fs) by (unfold o2; destruct auth_now; auto; destruct (nth_error st n); auto; rewrite PreludeFacts.upd_length; auto).
    assert (Hno : forall i, auth_now = Some i -> exists f u, nth_error fs i = Some f /\ is_auth f /\ uid = Some u /\ u <> NNil).
    { intros i. unfold auth_now. destruct (h_auth h) as [[k r]|] eqn:Eh; [|discriminate]. intros Hk.
      assert (Hin2 : In (k, r) (flat_map auth_of (idx 0 fs))) by (cbn [h made h_auth] in Eh; destruct (flat_map auth_of (idx 0 fs)); [discriminate|left; now injection Eh; intros]).
      apply auth_in in Hin2 as (f & F1 & F2 & _). destruct uid as [[]|]; try discriminate; injection Hk as <-; exists f; eexists; repeat split; eauto; discriminate. }
    assert (Hnone : auth_now = None -> forall i f, nth_error fs i = Some f -> is_auth f -> nobody uid).
    { unfold auth_now. intros Hn i f Hf Haf. rewrite (auth_some i f H1 Hf Haf) in Hn. unfold nobody. destruct uid as [[]|]; try discriminate; auto. }
    assert (Ho2 : recv_in f2i f2u h d' st ins = ROk o2).
    { apply (recv_in_ok f2i f2u h d' ins st o2 (ins_nodup fs)). split; [congruence|]. split.
      - intros i name r Hir. apply ins_in in Hir as (f & F1 & F2 & F3 & ->). destruct (Hcv i f F1) as (s & c & v & E1 & E2 & E3).
        destruct (Hsv _ _ _ _ _ F1 E1 E2 E3) as (S1 & _). specialize (S1 F2). subst v. exists c. split.
        + unfold o2. destruct auth_now as [k|] eqn:Ek; auto. destruct (Hno k eq_refl) as (g & u & G1 & G2 & _).
          destruct (nth_error st k); auto. rewrite nth_error_upd_ne; auto. intros ->. assert (f = g) by congruence. subst g. apply (at_auth _ Ha f) in G2; [contradiction|]. eapply nth_error_In; eauto.
        + assert (Hfi : In f fs) by (eapply nth_error_In; eauto). pose proof (at_wf _ Ha f Hfi) as Hw. pose proof (typed_nth _ _ Htc _ _ _ F1 E2) as Htyc.
          assert (Hsz : s = zero (a_type f)) by (eapply (Hst i f s); eauto; now apply in_kept). subst s. destruct (Hin i f c F1 E2 F2) as [Hk Hz].
          destruct (arrives (made fs cvs) cobj (map fst ins) d d' Q i name f c eq_refl Hs (ins_names (at_in _ Ha)) Hc) as (n & N1 & N2); auto.
          { apply in_fst_ins. eauto. }
          { intros q. now apply (Hq q i f c). }
          exists f, (zero (a_type f)). split; [now apply field_at|]. rewrite N1. split; [split|].
          * apply (at_exported _ Ha f Hfi). auto.
          * exists []. apply (unm_reprs (a_type f) c n); auto using zero_hasty. split; auto. now apply comes_zero.
          * intros Hr. apply is_zero_false; auto. apply Hz. now apply breq_iff.
      - intros j Hj. destruct (nth_error fs j) as [f|] eqn:Ef.
        + assert (Hnin : ~ is_in f). { intros X. apply Hj. apply in_map_iff. exists (j, tagName f, breq f). split; auto. apply ins_in. exists f. repeat split; auto. apply wire_ex. }
          destruct (Hcv j f Ef) as (s & c & v & E1 & E2 & E3). destruct (Hsv _ _ _ _ _ Ef E1 E2 E3) as (_ & S2 & _). rewrite E1. unfold o2.
          destruct auth_now as [k|] eqn:Ek.
          * destruct (Hno k eq_refl) as (g & u & G1 & G2 & _). destruct (Hcv k g G1) as (s' & c' & v' & E1' & E2' & E3'). rewrite E1'.
            destruct (Nat.eq_dec j k) as [->|Hne]; [rewrite nth_error_upd_eq by (eapply nth_error_some_lt; eauto); congruence|].
            rewrite nth_error_upd_ne by exact Hne. rewrite E3. f_equal. apply S2; auto. intros X. exfalso. apply Hne. eapply H1; eauto.
          * rewrite E3. f_equal. apply S2; auto. intros X. eapply Hnone; eauto.
        + apply nth_error_None in Ef. transitivity (@None val); [|symmetry]; apply nth_error_None; lia. }
    rewrite Ho2. unfold recv_auth. destruct (h_auth h) as [[k r]|] eqn:Eh.
    - assert (Hin2 : In (k, r) (flat_map auth_of (idx 0 fs))) by (cbn [h made h_auth] in Eh; destruct (flat_map auth_of (idx 0 fs)); [discriminate|left; now injection Eh; intros]).
      apply auth_in in Hin2 as (f & F1 & F2 & Hr). destruct (Hcv k f F1) as (s & c & v & E1 & E2 & E3). destruct (Hsv _ _ _ _ _ F1 E1 E2 E3) as (_ & _ & S3).
      assert (Hfi : In f fs) by (eapply nth_error_In; eauto). specialize (S3 (at_auth _ Ha f Hfi F2) F2).
      assert (Hinto : forall u, uid = Some u -> u <> NNil -> auth_now = Some k -> into f2i f2u h o2 k u = ROk sobj).
      { intros u Eu Hu Ek. destruct (S3 u Eu Hu) as (cl & Hun). unfold into. unfold o2. rewrite Ek, E1.
        rewrite (field_at h (upd sobj k s) k f s F1) by (apply nth_error_upd_eq; eapply nth_error_some_lt; eauto).
        rewrite (at_exported _ Ha f Hfi) by auto. rewrite Hun. cbn [fst]. f_equal. apply nth_error_ext. intros p. destruct (Nat.eq_dec p k) as [->|Hne].
        - rewrite nth_error_upd_eq; [auto|]. rewrite PreludeFacts.upd_length. eapply nth_error_some_lt; eauto.
        - now rewrite !nth_error_upd_ne. }
      assert (Hnob : nobody uid -> auth_now = None -> (if r then RErr else ROk o2) = ROk sobj).
      { intros Hu Ek. destruct r; [exfalso; eapply (Hau f Hfi F2); auto; now apply breq_iff|]. unfold o2. now rewrite Ek. }
      unfold auth_now in Hinto, Hnob. unfold nobody in Hnob. destruct uid as [[]|]; first [apply Hinto; auto; discriminate | apply Hnob; auto].
    - unfold o2, auth_now. reflexivity.
  Qed.
  (* what arrives is what was sent exactly if it is a value that is kept *)
  Lemma there_exact cobj d d' (Q : Prop) uid sobj cvs i f c : api_type fs -> typed fs cobj ->
    send (made fs cvs) cobj [] (map fst ins) = Ok d -> carried Q d d' -> (Q -> texts fs is_in cobj) ->
    Recv f2i f2u h d' uid = ROk sobj -> nth_error fs i = Some f -> is_in f -> nth_error cobj i = Some c ->
    (nth_error sobj i = Some c <-> keeps (a_type f) c).
  Proof.
    intros Ha Htc Hs Hc Hq Hr Hf Hi Hv. assert (Hfi : In f fs) by (eapply nth_error_In; eauto). pose proof (at_wf _ Ha f Hfi) as Hw.
    pose proof (typed_nth _ _ Htc _ _ _ Hf Hv) as Htyc.
    destruct (recv_in_field d' uid sobj i f Hr Hf Hi) as (w & [Hx|W] & Hm & _); [exfalso; now apply (at_auth _ Ha f)|].
    destruct (arrives (made fs cvs) cobj (map fst ins) d d' Q i (tagName f) f c eq_refl Hs (ins_names (at_in _ Ha)) Hc) as (n & N1 & N2); auto.
    { apply in_fst_ins. exists f. repeat split; auto. apply wire_ex. }
    { intros q. now apply (Hq q i f c). }
    specialize (Hm (tagName f) (wire_ex f)). rewrite N1 in Hm. destruct Hm as (_ & cl & Hu). rewrite W.
    rewrite <- comes_zero by auto. pose proof (unm_reprs (a_type f) c n (zero (a_type f)) Hw Htyc (zero_hasty _) N2) as Hux. split.
    - intros E. injection E as ->. now apply Hux in Hu.
    - intros E. assert (X := proj2 (Hux []) (conj eq_refl E)). congruence.
  Qed.

  (* ---- back ---- *)
  Lemma recv_back cobj sobj d d' (Q : Prop) cvs cobj' : api_type fs -> typed fs cobj -> typed fs sobj ->
    send h sobj [] outs = Ok d -> carried Q d d' -> (Q -> texts fs is_out sobj) -> merged fs cobj sobj cobj' ->
    (ClientRecv f2i f2u (made fs cvs) d' cobj = ROk cobj' <-> out_ok fs sobj cobj).
  Proof.
    intros Ha Htc Hts Hs Hc Hq [Lm Hm]. pose proof (typed_length _ _ Htc) as Lc. pose proof (typed_length _ _ Hts) as Ls.
    unfold ClientRecv. cbn [made h_out]. rewrite client_recv_in.
    2: { exact Lc. }
    2: { cbn [made h_fields]. intros i name Hi. apply outs_in in Hi as (f & F1 & _). eapply nth_error_some_lt; eauto. }
    assert (Hkeys : map key3 (map (fun x => (x, false)) outs) = map fst outs) by (rewrite map_map; apply map_ext; intros [a b]; reflexivity).
    rewrite (recv_in_ok f2i f2u (made fs cvs) d' (map (fun x => (x, false)) outs) cobj cobj') by (rewrite Hkeys; apply outs_nodup).
    assert (Hfield : forall i f s c, nth_error fs i = Some f -> is_out f -> nth_error sobj i = Some s -> nth_error cobj i = Some c ->
      (got f2i f2u (made fs cvs) d' cobj i (tagName f) false s <-> comes (a_type f) s c)).
    { intros i f s c Hf Ho Es Ec. assert (Hfi : In f fs) by (eapply nth_error_In; eauto). pose proof (at_wf _ Ha f Hfi) as Hw.
      pose proof (typed_nth _ _ Hts _ _ _ Hf Es) as Htys. pose proof (typed_nth _ _ Htc _ _ _ Hf Ec) as Htyc.
      destruct (arrives h sobj outs d d' Q i (tagName f) f s eq_refl Hs (outs_names (at_out _ Ha)) Hc) as (n & N1 & N2); auto.
      { apply outs_in. exists f. repeat split; auto. apply wire_ex. }
      { intros q. now apply (Hq q i f s). }
      pose proof (unm_reprs (a_type f) s n c Hw Htys Htyc N2) as Hux. unfold got. rewrite N1. split.
      - intros (g & v & E & (_ & cl & Hu) & _). apply field_inv in E as [E1 E2]. cbn [made h_fields] in E1. rewrite Hf in E1. injection E1 as <-. rewrite Ec in E2. injection E2 as <-.
        now apply Hux in Hu.
      - intros Hcm. exists f, c. split; [now apply field_at|]. split; [|discriminate]. split; [apply (at_exported _ Ha f Hfi); auto|]. exists []. now apply Hux. }
    split.
    - intros (_ & H2 & _) i f s c Hf Es Ec Ho. destruct (H2 i (tagName f) false) as (w & W1 & W2).
      { apply in_map_iff. exists (i, tagName f). split; auto. apply outs_in. exists f. repeat split; auto. apply wire_ex. }
      destruct (Hm i f Hf) as [M1 _]. rewrite (M1 Ho), Es in W1. injection W1 as <-. eapply Hfield; eauto.
    - intros Hok. split; [congruence|]. split.
      + intros i name r Hi. apply in_map_iff in Hi as ([i' x] & E & Hi). injection E as -> -> <-. apply outs_in in Hi as (f & F1 & F2 & F3). apply wire_iff in F3. subst name.
        pose proof (nth_error_some_lt _ _ _ F1) as Hl. destruct (nth_error_lt sobj i) as (s & Es); [lia|]. destruct (nth_error_lt cobj i) as (c & Ec); [lia|].
        exists s. destruct (Hm i f F1) as [M1 _]. split; [now rewrite (M1 F2)|]. apply (Hfield i f s c); auto. eapply Hok; eauto.
      + rewrite Hkeys. intros j Hj. destruct (nth_error fs j) as [f|] eqn:Ef.
        * apply (Hm j f Ef). intros Ho. apply Hj. apply in_map_iff. exists (j, tagName f). split; auto. apply outs_in. exists f. repeat split; auto. apply wire_ex.
        * apply nth_error_None in Ef. transitivity (@None val); [|symmetry]; apply nth_error_None; lia.
  Qed.

  (* ---- there and back ---- *)
  Lemma sends cvs obj l : api_type fs -> typed fs obj -> (forall i name, In (i, name) l -> exists f, nth_error fs i = Some f /\ (is_in f \/ is_out f)) -> exists d, send (made fs cvs) obj [] l = Ok d.
  Proof.
    intros Ha Ht Hl. apply send_defined. intros i name Hi. destruct (Hl i name Hi) as (f & F1 & F2). assert (Hfi : In f fs) by (eapply nth_error_In; eauto).
    destruct (nth_error_lt obj i) as (v & Ev); [rewrite (typed_length _ _ Ht); eapply nth_error_some_lt; eauto|].
    exists f, v. split; [now apply field_at|]. split; [apply (at_exported _ Ha f Hfi); tauto|]. split; [now apply (at_wf _ Ha)|]. eapply typed_nth; eauto.
  Qed.
  Definition good_carry (Q : Prop) (carry : data -> option data) : Prop :=
    (carry = Some) \/ (Q /\ exists short, carry = by_json short).
  Lemma carry_sent Q carry cvs obj (P : afld -> Prop) l d : good_carry Q carry -> typed fs obj -> (Q -> texts fs P obj) ->
    (forall i name, In (i, name) l -> exists f, nth_error fs i = Some f /\ P f /\ wire f name) -> send (made fs cvs) obj [] l = Ok d ->
    exists d', carry d = Some d' /\ carried Q d d'.
  Proof.
    intros [->|(q & short & ->)] Ht Hq Hl Hs.
    - exists d. split; auto. left. constructor.
    - destruct (by_json_carries short _ _ _ _ Hs) as (d' & E & Hr).
      + intros i name f v Hi E. apply field_inv in E as [E1 E2]. cbn [made h_fields] in E1. destruct (Hl i name Hi) as (g & G1 & G2 & G3). rewrite G1 in E1. injection E1 as ->.
        destruct (Hq q i f v G1 E2 G2) as (T1 & T2 & T3). split; [eapply typed_nth; eauto|]. auto.
      + exists d'. split; auto. right. auto.
  Qed.
  Lemma call_ok (Q : Prop) carry cvs cobj uid do sobj sobj' cobj' : api_type fs -> one_auth fs -> typed fs cobj -> init_ok fs vs -> auth_ok fs uid -> good_carry Q carry ->
    (Q -> texts fs is_in cobj) -> in_ok fs cobj -> serves f2i f2u fs vs cobj uid sobj -> do sobj = Some sobj' -> typed fs sobj' -> (Q -> texts fs is_out sobj') -> merged fs cobj sobj' cobj' ->
    (api_call f2i f2u (made fs cvs) h carry uid do cobj = ROk cobj' <-> out_ok fs sobj' cobj).
  Proof.
    intros Ha H1 Htc Hi Hau Hc Hq1 Hin Hsv Hdo Hts Hq2 Hm. unfold api_call, ClientSend. cbn [made h_in].
    destruct (sends cvs cobj (map fst ins) Ha Htc) as (d & Hd). { intros i name X. apply in_fst_ins in X as (f & F1 & F2 & _). eauto. }
    rewrite Hd. destruct (carry_sent Q carry cvs cobj is_in (map fst ins) d Hc Htc Hq1) as (d1 & E1 & C1); auto. { intros i name X. apply in_fst_ins in X as (f & F1 & F2 & F3). eauto. }
    rewrite E1. rewrite (recv_there cobj d d1 Q uid sobj cvs Ha H1 Htc Hi Hau Hd C1 Hq1 Hin Hsv). rewrite Hdo. unfold Send. cbn [h made h_out].
    destruct (sends vs sobj' outs Ha Hts) as (d2 & Hd2). { intros i name X. apply outs_in in X as (f & F1 & F2 & _). eauto. }
    fold h in Hd2 |- *. rewrite Hd2. destruct (carry_sent Q carry vs sobj' is_out outs d2 Hc Hts Hq2) as (d3 & E3 & C3); auto. { intros i name X. apply outs_in in X as (f & F1 & F2 & F3). eauto. }
    rewrite E3. eapply recv_back; eauto.
  Qed.
End Call.
