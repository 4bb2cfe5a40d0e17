(* Proofs about Recv and Send of api.Server and api.Client. *)
From Coq Require Import Bool Ascii String Arith NArith ZArith Lia List Permutation.
From Verif Require Import Prelude PreludeFacts Utf8Model Utf8Facts DecModel DecFacts DurModel DurProofs EncModel JsonModel KvSpec JsonSpec JsonFacts KvProofs JsonProofs MarModel MarSpec MarFacts MarProofs MarStruct MarOrder ConfModel ConfSpec ConfProofs ApiModel ApiSpec ApiMar ApiProofs.
Import ListNotations.

Lemma upd_same {A} (l : list A) : forall i x, nth_error l i = Some x -> upd l i x = l.
Proof. induction l as [|a l IH]; intros [|i] x H; cbn in *; try discriminate; [now injection H as ->|]. now rewrite IH. Qed.
Lemma field_upd h obj i w j : j <> i -> the_field h (upd obj i w) j = the_field h obj j.
Proof. intros H. unfold the_field. now rewrite nth_error_upd_ne. Qed.
Lemma field_upd_eq h obj i f v w : the_field h obj i = Some (f, v) -> the_field h (upd obj i w) i = Some (f, w).
Proof.
  unfold the_field. destruct (nth_error (h_fields h) i); [|discriminate]. destruct (nth_error obj i) eqn:E; [|discriminate]. intros H. injection H as -> _.
  apply nth_error_some_lt in E. now rewrite nth_error_upd_eq.
Qed.
Lemma field_at h obj i f v : nth_error (h_fields h) i = Some f -> nth_error obj i = Some v -> the_field h obj i = Some (f, v).
Proof. unfold the_field. now intros -> ->. Qed.
Lemma field_inv h obj i f v : the_field h obj i = Some (f, v) -> nth_error (h_fields h) i = Some f /\ nth_error obj i = Some v.
Proof. unfold the_field. destruct (nth_error (h_fields h) i), (nth_error obj i); intros H; inversion H; auto. Qed.

Section Recv.
  Context (f2i f2u : floatv -> Z).
  Notation recv_in := (recv_in f2i f2u). Notation Recv := (Recv f2i f2u). Notation Unm := (Unmarshal f2i f2u None).

  (* ---- the registered object ---- *)
  Lemma set_init_ok h l : forall obj, NoDup (map fst l) ->
    (forall i v, In (i, v) l -> exists f, nth_error (h_fields h) i = Some f /\ a_exported f = true) ->
    exists obj', set_init h obj l = Ok obj' /\ length obj' = length obj /\
      (forall j v, In (j, v) l -> j < length obj -> nth_error obj' j = Some v) /\ (forall j, ~ In j (map fst l) -> nth_error obj' j = nth_error obj j).
  Proof.
    induction l as [|[i v] l IH]; intros obj Hnd Hf; cbn [set_init].
    - exists obj. repeat split; auto. contradiction.
    - destruct (Hf i v (or_introl eq_refl)) as (f & -> & ->). inversion Hnd as [|? ? Hni Hnd']; subst.
      destruct (IH (upd obj i v) Hnd') as (obj' & E & H1 & H2 & H3). { intros j w Hj. apply (Hf j w). now right. }
      rewrite PreludeFacts.upd_length in H1, H2. exists obj'. repeat split; auto.
      + intros j w [E2|Hj] Hl; [|auto]. injection E2 as -> ->. rewrite H3 by exact Hni. now apply nth_error_upd_eq.
      + cbn. intros j Hj. rewrite H3 by tauto. apply nth_error_upd_ne. intros ->. tauto.
  Qed.
  Lemma set_init_exported h l : forall obj obj', set_init h obj l = Ok obj' -> forall i v, In (i, v) l -> exists f, nth_error (h_fields h) i = Some f /\ a_exported f = true.
  Proof.
    induction l as [|[i v] l IH]; intros obj obj'; cbn [set_init]; [contradiction|]. destruct (nth_error (h_fields h) i) as [f|] eqn:E; [|discriminate].
    destruct (a_exported f) eqn:Ee; [|discriminate]. intros H j w [Hj|Hj]; [injection Hj as <- <-; eauto|eauto].
  Qed.
  Lemma typed_length fs vs : typed fs vs -> length vs = length fs.
  Proof. intros H. symmetry. eapply F2_length. exact H. Qed.
  Lemma typed_nth fs vs : typed fs vs -> forall i f v, nth_error fs i = Some f -> nth_error vs i = Some v -> hasty (a_type f) v.
  Proof. induction 1 as [|f v fs vs H Hs IH]; intros [|i] g w; cbn; try discriminate; [intros E1 E2; injection E1 as <-; injection E2 as <-; auto|apply IH]. Qed.
  Lemma fresh_nth fs i f : nth_error fs i = Some f -> nth_error (fresh fs) i = Some (zero (a_type f)).
  Proof. unfold fresh. intros H. rewrite nth_error_map, H. reflexivity. Qed.
  Lemma init_starts fs vs obj : typed fs vs -> set_init (made fs vs) (fresh fs) (inits_of 0 fs vs) = Ok obj -> starts fs vs obj.
  Proof.
    intros Ht H. pose proof (set_init_exported _ _ _ _ H) as He.
    destruct (set_init_ok (made fs vs) (inits_of 0 fs vs) (fresh fs) (inits_nodup fs vs 0) He) as (obj' & E & H1 & H2 & H3).
    rewrite E in H. injection H as ->. unfold fresh in H1, H2. rewrite map_length in H1, H2. split; auto.
    intros i f v Hf Hv.
    assert (Hin : forall w, In (i, w) (inits_of 0 fs vs) <-> nth_error vs i = Some w /\ kept f /\ is_zero (a_type f) w = false).
    { intros w. rewrite inits_in, Nat.sub_0_r. split; [intros (_ & g & G1 & G2 & G3 & G4)|intros (G1 & G2 & G3); split; [lia|eauto 6]]. rewrite Hf in G1. injection G1 as ->. auto. }
    pose proof (nth_error_some_lt _ _ _ Hf) as Hlt. destruct (nth_error_lt vs i) as (w & Hw); [rewrite (typed_length _ _ Ht); exact Hlt|].
    pose proof (typed_nth _ _ Ht _ _ _ Hf Hw) as Hty.
    assert (Hnot : ~ (kept f /\ is_zero (a_type f) w = false) -> v = zero (a_type f)).
    { intros Hn. rewrite H3 in Hv.
      - rewrite (fresh_nth _ _ _ Hf) in Hv. congruence.
      - intros Hi. apply in_map_iff in Hi as ([k x] & E2 & Hi). cbn in E2. subst k. apply Hin in Hi as (G1 & G2). rewrite Hw in G1. injection G1 as <-. contradiction. }
    split.
    - intros Hk. rewrite Hw. f_equal. destruct (is_zero (a_type f) w) eqn:Ez.
      + apply (is_zero_iff _ _ Hty) in Ez. rewrite Ez. symmetry. apply Hnot. intros [_ X]. discriminate.
      + assert (X : nth_error obj i = Some w) by (apply H2; [apply Hin; auto|exact Hlt]). congruence.
    - intros Hk. apply Hnot. tauto.
  Qed.
  Lemma starts_unique fs vs o o' : starts fs vs o -> starts fs vs o' -> o = o'.
  Proof.
    intros [L1 H1] [L2 H2]. apply nth_error_ext. intros i. destruct (nth_error fs i) as [f|] eqn:Ef.
    - pose proof (nth_error_some_lt _ _ _ Ef) as Hl. destruct (nth_error_lt o i) as (a & Ea); [lia|]. destruct (nth_error_lt o' i) as (b & Eb); [lia|].
      rewrite Ea, Eb. destruct (H1 _ _ _ Ef Ea) as [A1 A2], (H2 _ _ _ Ef Eb) as [B1 B2].
      destruct (bkept f) eqn:Ek.
      + apply bkept_iff in Ek. specialize (A1 Ek). specialize (B1 Ek). congruence.
      + assert (Hk : ~ kept f) by (rewrite <- bkept_iff; congruence). rewrite (A2 Hk), (B2 Hk). reflexivity.
    - apply nth_error_None in Ef. transitivity (@None val); [|symmetry]; apply nth_error_None; lia.
  Qed.

  (* ---- in fields ---- *)
  Definition got (h : handler) (d : data) (obj : list val) (i : nat) (name : bytes) (req : bool) (w : val) : Prop :=
    exists f v, the_field h obj i = Some (f, v) /\
      match mget beqb d name with None => w = v | Some n => a_exported f = true /\ exists c, Unm (a_type f) n v = (UOk w, c) end /\
      (req = true -> is_zero (a_type f) w = false).
  Lemma recv_step h d obj i name r l obj' : recv_in h d obj ((i, name, r) :: l) = ROk obj' <->
    exists w, got h d obj i name r w /\ recv_in h d (upd obj i w) l = ROk obj'.
  Proof.
    cbn [ApiModel.recv_in]. unfold got. split.
    - destruct (mget beqb d name) as [n|] eqn:En.
      + unfold into. destruct (the_field h obj i) as [[f v]|] eqn:E; [|discriminate]. destruct (a_exported f) eqn:Ee; [|discriminate].
        destruct (Unm (a_type f) n v) as [[w|w|] c] eqn:Eu; cbn [fst]; try discriminate. rewrite (field_upd_eq _ _ _ _ _ w E).
        destruct (r && is_zero (a_type f) w) eqn:Er; [discriminate|]. intros H. exists w. split; auto. exists f, v. repeat split; eauto.
        intros ->. exact Er.
      + destruct (the_field h obj i) as [[f v]|] eqn:E; [|discriminate]. destruct (r && is_zero (a_type f) v) eqn:Er; [discriminate|]. intros H.
        exists v. rewrite upd_same by (apply (field_inv _ _ _ _ _ E)). split; auto. exists f, v. repeat split; auto. intros ->. exact Er.
    - intros (w & (f & v & E & Hm & Hr) & H). assert (Er : r && is_zero (a_type f) w = false) by (destruct r; cbn; auto).
      destruct (mget beqb d name) as [n|] eqn:En.
      + destruct Hm as (Ee & c & Eu). unfold into. rewrite E, Ee, Eu. cbn [fst]. rewrite (field_upd_eq _ _ _ _ _ w E), Er. exact H.
      + subst w. rewrite E, Er. rewrite upd_same in H by (apply (field_inv _ _ _ _ _ E)). exact H.
  Qed.
  Definition key3 (x : nat * bytes * bool) : nat := fst (fst x).
  Lemma recv_in_ok h d l : forall obj obj', NoDup (map key3 l) -> (recv_in h d obj l = ROk obj' <->
    length obj' = length obj /\ (forall i name r, In (i, name, r) l -> exists w, nth_error obj' i = Some w /\ got h d obj i name r w) /\
    (forall j, ~ In j (map key3 l) -> nth_error obj' j = nth_error obj j)).
  Proof.
    induction l as [|[[i name] r] l IH]; intros obj obj' Hnd.
    - cbn. split; [intros H; injection H as <-; repeat split; auto; contradiction|]. intros (_ & _ & H). f_equal. apply nth_error_ext. intros p. symmetry. auto.
    - inversion Hnd as [|? ? Hni Hnd']; subst. unfold key3 in Hni at 1. cbn [fst] in Hni. rewrite recv_step.
      assert (Hgot : forall w j name' r' w', In (j, name', r') l -> (got h d (upd obj i w) j name' r' w' <-> got h d obj j name' r' w')).
      { intros w j name' r' w' Hj. unfold got. rewrite field_upd; [tauto|]. intros ->. apply Hni. apply in_map_iff. exists (i, name', r'). auto. }
      split.
      + intros (w & Hg & H). apply IH in H as (H1 & H2 & H3); auto. rewrite PreludeFacts.upd_length in H1. split; auto.
        pose proof Hg as (f & v & E & _). apply field_inv in E as [_ E]. pose proof (nth_error_some_lt _ _ _ E) as Hlt. split.
        * intros j name' r' [Hj|Hj].
          -- injection Hj as <- <- <-. exists w. split; auto. rewrite H3 by exact Hni. now apply nth_error_upd_eq.
          -- destruct (H2 _ _ _ Hj) as (w' & W1 & W2). exists w'. split; auto. eapply Hgot; eauto.
        * cbn. intros j Hj. rewrite H3 by tauto. apply nth_error_upd_ne. intros ->. apply Hj. now left.
      + intros (H1 & H2 & H3). destruct (H2 i name r (or_introl eq_refl)) as (w & W1 & W2). exists w. split; auto. apply IH; auto.
        rewrite PreludeFacts.upd_length. split; auto. split.
        * intros j name' r' Hj. destruct (H2 j name' r' (or_intror Hj)) as (w' & W3 & W4). exists w'. split; auto. eapply Hgot; eauto.
        * intros j Hj. destruct (Nat.eq_dec j i) as [->|Hne].
          -- rewrite W1. symmetry. apply nth_error_upd_eq. pose proof W2 as (f & v & E & _). apply field_inv in E as [_ E]. eapply nth_error_some_lt; eauto.
          -- rewrite nth_error_upd_ne by exact Hne. apply H3. cbn. intros [E|E]; [now apply Hne|contradiction].
  Qed.
  Lemma recv_in_data h d d' l : (forall i name r, In (i, name, r) l -> mget beqb d name = mget beqb d' name) -> forall obj, recv_in h d obj l = recv_in h d' obj l.
  Proof.
    induction l as [|[[i name] r] l IH]; intros H obj; cbn [ApiModel.recv_in]; auto. rewrite (H i name r (or_introl eq_refl)).
    destruct (match mget beqb d' name with Some n => _ | None => _ end) as [o| |]; auto. destruct (the_field h o i) as [[f v]|]; auto.
    destruct (r && is_zero (a_type f) v); auto. apply IH. intros j nm r' Hj. apply (H j nm r'). now right.
  Qed.
  Lemma Recv_inv h d uid obj : Recv h d uid = ROk obj -> exists o1 o2, set_init h (fresh (h_fields h)) (h_init h) = Ok o1 /\ recv_in h d o1 (h_in h) = ROk o2 /\ recv_auth f2i f2u h uid o2 = ROk obj.
  Proof.
    unfold ApiModel.Recv. destruct (set_init h (fresh (h_fields h)) (h_init h)) as [o1|]; [|discriminate]. destruct (recv_in h d o1 (h_in h)) as [o2| |] eqn:E; try discriminate. eauto.
  Qed.
  (* ---- auth ---- *)
  Lemma auth_other h uid o o' : recv_auth f2i f2u h uid o = ROk o' -> length o' = length o /\
    forall j, (forall r, h_auth h <> Some (j, r)) -> nth_error o' j = nth_error o j.
  Proof.
    unfold recv_auth. destruct (h_auth h) as [[i r]|]; [|intros H; injection H as <-; auto].
    assert (Hinto : forall n, into f2i f2u h o i n = ROk o' -> length o' = length o /\ forall j, (forall r', Some (i, r) <> Some (j, r')) -> nth_error o' j = nth_error o j).
    { intros n. unfold into. destruct (the_field h o i) as [[f v]|]; [|discriminate]. destruct (a_exported f); [|discriminate].
      destruct (fst (Unm (a_type f) n v)); try discriminate. intros H. injection H as <-. split; [apply PreludeFacts.upd_length|].
      intros j Hj. apply nth_error_upd_ne. intros ->. now apply (Hj r). }
    assert (Hnone : (if r then RErr else ROk o) = ROk o' -> length o' = length o /\ forall j, (forall r', Some (i, r) <> Some (j, r')) -> nth_error o' j = nth_error o j).
    { destruct r; [discriminate|]. intros H. injection H as <-. auto. }
    destruct uid as [[]|]; auto; try apply Hinto.
  Qed.
  Lemma auth_set h uid o o' i r f v : recv_auth f2i f2u h uid o = ROk o' -> h_auth h = Some (i, r) -> nth_error (h_fields h) i = Some f -> nth_error o i = Some v ->
    (nobody uid -> r = false /\ o' = o) /\
    (forall u, uid = Some u -> u <> NNil -> a_exported f = true /\ exists w c, Unm (a_type f) u v = (UOk w, c) /\ nth_error o' i = Some w).
  Proof.
    unfold recv_auth. intros H Ha Hf Hv. rewrite Ha in H. split.
    - intros [->| ->]; cbn in H; destruct r; try discriminate; injection H as <-; auto.
    - intros u -> Hu. assert (Hi : into f2i f2u h o i u = ROk o') by (destruct u; auto; contradiction).
      unfold into in Hi. rewrite (field_at _ _ _ _ _ Hf Hv) in Hi. destruct (a_exported f); [|discriminate]. split; auto.
      destruct (Unm (a_type f) u v) as [[w|w|] c]; cbn [fst] in Hi; try discriminate. injection Hi as <-. exists w, c. split; auto.
      apply nth_error_upd_eq. eapply nth_error_some_lt; eauto.
  Qed.

  (* ---- Send ---- *)
  Definition sent (h : handler) (obj : list val) (x : nat * bytes) (e : bytes * node) : Prop :=
    fst e = snd x /\ exists f v, the_field h obj (fst x) = Some (f, v) /\ a_exported f = true /\ mar (a_type f) v = Ok (snd e).
  Lemma send_ok h obj l : forall d d', send h obj d l = Ok d' <->
    exists es, Forall2 (sent h obj) l es /\ d' = fold_left (fun m e => mset beqb m (fst e) (snd e)) es d.
  Proof.
    induction l as [|[i name] l IH]; intros d d'; cbn [send].
    - split; [intros H; injection H as <-; exists []; split; [constructor|reflexivity]|]. intros (es & H & ->). inversion H. reflexivity.
    - split.
      + destruct (the_field h obj i) as [[f v]|] eqn:E; [|discriminate]. unfold put. destruct (a_exported f) eqn:Ee; [|discriminate].
        destruct (mar (a_type f) v) as [n|] eqn:Em; [|discriminate]. cbn [rbind]. intros H. apply IH in H as (es & H1 & H2).
        exists ((name, n) :: es). split; [constructor; auto|exact H2]. split; auto. exists f, v. auto.
      + intros (es & H & ->). inversion H as [|? [k n] ? es' [Hk (f & v & E & Ee & Em)] Hes]; subst. cbn [fst snd] in *. subst k. rewrite E. unfold put. rewrite Ee, Em.
        cbn [rbind]. apply IH. exists es'. auto.
  Qed.
  Lemma send_agree h l : forall d o o', (forall i name, In (i, name) l -> nth_error o i = nth_error o' i) -> send h o d l = send h o' d l.
  Proof.
    induction l as [|[i name] l IH]; intros d o o' H; cbn [send]; auto. assert (E : the_field h o i = the_field h o' i) by (unfold the_field; now rewrite (H i name (or_introl eq_refl))).
    rewrite E. destruct (the_field h o' i) as [[f v]|]; auto. destruct (put d name f v); cbn [rbind]; auto. apply IH. intros j nm Hj. apply (H j nm). now right.
  Qed.
  Lemma sent_keys h obj l es : Forall2 (sent h obj) l es -> map fst es = map snd l.
  Proof. induction 1 as [|x e l es [H _] Hs IH]; cbn; congruence. Qed.
  Lemma fold_mset_keys {V} (es : list (bytes * V)) : forall d k, In k (map fst (fold_left (fun m e => mset beqb m (fst e) (snd e)) es d)) <-> In k (map fst d) \/ In k (map fst es).
  Proof.
    induction es as [|[k0 v] es IH]; intros d k; cbn [fold_left map In fst snd]; [tauto|]. rewrite IH, (mset_keys_in beqb beqb_ok). intuition congruence.
  Qed.
  Lemma fold_mset_nodup' {V} (es : list (bytes * V)) : forall d, NoDup (map fst d) -> NoDup (map fst (fold_left (fun m e => mset beqb m (fst e) (snd e)) es d)).
  Proof. induction es as [|[k0 v] es IH]; intros d H; cbn [fold_left fst snd]; auto. apply IH. now apply (mset_nodup beqb beqb_ok). Qed.
  Lemma last_of_nodup {V} (es : list (bytes * V)) k v : NoDup (map fst es) -> In (k, v) es -> last_of es k = Some v.
  Proof.
    induction es as [|[k0 v0] es IH]; cbn [map fst last_of In]; intros Hnd Hi; [contradiction|]. inversion Hnd as [|? ? Hni Hnd']; subst.
    destruct Hi as [Hi|Hi]; [|now rewrite IH]. injection Hi as -> ->. assert (Hl : last_of es k = None).
    { clear -Hni. induction es as [|[k1 v1] es IH]; cbn [last_of map fst] in *; auto. rewrite IH by (intros H; apply Hni; now right).
      rewrite (eqb_ne beqb beqb_ok); auto. intros ->. apply Hni. now left. }
    rewrite Hl, beqb_refl. reflexivity.
  Qed.
End Recv.
