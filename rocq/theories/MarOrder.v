(* The order in which Go lists maps does not matter to Unmarshal: C74. *)
From Coq Require Import Bool Ascii String Arith NArith ZArith Lia List Sorted Permutation.
From Verif Require Import Prelude PreludeFacts Utf8Model Utf8Facts DecModel DecFacts DurModel DurProofs EncModel JsonModel KvSpec JsonSpec JsonFacts KvProofs JsonProofs MarModel MarSpec MarFacts MarProofs MarStruct.
Import ListNotations.

Lemma ukey_fit k a b : fit_key k a -> fit_key k b -> ukey k a = ukey k b -> a = b.
Proof.
  destruct k as [|w|w]; cbn [fit_key ukey].
  - congruence.
  - intros (z & Hz & ->) (z' & Hz' & ->). rewrite !parse_int_decz by eauto using int64_range. rewrite !swrap_id by auto. congruence.
  - intros (z & Hz & ->) (z' & Hz' & ->). pose proof (uint64 _ _ Hz) as H1. pose proof (uint64 _ _ Hz') as H2. unfold uint_range in H1, H2. cbn in H1, H2.
    rewrite !parse_uint_decz by lia. rewrite !uwrap_id by auto. congruence.
Qed.

(* entries one by one, when nothing panics *)
Section Entries.
  Context (k : kty) (F : list pel -> node -> ures * list call) (p : list pel).
  Definition entry (e : bytes * node) : option (key * val) :=
    match ukey k (fst e), fst (F (p ++ [PVal]) (snd e)) with Some x, UOk v => Some (x, v) | _, _ => None end.
  Fixpoint all_some {A} (l : list (option A)) : option (list A) :=
    match l with
    | [] => Some []
    | Some a :: r => match all_some r with Some r' => Some (a :: r') | None => None end
    | None :: _ => None
    end.
  Lemma entries_all m : (forall e, In e m -> fst (F (p ++ [PVal]) (snd e)) <> UPanic) -> forall acc,
    fst (unm_entries k F p acc m) = match all_some (map entry m) with Some l => EOk (fold_left (fun a e => kset a (fst e) (snd e)) l acc) | None => EErr end.
  Proof.
    induction m as [|[s n] m IH]; intros Hp acc; cbn [unm_entries map all_some]; auto. unfold entry at 1. cbn [fst snd].
    pose proof (Hp (s, n) (or_introl eq_refl)) as Hp0. cbn [fst snd] in Hp0. destruct (ukey k s) as [x|]; [|reflexivity].
    destruct (F (p ++ [PVal]) n) as [[v|v|] c]; cbn [fst] in *; [|reflexivity|congruence].
    specialize (IH (fun e Hi => Hp e (or_intror Hi)) (kset acc x v)). destruct (unm_entries k F p (kset acc x v) m) as [e c']. cbn [fst] in *. rewrite IH.
    destruct (all_some (map entry m)); reflexivity.
  Qed.
End Entries.
Lemma all_some_perm {A} (l l' : list (option A)) : Permutation l l' ->
  match all_some l, all_some l' with Some a, Some b => Permutation a b | None, None => True | _, _ => False end.
Proof.
  induction 1 as [|x l l' H IH|x y l|l1 l2 l3 H1 IH1 H2 IH2]; cbn [all_some]; auto.
  - destruct x as [a|]; auto. destruct (all_some l), (all_some l'); auto.
  - destruct x as [a|], y as [b|]; auto; destruct (all_some l); auto. apply perm_swap.
  - destruct (all_some l1), (all_some l2), (all_some l3); auto; try contradiction. now transitivity l0.
Qed.
Lemma fold_kset l : forall acc, StronglySorted kle acc -> NoDup (map fst acc ++ map fst l) ->
  StronglySorted kle (fold_left (fun a e => kset a (fst e) (snd e)) l acc) /\ Permutation (fold_left (fun a e => kset a (fst e) (snd e)) l acc) (acc ++ l).
Proof.
  induction l as [|[x v] l IH]; intros acc Ha Hnd; cbn [fold_left map fst snd] in *.
  - rewrite app_nil_r. auto.
  - assert (Hfresh : ~ In x (map fst acc)). { intros Hi. apply NoDup_remove_2 in Hnd. apply Hnd. apply in_or_app. auto. }
    pose proof (kset_perm acc x v Hfresh) as Hp. destruct (IH (kset acc x v)) as [I1 I2].
    + now apply kset_sorted.
    + eapply Permutation_NoDup; [|exact Hnd]. rewrite <- Permutation_middle. change (x :: map fst acc ++ map fst l) with (map fst ((x, v) :: acc) ++ map fst l).
      apply Permutation_app_tail. now apply Permutation_map.
    + split; auto. rewrite I2, <- Hp. cbn [app]. apply Permutation_middle.
Qed.
Lemma all_some_keys k F p m : (forall e, In e m -> fit_key k (fst e)) -> NoDup (map fst m) -> forall l, all_some (map (entry k F p) m) = Some l -> NoDup (map fst l).
Proof.
  assert (Hin : forall m l, all_some (map (entry k F p) m) = Some l -> forall x, In x (map fst l) -> exists e, In e m /\ ukey k (fst e) = Some x).
  { induction m0 as [|e m0 IH]; cbn [map all_some]; intros l H x Hi; [inversion H; subst; contradiction|].
    destruct (entry k F p e) as [[y v]|] eqn:E; [|discriminate]. destruct (all_some (map (entry k F p) m0)) as [l'|]; [|discriminate]. inversion H; subst. cbn in Hi. destruct Hi as [<-|Hi].
    - exists e. split; [now left|]. unfold entry in E. destruct (ukey k (fst e)); [|discriminate]. destruct (fst _); inversion E; auto.
    - destruct (IH l' eq_refl x Hi) as (e' & H1 & H2). exists e'. split; auto. now right. }
  induction m as [|e m IH]; intros Hf Hnd l H; cbn [map all_some] in H; [inversion H; constructor|].
  destruct (entry k F p e) as [[y v]|] eqn:E; [|discriminate]. destruct (all_some (map (entry k F p) m)) as [l'|] eqn:El; [|discriminate]. inversion H; subst. cbn [map fst].
  inversion Hnd as [|? ? Hni Hnd']; subst. constructor; [|apply IH; auto; intros e' Hi; apply Hf; now right].
  intros Hi. destruct (Hin m l' El y Hi) as (e' & H1 & H2). apply Hni.
  assert (ukey k (fst e) = Some y). { unfold entry in E. destruct (ukey k (fst e)); [|discriminate]. destruct (fst _); inversion E; auto. }
  replace (fst e) with (fst e'); [now apply in_map|]. apply (ukey_fit k); [apply Hf; now right|apply Hf; now left|congruence].
Qed.

Section Order.
  Context (f2i f2u : floatv -> Z).
  Notation unm := (unm f2i f2u None).

  Lemma distinct_in_list l x : distinct_keys (NList l) -> In x l -> distinct_keys x.
  Proof. cbn. induction l as [|a l IH]; cbn; intros H [].
    - subst. apply H.
    - apply IH; tauto. Qed.
  Lemma distinct_is_map n m : distinct_keys n -> is_map n m -> NoDup (map fst m) /\ forall k x, In (k, x) m -> distinct_keys x.
  Proof.
    intros H [->|(ps & -> & ->)].
    - destruct H as [H1 H2]. split; auto. intros k x Hi. induction m as [|e m IH]; [contradiction|]. inversion H1 as [|? ? Q1 Q2]; subst. destruct H2 as [G1 G2]. destruct Hi as [->|Hi]; auto.
    - split; [apply asmap_nodup|]. intros k x Hi. apply asmap_in in Hi as [name Hi]. cbn in H. induction ps as [|e m IH]; [contradiction|]. destruct H as [H1 H2]. destruct Hi as [->|Hi]; auto.
  Qed.
  Lemma no_dur_list l x : no_dur (NList l) -> In x l -> no_dur x.
  Proof. cbn. induction l as [|a l IH]; cbn; intros H [].
    - subst. apply H.
    - apply IH; tauto. Qed.
  Lemma same_or_reorder n n' : reorder n n' -> n = n' \/ (exists l l', n = NList l /\ n' = NList l' /\ Forall2 reorder l l') \/
    (exists m m', is_map n m /\ is_map n' m' /\ exists mm, Permutation m mm /\ Forall2 (ent reorder) mm m').
  Proof.
    intros H. inversion H as [|l l' Hl|l mm l' Hp Hl|l l' Hl]; subst; auto.
    - right; left. eauto.
    - right; right. exists l, l'. split; [now left|]. split; [now left|]. exists mm. auto.
    - right; right. exists (AsMap l), (AsMap l'). split; [right; eauto|]. split; [right; eauto|]. exists (AsMap l). split; auto. apply asmap_ent. auto.
  Qed.
  Lemma is_map_null n m : is_map n m -> n <> NNil.
  Proof. intros [->|(ps & -> & _)]; discriminate. Qed.

  Lemma order t : forall p n n' v, tags_ok t -> no_dur n -> no_dur n' -> distinct_keys n -> fits t n -> reorder n n' -> fst (unm t p n v) = fst (unm t p n' v).
  Proof.
    induction t as [ | w | w | | t IH | t IH | k t IH | k t IH | fs IH] using ty_nest; intros p n n' v Ht Hn Hn' Hd Hf H;
      destruct (same_or_reorder n n' H) as [<-|[(l & l' & -> & -> & Hl)|(m & m' & Hm & Hm' & mm & Hp & He)]]; auto;
      try (destruct Hm as [->|(ps & -> & ->)]; destruct Hm' as [->|(ps' & -> & ->)]; reflexivity).
    - specialize (IH p (NList l) (NList l') (zero t) Ht Hn Hn' Hd Hf H). cbn [MarModel.unm].
      destruct (unm t p (NList l) (zero t)) as [u c], (unm t p (NList l') (zero t)) as [u' c']. cbn [fst] in *. subst. reflexivity.
    - specialize (IH p n n' (zero t) Ht Hn Hn' Hd Hf H). cbn [MarModel.unm]. apply is_map_null in Hm, Hm'.
      destruct n, n'; try congruence; (match goal with |- context [MarModel.unm _ _ _ t p ?a (zero t)] => destruct (unm t p a (zero t)) as [u c] end;
        match goal with |- context [MarModel.unm _ _ _ t p ?a (zero t)] => destruct (unm t p a (zero t)) as [u' c'] end; cbn [fst] in *; subst; reflexivity).
    - cbn [MarModel.unm]. assert (E : forall i, fst (unm_elems (fun p n => unm t p n (zero t)) p i l) = fst (unm_elems (fun p n => unm t p n (zero t)) p i l')).
      { assert (Hall : forall x, In x l -> no_dur x /\ distinct_keys x /\ fits t x).
        { intros x Hi. exact (conj (no_dur_list l x Hn Hi) (conj (distinct_in_list l x Hd Hi) (Hf l x eq_refl Hi))). }
        assert (Hall' : forall x, In x l' -> no_dur x) by (intros x; now apply no_dur_list). clear -Hl IH Ht Hall Hall'.
        induction Hl as [|a b l l' H1 H2 IHl]; intros i; cbn [unm_elems]; auto. destruct (Hall a (or_introl eq_refl)) as (A1 & A2 & A3).
        pose proof (IH (p ++ [PIdx i]) a b (zero t) Ht A1 (Hall' b (or_introl eq_refl)) A2 A3 H1) as E.
        specialize (IHl (fun x Hi => Hall x (or_intror Hi)) (fun x Hi => Hall' x (or_intror Hi)) (S i)).
        destruct (unm t (p ++ [PIdx i]) a (zero t)) as [u c], (unm t (p ++ [PIdx i]) b (zero t)) as [u' c']. cbn [fst] in E. subst u'. destruct u; auto.
        destruct (unm_elems _ p (S i) l) as [e d], (unm_elems _ p (S i) l') as [e' d']. cbn [fst] in *. now subst. }
      specialize (E 0). destruct (unm_elems _ p 0 l) as [e d], (unm_elems _ p 0 l') as [e' d']. cbn [fst] in *. now subst.
    - cbn [MarModel.unm]. assert (E : forall i, fst (unm_elems (fun p n => unm t p n (zero t)) p i l) = fst (unm_elems (fun p n => unm t p n (zero t)) p i l')).
      { assert (Hall : forall x, In x l -> no_dur x /\ distinct_keys x /\ fits t x).
        { intros x Hi. exact (conj (no_dur_list l x Hn Hi) (conj (distinct_in_list l x Hd Hi) (Hf l x eq_refl Hi))). }
        assert (Hall' : forall x, In x l' -> no_dur x) by (intros x; now apply no_dur_list). clear -Hl IH Ht Hall Hall'.
        induction Hl as [|a b l l' H1 H2 IHl]; intros i; cbn [unm_elems]; auto. destruct (Hall a (or_introl eq_refl)) as (A1 & A2 & A3).
        pose proof (IH (p ++ [PIdx i]) a b (zero t) Ht A1 (Hall' b (or_introl eq_refl)) A2 A3 H1) as E.
        specialize (IHl (fun x Hi => Hall x (or_intror Hi)) (fun x Hi => Hall' x (or_intror Hi)) (S i)).
        destruct (unm t (p ++ [PIdx i]) a (zero t)) as [u c], (unm t (p ++ [PIdx i]) b (zero t)) as [u' c']. cbn [fst] in E. subst u'. destruct u; auto.
        destruct (unm_elems _ p (S i) l) as [e d], (unm_elems _ p (S i) l') as [e' d']. cbn [fst] in *. now subst. }
      specialize (E 0). rewrite (F2_length _ _ _ Hl). destruct (length l' =? k); auto. destruct (unm_elems _ p 0 l) as [e d], (unm_elems _ p 0 l') as [e' d']. cbn [fst] in *. now subst.
    - destruct (distinct_is_map n m Hd Hm) as [Hnd Hdx]. pose proof (no_dur_is_map n m Hn Hm) as Hnx. pose proof (no_dur_is_map n' m' Hn' Hm') as Hnx'.
      pose proof (fun s x => Hf m s x Hm) as Hfx.
      assert (Hents : map (entry k (fun p n => unm t p n (zero t)) p) mm = map (entry k (fun p n => unm t p n (zero t)) p) m').
      { assert (Hall : forall e, In e mm -> no_dur (snd e) /\ distinct_keys (snd e) /\ fits t (snd e)).
        { intros [s x] Hi. apply (Permutation_in _ (Permutation_sym Hp)) in Hi. cbn [snd]. split; [eauto|split; [eauto|eapply Hfx; eauto]]. }
        assert (Hall' : forall e, In e m' -> no_dur (snd e)) by (intros [s x] Hi; cbn; eauto). clear -He IH Ht Hall Hall'.
        induction He as [|[s x] [s' y] a b [E1 E2] H2 IHl]; cbn [map]; auto. cbn in E1, E2. subst s'. rewrite (IHl (fun e Hi => Hall e (or_intror Hi)) (fun e Hi => Hall' e (or_intror Hi))). f_equal. unfold entry. cbn [fst snd].
        destruct (Hall (s, x) (or_introl eq_refl)) as (A1 & A2 & A3). rewrite (IH (p ++ [PVal]) x y (zero t) Ht A1 (Hall' (s, y) (or_introl eq_refl)) A2 A3 E2). reflexivity. }
      assert (E : fst (unm_entries k (fun p n => unm t p n (zero t)) p [] m) = fst (unm_entries k (fun p n => unm t p n (zero t)) p [] m')).
      { rewrite !entries_all; [| |intros [s x] Hi; apply no_panic; eauto].
        2:{ intros [s x] Hi. apply no_panic; auto. cbn. eauto. }
        rewrite <- Hents. pose proof (all_some_perm _ _ (Permutation_map (entry k (fun p n => unm t p n (zero t)) p) Hp)) as Ha.
        pose proof (all_some_keys k (fun p n => unm t p n (zero t)) p m (fun e Hi => proj1 (Hfx (fst e) (snd e) (eq_ind _ (fun z => In z m) Hi _ (surjective_pairing e)))) Hnd) as Hk.
        destruct (all_some (map _ m)) as [a|], (all_some (map _ mm)) as [b|]; try contradiction; auto. f_equal. specialize (Hk a eq_refl).
        destruct (fold_kset a []) as [A1 A2]; [constructor|exact Hk|]. destruct (fold_kset b []) as [B1 B2]; [constructor|cbn; eapply Permutation_NoDup; [apply Permutation_map; eauto|auto]|].
        apply kle_unique; auto. rewrite A2, B2. exact Ha. }
      assert (Eu : forall n m, is_map n m -> fst (unm (TMap k t) p n v) = match fst (unm_entries k (fun p n => unm t p n (zero t)) p [] m) with EOk l => UOk (VMap l) | EErr => UErr v | EPanic => UPanic end).
      { intros n0 m0 [->|(ps & -> & ->)]; cbn [MarModel.unm]; [destruct (unm_entries _ _ p [] m0)|destruct (unm_entries _ _ p [] (AsMap ps))]; reflexivity. }
      rewrite (Eu n m Hm), (Eu n' m' Hm'), E. reflexivity.
    - destruct (distinct_is_map n m Hd Hm) as [Hnd Hdx]. pose proof (no_dur_is_map n m Hn Hm) as Hnx. pose proof (no_dur_is_map n' m' Hn' Hm') as Hnx'.
      pose proof (fun s x => Hf m s x Hm) as Hfx. pose proof (tags_fields fs Ht) as Htf.
      assert (Hrel : maps_rel reorder m m').
      { eapply perm_rel; eauto. apply ent_rel; auto. eapply Permutation_NoDup; [apply Permutation_map; eauto|auto]. }
      destruct Hrel as [_ Hrel]. destruct v as [| | | | | | |vs]; try (destruct Hm as [->|(ps & -> & ->)]; destruct Hm' as [->|(ps' & -> & ->)]; reflexivity).
      rewrite (unm_is_map f2i f2u None fs p n m vs Hm), (unm_is_map f2i f2u None fs p n' m' vs Hm'). unfold unm_struct.
      assert (E : fst (unm_fields p m (map (fun f => (fst f, unm (snd f))) fs) vs) = fst (unm_fields p m' (map (fun f => (fst f, unm (snd f))) fs) vs)).
      { clear Hf Ht. revert vs. induction fs as [|[f t] fs IHf]; intros [|v vs]; cbn [unm_fields map fst snd]; auto.
        specialize (IHf (fun f' t' Hi => IH f' t' (or_intror Hi))). specialize (IHf (fun s x Hi => proj2 (Hfx s x Hi))). specialize (IHf (fun f' t' Hi => Htf f' t' (or_intror Hi)) vs).
        destruct (unm_fields p m _ vs) as [[e r] c], (unm_fields p m' _ vs) as [[e' r'] c']. cbn [fst] in IHf. inversion IHf; subst.
        destruct (vis_cases f (proj1 (Htf f t (or_introl eq_refl)))) as [(E1 & E2)|[(E1 & E2 & E3)|(name & o & E1 & E2 & E3)]]; rewrite E1; [reflexivity| |]; rewrite E2; cbn [g_json];
          (match goal with |- context [mget beqb m ?q] => specialize (Hrel q); destruct (mget beqb m q) as [x|] eqn:Ex, (mget beqb m' q) as [y|] eqn:Ey; try contradiction; [|reflexivity] end;
          apply mget_some_in in Ex; apply mget_some_in in Ey).
        - pose proof (IH f t (or_introl eq_refl) (p ++ [PName (f_name f)]) x y v (proj2 (Htf f t (or_introl eq_refl))) (Hnx _ _ Ex) (Hnx' _ _ Ey) (Hdx _ _ Ex) (proj1 (Hfx _ _ Ex) (or_introl eq_refl)) Hrel) as E.
          destruct (unm t (p ++ [PName (f_name f)]) x v) as [u cu], (unm t (p ++ [PName (f_name f)]) y v) as [u' cu']. cbn [fst] in E. subst u'. destruct u; reflexivity.
        - assert (Htag : exists o, tagged f name o) by (exists o; now apply tagged_vis).
          pose proof (IH f t (or_introl eq_refl) (p ++ [PName (f_name f)]) x y v (proj2 (Htf f t (or_introl eq_refl))) (Hnx _ _ Ex) (Hnx' _ _ Ey) (Hdx _ _ Ex) (proj1 (Hfx _ _ Ex) (or_intror Htag)) Hrel) as E.
          destruct (unm t (p ++ [PName (f_name f)]) x v) as [u cu], (unm t (p ++ [PName (f_name f)]) y v) as [u' cu']. cbn [fst] in E. subst u'. destruct u; reflexivity. }
      destruct (unm_fields p m _ vs) as [[e r] c], (unm_fields p m' _ vs) as [[e' r'] c']. cbn [fst] in E. inversion E; subst. destruct e'; reflexivity.
  Qed.
  Lemma no_dur_reorder n : forall n', reorder n n' -> no_dur n -> no_dur n'.
  Proof.
    intros n' H. revert n' n H. fix IH 3. intros n' n H Hn. destruct H as [n|l l' Hl|l m l' Hp Hl|l l' Hl]; auto.
    - cbn in *. induction Hl as [|a b l l' H1 H2 IHl]; cbn in *; auto. split; [eapply IH; [exact H1|apply Hn]|apply IHl, Hn].
    - assert (Hm : fold_right (fun x P => no_dur (snd x) /\ P) True m).
      { cbn in Hn. clear Hl IH. induction Hp; cbn in *; tauto. }
      clear Hn Hp. cbn. induction Hl as [|a b m l' H1 H2 IHl]; cbn in *; auto. destruct H1 as [_ H1]. split; [eapply IH; [exact H1|apply Hm]|apply IHl, Hm].
    - cbn in *. induction Hl as [|a b m l' H1 H2 IHl]; cbn in *; auto. destruct H1 as [_ H1]. split; [eapply IH; [exact H1|apply Hn]|apply IHl, Hn].
  Qed.

  (* Pairs and the map they turn into read the same *)
  Lemma pairs_map t : forall p ps v, unm t p (NPairs ps) v = unm t p (NMap (AsMap ps)) v.
  Proof. induction t using ty_nest; intros p ps v; try reflexivity. cbn [MarModel.unm]. now rewrite IHt. Qed.
End Order.

(* what Decode gives has no Duration *)
Lemma fromNative_no_dur : forall v, no_dur (fromNative v).
Proof.
  fix IH 1. intros [| | | |l|l]; cbn [fromNative no_dur]; try exact I.
  - induction l as [|x l IHl]; cbn [map fold_right]; [exact I|]. split; [apply IH|exact IHl].
  - induction l as [|[k x] l IHl]; cbn [map fold_right fst snd]; [exact I|]. split; [apply IH|exact IHl].
Qed.
Lemma decode_no_dur j n : Decode j = Good (Some n) -> no_dur n.
Proof.
  unfold Decode. destruct j as [|c j]; [discriminate|]. destruct (pvalue _ 0 (c :: j)) as [[v r]|]; [|discriminate].
  intros H. injection H as <-. apply fromNative_no_dur.
Qed.
