(* Unmarshal into a variable that holds a value. *)
From Coq Require Import Bool Ascii String Arith NArith ZArith Lia List Sorted Permutation.
From Verif Require Import Prelude PreludeFacts Utf8Model DecModel DurModel DurProofs EncModel JsonModel KvSpec JsonSpec JsonFacts KvProofs JsonProofs MarModel MarSpec MarFacts MarProofs ConfModel ConfSpec ApiModel ApiSpec.
Import ListNotations.

(* not a struct: the old value does not matter *)
Lemma unm_old f2i f2u uf t p n o o' w c : (forall fs, t <> TStruct fs) ->
  unm f2i f2u uf t p n o = (UOk w, c) -> unm f2i f2u uf t p n o' = (UOk w, c).
Proof.
  intros Ht. destruct t; try (exfalso; eapply Ht; reflexivity); cbn [unm]; destruct n; auto; cbn [unm_num];
    repeat match goal with |- context [match ?x with _ => _ end] => destruct x end; auto; try discriminate.
Qed.
Lemma fields_comes (U : ty -> list pel -> node -> val -> ures * list call) p m (fs : list (fld * ty)) : mget beqb m [] = None -> forall vs os,
  (forall f t, In (f, t) fs -> okfld f) ->
  fieldwise (fun f t v => forall name o, vis f = Some (name, o) ->
    if o && blank v then mget beqb m name = None else
      exists x, mget beqb m name = Some x /\ forall p old, hasty t old -> (U t p x old = (UOk v, []) <-> comes t v old)
        /\ snd (U t p x old) = []) fs vs ->
  fieldwise (fun _ t o => hasty t o) fs os ->
  let r := unm_fields p m (map (fun f => (fst f, U (snd f))) fs) os in
  (r = (EOk tt, vs, []) <-> comes (TStruct fs) (VStruct vs) (VStruct os)) /\ snd r = [].
Proof.
  intros Hm. cbn [comes]. induction fs as [|[f t] fs IH]; intros [|v vs] [|o os] Hok Hf Ht; cbn [fieldwise] in Hf, Ht; try contradiction; cbn [unm_fields map fst snd fieldwise2].
  - cbn. tauto.
  - destruct Hf as [H Hf], Ht as [Ho Ht]. assert (Hok' : forall f0 t0, In (f0, t0) fs -> okfld f0) by (intros f0 t0 Hi; eapply Hok; right; eauto).
    specialize (IH vs os Hok' Hf Ht). cbv zeta in IH.
    destruct (unm_fields p m (map (fun f => (fst f, U (snd f))) fs) os) as [[e r] c]. cbn [snd] in IH.
    destruct IH as [IH ->].
    assert (Hfl : okfld f) by (apply (Hok f t); now left). destruct Hfl as [_ Hfl].
    assert (Hkeep : forall w, (e, w :: r, @nil call) = (EOk tt, v :: vs, []) <-> w = v /\ (e, r, @nil call) = (EOk tt, vs, [])).
    { intros w. split; [intros E; inversion E; auto|intros [-> E]; inversion E; auto]. }
    assert (Hnone : vis f = None -> hidden f) by (intros E; destruct Hfl as [Hh|(nm & o' & T)]; auto; apply tagged_vis in T; congruence).
    assert (Hskip : vis f = None -> ((e, o :: r, @nil call) = (EOk tt, v :: vs, []) <->
       ((hidden f -> o = v) /\ (forall name om, tagged f name om -> if om && blank v then o = v else comes t v o)) /\
       fieldwise2 (fun f t' v' o' => (hidden f -> o' = v') /\ (forall name om, tagged f name om -> if om && blank v' then o' = v' else comes t' v' o')) fs vs os)).
    { intros Hv. rewrite Hkeep, IH. split.
      - intros [E F]. split; auto. split; auto. intros name om T. apply tagged_vis in T. congruence.
      - intros [[E _] F]. auto. }
    destruct (vis_cases f Hfl) as [(E1 & E2)|[(E1 & E2 & E3)|(name & om & E1 & E2 & E3)]].
    + rewrite E1. cbn [app snd]. split; auto.
    + rewrite E1, E2. cbn [g_json]. rewrite Hm. cbn [app snd]. split; auto.
    + rewrite E1, E2. cbn [g_json]. specialize (H _ _ E3).
      assert (Hhid : ~ hidden f) by (intros Hh; apply hidden_vis in Hh; congruence).
      assert (Htag : forall Q : Prop, (Q <-> if om && blank v then o = v else comes t v o) ->
         (Q <-> (hidden f -> o = v) /\ (forall name om, tagged f name om -> if om && blank v then o = v else comes t v o))).
      { intros Q HQ. rewrite HQ. split.
        - intros X. split; [contradiction|]. intros nm om' T. apply tagged_vis in T. rewrite E3 in T. injection T as <- <-. exact X.
        - intros [_ X]. apply (X name om). now apply tagged_vis. }
      destruct (om && blank v) eqn:Eo.
      * rewrite H. cbn [app snd]. split; auto. rewrite Hkeep, IH, (Htag (o = v)); [tauto|tauto].
      * destruct H as (x & Hx & H). rewrite Hx. specialize (H (p ++ [PName (f_name f)]) o Ho).
        destruct (U t (p ++ [PName (f_name f)]) x o) as [[w|w|] c]; destruct H as [H Hc]; cbn [fst snd] in *; subst c.
        -- cbn [app snd]. split; auto. rewrite Hkeep, IH, (Htag (w = v)); [tauto|]. rewrite <- H. split; [now intros ->|intros E; now inversion E].
        -- split; auto. split; [discriminate|]. intros [[_ X] _]. apply tagged_vis in E3. specialize (X _ _ E3). rewrite Eo in X. apply H in X. discriminate.
        -- split; auto. split; [discriminate|]. intros [[_ X] _]. apply tagged_vis in E3. specialize (X _ _ E3). rewrite Eo in X. apply H in X. discriminate.
Qed.
Lemma unm_into f2i f2u uf t : forall v n p old, wfty t -> hasty t v -> hasty t old -> repr t v n ->
  (unm f2i f2u uf t p n old = (UOk v, []) <-> comes t v old) /\ snd (unm f2i f2u uf t p n old) = [].
Proof.
  assert (Hflat : forall t v n p old, (forall fs, t <> TStruct fs) -> wfty t -> hasty t v -> repr t v n ->
    (unm f2i f2u uf t p n old = (UOk v, []) <-> keeps t v)).
  { clear. intros t v n p old Hs Hw Ht H. destruct (came_iff t v _ Hw Ht (unm_repr f2i f2u uf t v n p Hw Ht H)) as [Hc _]. rewrite <- Hc.
    split; intros E; eapply unm_old; eauto. }
  assert (Hcalls : forall t v n p old, (forall fs, t <> TStruct fs) -> wfty t -> hasty t v -> repr t v n -> snd (unm f2i f2u uf t p n old) = []).
  { clear. intros t v n p old Hs Hw Ht H. destruct (came_iff t v _ Hw Ht (unm_repr f2i f2u uf t v n p Hw Ht H)) as (_ & Hc & _).
    rewrite <- Hc. destruct t; try (exfalso; eapply Hs; reflexivity); cbn [unm]; destruct n; auto; 
      repeat match goal with |- context [let (_, _) := ?x in _] => destruct x end; auto;
      match goal with |- context [length ?l =? ?k] => destruct (length l =? k) end; auto;
      repeat match goal with |- context [let (_, _) := ?x in _] => destruct x end; auto. }
  induction t as [ | w | w | | t IH | t IH | k t IH | k t IH | fs IH] using ty_nest; intros v n p old Hw Ht Ho H;
    try (match goal with |- context [unm _ _ _ ?T _ _ _] => assert (Hns : forall fs, T <> TStruct fs) by (intros fs' E; discriminate E);
         split; [exact (Hflat T v n p old Hns Hw Ht H)|exact (Hcalls T v n p old Hns Hw Ht H)] end).
  destruct v as [| | | | | | |vs]; cbn [hasty repr] in *; try contradiction. destruct old as [| | | | | | |os]; try contradiction.
  destruct H as (m & Hmap & Hnd & Hin & Hf). pose proof (wf_fields fs Hw) as [Hd Hok].
  assert (Hno : mget beqb m [] = None).
  { apply mget_none; [apply beqb_ok|]. intros Hi. apply Hin in Hi. revert Hi. apply vnames_nonnil. intros f Hi. apply in_map_iff in Hi as ([f' t] & <- & Hi).
    now apply (Hok f' t). }
  destruct (fields_comes (unm f2i f2u uf) p m fs Hno vs os) as [Hc1 Hc2]; auto.
  { intros f t Hi. now apply (Hok f t). }
  { eapply fieldwise_impl; [|apply (fieldwise_and _ _ _ _ Hf Ht)]. cbn beta. intros f t v Hi [Hx Hv] name o Hvis. specialize (Hx _ _ Hvis).
    destruct (o && blank v); auto. destruct Hx as (x & Hx1 & Hx2). exists x. split; auto. intros q old Hold. apply (IH f t); auto. now apply (Hok f t). }
  assert (Hgoal : (let '(e, vs', c) := unm_fields p m (map (fun f => (fst f, unm f2i f2u uf (snd f))) fs) os in
     match e with
     | EOk _ => match uf with
                | None => (UOk (VStruct vs'), c)
                | Some h => let (bad, c') := unhandled h p (seen (map fst fs)) m in (if bad then UErr (VStruct vs') else UOk (VStruct vs'), c ++ c')
                end
     | EErr => (UErr (VStruct vs'), c)
     | EPanic => (UPanic, c)
     end) = let '(e, vs', c) := unm_fields p m (map (fun f => (fst f, unm f2i f2u uf (snd f))) fs) os in
     (match e with EOk _ => UOk (VStruct vs') | EErr => UErr (VStruct vs') | EPanic => UPanic end, [])).
  { destruct (unm_fields p m (map (fun f => (fst f, unm f2i f2u uf (snd f))) fs) os) as [[e r] c]. cbn [snd] in Hc2. subst c.
    destruct e; auto. destruct uf; auto. rewrite unhandled_none; auto. intros k Hk. apply vnames_seen. auto. }
  assert (Hfin : (let '(e, vs', c) := unm_fields p m (map (fun f => (fst f, unm f2i f2u uf (snd f))) fs) os in
     (match e with EOk _ => UOk (VStruct vs') | EErr => UErr (VStruct vs') | EPanic => UPanic end, @nil call)) = (UOk (VStruct vs), []) <->
     comes (TStruct fs) (VStruct vs) (VStruct os)).
  { rewrite <- Hc1. destruct (unm_fields p m (map (fun f => (fst f, unm f2i f2u uf (snd f))) fs) os) as [[[u| |] r] c]; cbn [snd] in Hc2; subst c;
      try destruct u; split; intros E; inversion E; auto. }
  assert (Hsnd : snd (let '(e, vs', c) := unm_fields p m (map (fun f => (fst f, unm f2i f2u uf (snd f))) fs) os in
     (match e with EOk _ => UOk (VStruct vs') | EErr => UErr (VStruct vs') | EPanic => UPanic end, @nil call)) = []).
  { destruct (unm_fields p m (map (fun f => (fst f, unm f2i f2u uf (snd f))) fs) os) as [[e r] c]. reflexivity. }
  rewrite <- Hgoal in Hfin, Hsnd. destruct Hmap as [->|(ps & -> & ->)]; (split; [exact Hfin|exact Hsnd]).
Qed.
