(* Proofs about Marshal and Unmarshal. *)
From Coq Require Import Bool Ascii String Arith NArith ZArith Lia List Sorted Permutation.
From Verif Require Import Prelude PreludeFacts Utf8Model Utf8Facts DecModel DecFacts DurModel DurProofs EncModel JsonModel KvSpec JsonSpec JsonFacts KvProofs JsonProofs MarModel MarSpec MarFacts.
Import ListNotations.

Lemma ty_nest (P : ty -> Prop) : P TBool -> (forall w, P (TInt w)) -> (forall w, P (TUint w)) -> P TStr ->
  (forall t, P t -> P (TPtr t)) -> (forall t, P t -> P (TSlice t)) -> (forall n t, P t -> P (TArr n t)) ->
  (forall k t, P t -> P (TMap k t)) -> (forall fs, (forall f t, In (f, t) fs -> P t) -> P (TStruct fs)) -> forall t, P t.
Proof.
  intros H1 H2 H3 H4 H5 H6 H7 H8 H9. fix IH 1. intros t. destruct t as [ | w | w | | t | t | n t | k t | fs];
    [exact H1|apply H2|apply H3|exact H4|apply H5, IH|apply H6, IH|apply H7, IH|apply H8, IH|].
  apply H9. induction fs as [|[f t] fs IHf]; intros f' t' Hi; [destruct Hi|]. destruct Hi as [Hi|Hi]; [|apply (IHf _ _ Hi)].
  pose proof (IH t) as Ht. apply (f_equal snd) in Hi. cbn in Hi. rewrite <- Hi. exact Ht.
Qed.
Section FieldFacts.
  Context {A : Type}.
  Lemma fieldwise_impl (P Q : fld -> A -> val -> Prop) fs : forall vs, (forall f t v, In (f, t) fs -> P f t v -> Q f t v) ->
    fieldwise P fs vs -> fieldwise Q fs vs.
  Proof.
    induction fs as [|[f t] fs IH]; intros [|v vs]; cbn [fieldwise]; auto. intros H [H1 H2]. split.
    - apply H; auto. now left.
    - apply IH; auto. intros f' t' v' Hi. apply H. now right.
  Qed.
  Lemma fieldwise_and (P Q : fld -> A -> val -> Prop) fs : forall vs, fieldwise P fs vs -> fieldwise Q fs vs ->
    fieldwise (fun f t v => P f t v /\ Q f t v) fs vs.
  Proof. induction fs as [|[f t] fs IH]; intros [|v vs]; cbn [fieldwise]; auto. intros [] []. auto. Qed.
  Lemma fieldwise_map {C} (g : A -> C) (P : fld -> C -> val -> Prop) fs : forall vs,
    fieldwise P (map (fun f => (fst f, g (snd f))) fs) vs <-> fieldwise (fun f t v => P f (g t) v) fs vs.
  Proof. induction fs as [|[f t] fs IH]; intros [|v vs]; cbn [fieldwise map fst snd]; try tauto. rewrite IH. tauto. Qed.
End FieldFacts.

(* ---- what comes back ---- *)
Section Mapf.
  Context (h : fld -> ty -> val -> val).
  Fixpoint mapf (fs : list (fld * ty)) (vs : list val) : list val :=
    match fs, vs with
    | (f, t) :: fs', v :: vs' => h f t v :: mapf fs' vs'
    | _, _ => []
    end.
End Mapf.
Fixpoint nf (t : ty) (v : val) {struct t} : val :=
  match t, v with
  | TPtr t', VPtr v' => if nullish v' then VNil else VPtr (nf t' v')
  | TSlice t', VList l | TArr _ t', VList l => VList (map (nf t') l)
  | TMap k t', VMap l => VMap (map (fun e => (fst e, nf t' (snd e))) l)
  | TStruct fs, VStruct vs =>
      VStruct (mapf (fun f t' v' => match vis f with
                                    | Some (_, o) => if o && blank v' then zero t' else nf t' v'
                                    | None => zero t'
                                    end) fs vs)
  | _, v => v
  end.
(* the keys that are read can be read *)
Fixpoint keysok (t : ty) (v : val) {struct t} : Prop :=
  match t, v with
  | TPtr t', VPtr v' => keysok t' v'
  | TSlice t', VList l | TArr _ t', VList l => Forall (keysok t') l
  | TMap k t', VMap l => Forall (fun e => key_small k (fst e) /\ keysok t' (snd e)) l
  | TStruct fs, VStruct vs =>
      fieldwise (fun f t' v' => forall name o, vis f = Some (name, o) -> o && blank v' = false -> keysok t' v') fs vs
  | _, _ => True
  end.

(* n stands for v *)
Definition vnames (fs : list fld) : list bytes :=
  flat_map (fun f => match vis f with Some (name, _) => [name] | None => [] end) fs.
Fixpoint repr (t : ty) (v : val) (n : node) {struct t} : Prop :=
  match t, v with
  | TBool, VBool b => n = NBool b
  | TInt _, VNum z => n = NInt z \/ n = NDigits (decz z)
  | TUint _, VNum z => n = NInt (swrap W64 z) \/ ((z < 2 ^ 63)%Z /\ n = NDigits (decz z))
  | TStr, VStr s => n = NStr s
  | TPtr _, VNil | TSlice _, VNil | TMap _ _, VNil => n = NNil
  | TPtr t', VPtr v' => repr t' v' n
  | TSlice t', VList l | TArr _ t', VList l => exists ns, n = NList ns /\ Forall2 (repr t') l ns
  | TMap k t', VMap l => exists m m', n = NMap m /\ Permutation m' m /\
      Forall2 (fun e x => fst x = ktext k (fst e) /\ repr t' (snd e) (snd x)) l m'
  | TStruct fs, VStruct vs => exists m, is_map n m /\ NoDup (map fst m) /\
      (forall k, In k (map fst m) -> In k (vnames (map fst fs))) /\
      fieldwise (fun f t' v' => forall name o, vis f = Some (name, o) ->
        if o && blank v' then mget beqb m name = None else exists x, mget beqb m name = Some x /\ repr t' v' x) fs vs
  | _, _ => False
  end.

(* ---- types ---- *)
Definition okfld (f : fld) : Prop := f_name f <> [] /\ (hidden f \/ exists name o, tagged f name o).
Lemma wf_fields fs : wfty (TStruct fs) ->
  distinct_names fs /\ (forall f t, In (f, t) fs -> okfld f /\ wfty t).
Proof.
  cbn [wfty]. intros [H1 H2]. split; auto. clear H1. induction fs as [|[f t] fs IH]; cbn in H2; intros f' t' Hi; [destruct Hi|].
  destruct H2 as (H2 & H3 & H4). destruct Hi as [Hi|Hi]; [inversion Hi; subst; auto|now apply IH].
Qed.
Lemma distinct_tail {A} x (fs : list (fld * A)) : distinct_names (x :: fs) -> distinct_names fs.
Proof.
  intros H i j f g t u name o o' H1 H2 H3 H4. assert (S i = S j); [|lia].
  eapply (H (S i) (S j)); cbn; eauto.
Qed.
Lemma distinct_vnames {A} (fs : list (fld * A)) : distinct_names fs -> NoDup (vnames (map fst fs)).
Proof.
  induction fs as [|[f t] fs IH]; intros H; cbn [vnames map fst flat_map]; [constructor|].
  pose proof (IH (distinct_tail _ _ H)) as IH'. unfold vnames in IH'. destruct (vis f) as [[name o]|] eqn:E; auto. cbn [app]. constructor; auto.
  intros Hi. apply in_flat_map in Hi as (g & Hg & Hi). apply in_map_iff in Hg as ([g' u] & <- & Hg). cbn in Hi.
  destruct (vis g') as [[name' o']|] eqn:E'; [|destruct Hi]. destruct Hi as [<-|[]].
  apply In_nth_error in Hg as [j Hj]. assert (0 = S j); [|lia].
  eapply (H 0 (S j)); cbn; eauto; apply tagged_vis; eauto.
Qed.
Lemma vnames_nonnil fs : (forall f, In f fs -> f_name f <> []) -> ~ In [] (vnames fs).
Proof.
  intros H Hi. apply in_flat_map in Hi as (f & Hf & Hi). destruct (vis f) as [[name o]|] eqn:E; [|destruct Hi].
  destruct Hi as [->|[]]. apply tagged_vis in E as (_ & _ & j & _ & E & _). destruct j; [|discriminate]. now apply (H f).
Qed.

(* ---- null, blank ---- *)
Lemma repr_null t : forall v n, repr t v n -> (n = NNil <-> nullish v = true).
Proof.
  induction t as [ | w | w | | t IH | t IH | k t IH | k t IH | fs IH] using ty_nest; intros v n H; destruct v; cbn [repr nullish] in *; try contradiction;
    try (now subst n; split; discriminate); try (now subst n; split; auto).
  - destruct H; subst n; split; discriminate.
  - destruct H as [H|[_ H]]; subst n; split; discriminate.
  - now apply IH.
  - destruct H as (ns & -> & _). split; discriminate.
  - destruct H as (ns & -> & _). split; discriminate.
  - destruct H as (m & m' & -> & _). split; discriminate.
  - destruct H as (m & [->|(ps & -> & _)] & _); split; discriminate.
Qed.
Lemma blank_mar t : forall v n, hasty t v -> mar t v = Ok n -> is_empty n = blank v.
Proof.
  induction t as [ | w | w | | t IH | t IH | k t IH | k t IH | fs IH] using ty_nest; intros v n H E; destruct v; cbn [mar hasty blank] in *; try contradiction;
    try (inversion E; subst; reflexivity).
  - inversion E; subst. cbn. apply swrap_zero. eauto using uint64.
  - eauto.
  - destruct (mar_elems (mar t) l); inversion E; reflexivity.
  - destruct (mar_elems (mar t) l); inversion E; reflexivity.
  - destruct (mar_entries k (mar t) [] l); inversion E; reflexivity.
  - destruct (mar_fields _ l); inversion E; reflexivity.
Qed.

(* ---- Marshal gives a node that stands for the value ---- *)
Lemma mar_elems_ok (f : val -> res node) (P : val -> node -> Prop) l :
  Forall (fun v => exists n, f v = Ok n /\ P v n) l -> exists ns, mar_elems f l = Ok ns /\ Forall2 P l ns.
Proof.
  induction 1 as [|v l (n & H1 & H2) _ (ns & H3 & H4)]; cbn [mar_elems]; [exists []; auto|].
  rewrite H1. cbn [rbind]. rewrite H3. cbn. eauto.
Qed.
Lemma mset_fresh (m : list (bytes * node)) k n : ~ In k (map fst m) -> mset beqb m k n = m ++ [(k, n)].
Proof.
  induction m as [|[k' n'] m IH]; cbn [mset map fst In app]; intros H; auto. destruct (beqb k k') eqn:E.
  - apply beqb_eq in E. subst. tauto.
  - rewrite IH; auto.
Qed.
Lemma mar_entries_ok k (f : val -> res node) (P : val -> node -> Prop) l : forall acc,
  Forall (fun e => exists n, f (snd e) = Ok n /\ P (snd e) n) l -> NoDup (map fst acc ++ map (fun e => ktext k (fst e)) l) ->
  exists m, mar_entries k f acc l = Ok (acc ++ m) /\ Forall2 (fun e x => fst x = ktext k (fst e) /\ P (snd e) (snd x)) l m.
Proof.
  induction l as [|[x v] l IH]; intros acc H Hnd; cbn [mar_entries].
  - exists []. rewrite app_nil_r. auto.
  - inversion H as [|? ? (n & H1 & H2) H3]; subst. cbn [snd fst map] in *. rewrite H1. cbn [rbind].
    rewrite mset_fresh. 2:{ intros Hi. apply NoDup_remove_2 in Hnd. apply Hnd. apply in_or_app. auto. }
    destruct (IH (acc ++ [(ktext k x, n)])) as (m & Hm1 & Hm2); auto.
    { rewrite map_app. cbn. rewrite <- app_assoc. exact Hnd. }
    exists ((ktext k x, n) :: m). rewrite Hm1, <- app_assoc. split; auto.
Qed.
Lemma ktexts_nodup k (l : list (key * val)) : NoDup (map fst l) -> Forall (fun e => key_of k (fst e)) l -> NoDup (map (fun e => ktext k (fst e)) l).
Proof.
  induction l as [|e l IH]; cbn [map]; intros Hn Hk; [constructor|]. inversion Hn; inversion Hk; subst. constructor; auto.
  intros Hi. apply in_map_iff in Hi as (e' & He & Hi). rewrite Forall_forall in *. apply ktext_inj in He; auto.
  apply H1. rewrite <- He. now apply in_map.
Qed.
Lemma mar_fields_ok (fs : list (fld * ty)) : forall vs,
  (forall f t, In (f, t) fs -> okfld f) ->
  fieldwise (fun _ t v => hasty t v /\ exists n, mar t v = Ok n /\ repr t v n) fs vs -> NoDup (vnames (map fst fs)) ->
  exists ps, mar_fields (map (fun f => (fst f, mar (snd f))) fs) vs = Ok ps /\
    NoDup (map (fun q => snd (fst q)) ps) /\
    (forall k, In k (map (fun q => snd (fst q)) ps) -> In k (vnames (map fst fs))) /\
    fieldwise (fun f t v => forall name o, vis f = Some (name, o) ->
      if o && blank v then Find ps name = None else exists x, Find ps name = Some x /\ repr t v x) fs vs.
Proof.
  induction fs as [|[f t] fs IH]; intros [|v vs] Hok Hf Hnd; cbn [fieldwise] in Hf; try contradiction; cbn [mar_fields map fst snd].
  - exists []. cbn. repeat split; auto; constructor.
  - destruct Hf as [(Ht & n & Hn & Hr) Hf]. cbn [vnames map fst flat_map] in Hnd. fold (vnames (map fst fs)) in Hnd.
    assert (Hok' : forall f0 t0, In (f0, t0) fs -> okfld f0) by (intros f0 t0 Hi; eapply Hok; right; eauto).
    assert (Hnd' : NoDup (vnames (map fst fs))).
    { destruct (vis f) as [[name o]|]; cbn in Hnd; auto. now inversion Hnd. }
    destruct (IH vs Hok' Hf Hnd') as (ps & Hps & H1 & H2 & H3).
    destruct (vis_cases f) as [(E1 & E2)|[(E1 & E2 & E3)|(name & o & E1 & E2 & E3)]].
    { apply (Hok f t). now left. }
    + rewrite E1. exists ps. split; auto. split; auto. cbn [vnames map fst flat_map]. rewrite E2. cbn. split; auto.
      split; auto. intros name o Hv. congruence.
    + rewrite E1, E2. cbn [rbind g_skip]. exists ps. split; auto. split; auto. cbn [vnames map fst flat_map]. rewrite E3. cbn. split; auto.
      split; auto. intros name o Hv. congruence.
    + rewrite E1, E2. cbn [rbind g_skip g_omit g_json]. rewrite Hn. cbn [rbind]. rewrite Hps. cbn [rbind].
      rewrite (blank_mar t v n Ht Hn). rewrite E3 in Hnd. cbn in Hnd. inversion Hnd as [|? ? Hni _]; subst.
      assert (Hfresh : Find ps name = None).
      { rewrite Find_first. destruct (find _ ps) as [q|] eqn:E; auto. apply find_some in E as [Hq Eq]. apply beqb_eq in Eq. exfalso. apply Hni.
        apply H2. apply in_map_iff. eauto. }
      assert (Hrest : forall name' g u, In (g, u) fs -> vis g = Some name' -> fst name' <> name).
      { intros [name' o'] g u Hg Hv Hx. cbn in Hx. subst. apply Hni. apply in_flat_map. exists g. split; [apply in_map_iff; exists (g, u); auto|]. rewrite Hv. now left. }
      destruct (o && blank v) eqn:Eo.
      * exists ps. split; auto. split; auto. cbn [vnames map fst flat_map]. rewrite E3. cbn [app fieldwise]. split.
        { intros k Hk. right. now apply H2. }
        split; auto. intros name' o' Hv. rewrite E3 in Hv. inversion Hv; subst. rewrite Eo. auto.
      * exists ((f_name f, name, n) :: ps). split; auto. cbn [map fst snd]. split.
        { constructor; auto. }
        cbn [vnames map fst flat_map]. rewrite E3. cbn [app fieldwise]. split.
        { intros k [<-|Hk]; [now left|right; now apply H2]. }
        split.
        { intros name' o' Hv. rewrite E3 in Hv. inversion Hv; subst. rewrite Eo. exists n. split; auto. cbn [Find fst snd].
          replace (beqb name' name') with true by (symmetry; now apply beqb_eq). reflexivity. }
        eapply fieldwise_impl; [|exact H3]. intros g u w Hg Hx name' o' Hv. specialize (Hx _ _ Hv).
        pose proof (Hrest _ _ _ Hg Hv) as Hne. cbn [fst] in Hne. cbn [Find fst snd].
        replace (beqb name name') with false by (symmetry; apply beqb_neq; congruence). exact Hx.
Qed.
Lemma asmap_keys ps k : In k (map fst (AsMap ps)) <-> In k (map (fun q => snd (fst q)) ps).
Proof.
  induction ps as [|p ps IH] using rev_ind; [reflexivity|]. unfold AsMap. rewrite fold_left_app. cbn [fold_left]. fold (AsMap ps).
  rewrite mset_keys_in by apply beqb_ok. rewrite IH, map_app, in_app_iff. cbn. intuition.
Qed.
Lemma asmap_nodup ps : NoDup (map fst (AsMap ps)).
Proof.
  induction ps as [|p ps IH] using rev_ind; [constructor|]. unfold AsMap. rewrite fold_left_app. cbn [fold_left]. fold (AsMap ps).
  apply mset_nodup; auto using beqb_ok.
Qed.
Lemma mar_repr t : forall v, wfty t -> hasty t v -> exists n, mar t v = Ok n /\ repr t v n.
Proof.
  induction t as [ | w | w | | t IH | t IH | k t IH | k t IH | fs IH] using ty_nest; intros v Hw H; destruct v; cbn [mar hasty repr wfty] in *; try contradiction;
    try (eexists; split; [reflexivity|auto; fail]).
  - auto.
  - destruct (mar_elems_ok (mar t) (repr t) l) as (ns & H1 & H2).
    { eapply Forall_impl; [|exact H]. auto. }
    rewrite H1. cbn. eauto.
  - destruct H as [_ H]. destruct (mar_elems_ok (mar t) (repr t) l) as (ns & H1 & H2).
    { eapply Forall_impl; [|exact H]. auto. }
    rewrite H1. cbn. eauto.
  - destruct H as [Hs H]. destruct (mar_entries_ok k (mar t) (repr t) l []) as (m & H1 & H2).
    { eapply Forall_impl; [|exact H]. cbn. intros e [_ He]. auto. }
    { cbn. apply ktexts_nodup; [now apply sorted_nodup|]. eapply Forall_impl; [|exact H]. cbn. tauto. }
    rewrite H1. cbn. exists (NMap m). split; auto. exists m, m. auto.
  - pose proof (wf_fields fs Hw) as [Hd Hf]. destruct (mar_fields_ok fs l) as (ps & H1 & H2 & H3 & H4).
    + intros f t Hi. now apply (Hf f t).
    + eapply fieldwise_impl; [|exact H]. cbn beta. intros f t v Hi Hv. split; auto. apply (IH f t Hi); auto. now apply (Hf f t).
    + now apply distinct_vnames.
    + rewrite H1. cbn. eexists. split; [reflexivity|]. exists (AsMap ps). split; [right; eauto|]. split; [apply asmap_nodup|]. split.
      * intros k Hk. apply H3. now apply asmap_keys.
      * eapply fieldwise_impl; [|exact H4]. cbn beta. intros f t v Hi Hx name o Hv. specialize (Hx _ _ Hv). rewrite Find_AsMap by auto. exact Hx.
Qed.

(* ---- Unmarshal of a node that stands for a value ---- *)
Lemma Forall2_perm {A C} (R : A -> C -> Prop) m m' : Permutation m m' -> forall l, Forall2 R l m -> exists l', Permutation l l' /\ Forall2 R l' m'.
Proof.
  induction 1 as [|x m m' H IH|x y m|m m' m'' H1 IH1 H2 IH2]; intros l Hl.
  - inversion Hl; subst. exists []. auto.
  - inversion Hl as [|a ? l0 ? Ha Hl0]; subst. destruct (IH _ Hl0) as (l' & H1 & H2). exists (a :: l'). auto.
  - inversion Hl as [|a ? l0 ? Ha Hl0]; subst. inversion Hl0 as [|b ? l1 ? Hb Hl1]; subst. exists (b :: a :: l1). split; [apply perm_swap|auto].
  - destruct (IH1 _ Hl) as (l1 & H3 & H4). destruct (IH2 _ H4) as (l2 & H5 & H6). exists l2. split; auto. now transitivity l1.
Qed.

Lemma Forall2_impl_in {A C} (R R' : A -> C -> Prop) (P : A -> Prop) l m : (forall a c, R a c -> P a -> R' a c) ->
  Forall2 R l m -> Forall P l -> Forall2 R' l m.
Proof. intros H. induction 1; intros Hp; inversion Hp; subst; constructor; auto. Qed.

Lemma F2_length {A C} (R : A -> C -> Prop) l m : Forall2 R l m -> length l = length m.
Proof. induction 1; cbn; auto. Qed.
Definition came (t : ty) (v : val) (r : ures * list call) : Prop :=
  snd r = [] /\ match fst r with UOk w => keysok t v /\ w = nf t v | UErr _ => ~ keysok t v | UPanic => False end.

Lemma elems_came t (F : list pel -> node -> ures * list call) p l ns : Forall2 (fun v n => forall p, came t v (F p n)) l ns -> forall i,
  snd (unm_elems F p i ns) = [] /\
  match fst (unm_elems F p i ns) with
  | EOk vs => Forall (keysok t) l /\ vs = map (nf t) l
  | EErr => ~ Forall (keysok t) l
  | EPanic => False
  end.
Proof.
  induction 1 as [|v n l ns H Hl IH]; intros i; cbn [unm_elems fst snd map]; [auto|].
  specialize (H (p ++ [PIdx i])). destruct (F (p ++ [PIdx i]) n) as [[w|w|] c]; destruct H as [Hc H]; cbn [fst snd] in *; subst c.
  - destruct H as [H ->]. specialize (IH (S i)). destruct (unm_elems F p (S i) ns) as [e c]. cbn [fst snd] in *. destruct IH as [-> IH].
    split; auto. destruct e as [vs| |]; auto.
    + destruct IH as [IH ->]. auto.
    + intros Hf. inversion Hf; auto.
  - split; auto. intros Hf. inversion Hf; auto.
  - contradiction.
Qed.

Lemma entries_came k t (F : list pel -> node -> ures * list call) p es m :
  Forall2 (fun e x => fst x = ktext k (fst e) /\ forall p, came t (snd e) (F p (snd x))) es m -> Forall (fun e => key_of k (fst e)) es ->
  forall acc, StronglySorted kle acc -> NoDup (map fst acc ++ map fst es) ->
  snd (unm_entries k F p acc m) = [] /\
  match fst (unm_entries k F p acc m) with
  | EOk r => Forall (fun e => key_small k (fst e) /\ keysok t (snd e)) es /\ StronglySorted kle r /\
             Permutation r (acc ++ map (fun e => (fst e, nf t (snd e))) es)
  | EErr => ~ Forall (fun e => key_small k (fst e) /\ keysok t (snd e)) es
  | EPanic => False
  end.
Proof.
  induction 1 as [|[x v] [s n] es m [Hs H] Hl IH]; intros Hk acc Ha Hnd; cbn [unm_entries fst snd map] in *.
  { rewrite app_nil_r. auto. }
  inversion Hk as [|? ? Hk1 Hk2]; subst. cbn [fst] in Hk1.
  assert (Hdec : key_small k x \/ ~ key_small k x).
  { destruct k, x; cbn; auto. lia. }
  destruct Hdec as [Hsm|Hsm].
  2:{ rewrite ukey_big by auto. cbn. split; auto. intros Hf. inversion Hf; subst. cbn in *. tauto. }
  rewrite ukey_ktext by auto. specialize (H (p ++ [PVal])).
  destruct (F (p ++ [PVal]) n) as [[w|w|] c]; destruct H as [Hc H]; cbn [fst snd] in *; subst c.
  - destruct H as [H ->]. assert (Hfresh : ~ In x (map fst acc)).
    { intros Hi. apply NoDup_remove_2 in Hnd. apply Hnd. apply in_or_app. auto. }
    pose proof (kset_perm acc x (nf t v) Hfresh) as Hp.
    destruct (IH Hk2 (kset acc x (nf t v))) as [IHc IH'].
    { now apply kset_sorted. }
    { eapply Permutation_NoDup; [|exact Hnd]. rewrite <- Permutation_middle. change (x :: map fst acc ++ map fst es) with (map fst ((x, nf t v) :: acc) ++ map fst es).
      apply Permutation_app_tail. now apply Permutation_map. }
    destruct (unm_entries k F p (kset acc x (nf t v)) m) as [e c]. cbn [fst snd] in *. subst c. split; auto.
    destruct e as [r| |]; auto.
    + destruct IH' as (I1 & I2 & I3). split; [constructor; auto|]. split; auto. rewrite I3, <- Hp. cbn [app]. apply Permutation_middle.
    + intros Hf. inversion Hf; auto.
  - split; auto. intros Hf. inversion Hf; subst. cbn in *. tauto.
  - contradiction.
Qed.

Lemma fields_came (U : ty -> list pel -> node -> val -> ures * list call) p m (fs : list (fld * ty)) : mget beqb m [] = None -> forall vs,
  (forall f t, In (f, t) fs -> okfld f) ->
  fieldwise (fun f t v => forall name o, vis f = Some (name, o) ->
    if o && blank v then mget beqb m name = None else exists x, mget beqb m name = Some x /\ forall p, came t v (U t p x (zero t))) fs vs ->
  let '(e, r, c) := unm_fields p m (map (fun f => (fst f, U (snd f))) fs) (map (fun f => zero (snd f)) fs) in
  c = [] /\
  match e with
  | EOk _ => keysok (TStruct fs) (VStruct vs) /\ VStruct r = nf (TStruct fs) (VStruct vs)
  | EErr => ~ keysok (TStruct fs) (VStruct vs)
  | EPanic => False
  end.
Proof.
  intros Hm. cbn [keysok nf]. induction fs as [|[f t] fs IH]; intros [|v vs] Hok Hf; cbn [fieldwise] in Hf; try contradiction; cbn [unm_fields map fst snd fieldwise mapf].
  - auto.
  - destruct Hf as [H Hf]. assert (Hok' : forall f0 t0, In (f0, t0) fs -> okfld f0) by (intros f0 t0 Hi; eapply Hok; right; eauto).
    specialize (IH vs Hok' Hf).
    destruct (unm_fields p m (map (fun f => (fst f, U (snd f))) fs) (map (fun f => zero (snd f)) fs)) as [[e r] c].
    destruct IH as [-> IH].
    destruct (vis_cases f) as [(E1 & E2)|[(E1 & E2 & E3)|(name & o & E1 & E2 & E3)]].
    { apply (Hok f t). now left. }
    + rewrite E1, E2. cbn. split; auto. destruct e as [u| |]; auto.
      * destruct IH as [I1 I2]. split; [split; auto; intros; congruence|]. inversion I2. reflexivity.
      * intros [_ Hx]. auto.
    + rewrite E1, E2, E3. cbn [g_json]. rewrite Hm. cbn. split; auto. destruct e as [u| |]; auto.
      * destruct IH as [I1 I2]. split; [split; auto; intros; congruence|]. inversion I2. reflexivity.
      * intros [_ Hx]. auto.
    + rewrite E1, E2, E3. cbn [g_json]. specialize (H _ _ E3). destruct (o && blank v) eqn:Eo.
      * rewrite H. cbn. split; auto. destruct e as [u| |]; auto.
        -- destruct IH as [I1 I2]. split; [split; auto|]. { intros n' o' Hv Hb. inversion Hv; subst. congruence. } inversion I2. reflexivity.
        -- intros [_ Hx]. auto.
      * destruct H as (x & Hx & H). rewrite Hx. specialize (H (p ++ [PName (f_name f)])).
        destruct (U t (p ++ [PName (f_name f)]) x (zero t)) as [[w|w|] c]; destruct H as [Hc H]; cbn [fst snd] in *; subst c.
        -- destruct H as [H ->]. cbn. split; auto. destruct e as [u| |]; auto.
           ++ destruct IH as [I1 I2]. split; [split; auto|]. inversion I2. reflexivity.
           ++ intros [_ Hy]. auto.
        -- split; auto. intros [Hy _]. apply H. eapply Hy; eauto.
        -- contradiction.
Qed.
Lemma vnames_seen fs k : In k (vnames fs) -> In k (seen fs).
Proof.
  induction fs as [|f fs IH]; cbn [vnames flat_map seen]; auto. unfold vis at 1. destruct (f_exported f); [|exact IH].
  destruct (parseTag f) as [tg|]; [|exact IH]. destruct (g_skip tg); cbn; intuition.
Qed.
Lemma unhandled_none h p names m : (forall k, In k (map fst m) -> In k names) -> unhandled h p names m = (false, []).
Proof.
  induction m as [|[k n] m IH]; cbn [unhandled map fst]; intros H; auto.
  replace (existsb (beqb k) names) with true.
  - apply IH. intros k' Hk. apply H. now right.
  - symmetry. apply existsb_exists. exists k. split; [apply H; now left|now apply beqb_eq].
Qed.
Lemma unm_repr f2i f2u uf t : forall v n p, wfty t -> hasty t v -> repr t v n -> came t v (unm f2i f2u uf t p n (zero t)).
Proof.
  induction t as [ | w | w | | t IH | t IH | k t IH | k t IH | fs IH] using ty_nest; intros v n p Hw Ht H; destruct v; cbn [hasty repr wfty] in *; try contradiction.
  - subst n. cbn. unfold came. cbn. auto.
  - assert (parse_int (trimDecimal (decz z)) = Some z) as E by (rewrite trim_decz; apply parse_int_decz; eauto using int64_range).
    destruct H as [->| ->]; unfold came; cbn [unm unm_num fst snd keysok nf]; rewrite ?E, swrap_id by auto; auto.
  - pose proof (uint64 _ _ Ht) as Ht64. destruct H as [->|[Hs ->]]; unfold came; cbn [unm unm_num fst snd keysok nf].
    + rewrite uwrap_swrap by auto. rewrite uwrap_id by auto. auto.
    + rewrite trim_decz, parse_uint_decz by (unfold uint_range in Ht64; cbn in Ht64; lia). rewrite uwrap_id by auto. auto.
  - subst n. unfold came. cbn. auto.
  - subst n. unfold came. cbn. auto.
  - pose proof (IH v n p Hw Ht H) as Hc. pose proof (repr_null t v n H) as Hn. cbn [unm]. cbn [keysok nf came].
    assert (Hnn : nullish v = true -> keysok t v).
    { clear. revert t. induction v; intros t; destruct t; cbn; auto; discriminate. }
    destruct (nullish v) eqn:En.
    + rewrite (proj2 Hn eq_refl). unfold came. cbn [fst snd keysok nf]. rewrite En. auto.
    + unfold came. cbn [fst snd keysok nf]. rewrite En. destruct n; try (exfalso; destruct Hn as [Hn _]; specialize (Hn eq_refl); discriminate);
      (match goal with |- context [unm _ _ _ t p ?n0 (zero t)] => destruct (unm f2i f2u uf t p n0 (zero t)) as [[u|u|] c] end;
       destruct Hc as [Hc1 Hc2]; cbn [fst snd] in *; subst c; split; auto; try (destruct Hc2 as [Hc2 ->]; auto)).
  - subst n. unfold came. cbn. auto.
  - destruct H as (ns & -> & H). cbn [unm]. 
    destruct (elems_came t (fun p n => unm f2i f2u uf t p n (zero t)) p l ns) with (i := 0) as [H1 H2].
    { eapply Forall2_impl_in; [|exact H|exact Ht]. cbn beta. auto. }
    destruct (unm_elems (fun p n => unm f2i f2u uf t p n (zero t)) p 0 ns) as [e c]. cbn [fst snd] in *. subst c. unfold came. cbn [fst snd keysok nf]. split; auto.
    destruct e; auto. destruct H2 as [H2 ->]. auto.
  - destruct H as (ns & -> & H). cbn [unm]. destruct Ht as [Hlen Ht].
    destruct (elems_came t (fun p n => unm f2i f2u uf t p n (zero t)) p l ns) with (i := 0) as [H1 H2].
    { eapply Forall2_impl_in; [|exact H|exact Ht]. cbn beta. auto. }
    rewrite <- (F2_length _ _ _ H), Hlen, Nat.eqb_refl.
    destruct (unm_elems (fun p n => unm f2i f2u uf t p n (zero t)) p 0 ns) as [e c]. cbn [fst snd] in *. subst c. unfold came. cbn [fst snd keysok nf]. split; auto.
    destruct e; auto. destruct H2 as [H2 ->]. auto.
  - subst n. unfold came. cbn. auto.
  - destruct H as (m & m' & -> & Hp & H). cbn [unm]. destruct Ht as [Hs Ht].
    destruct (Forall2_perm _ _ _ Hp _ H) as (es & Hpe & He).
    assert (Hte : Forall (fun e => key_of k (fst e) /\ hasty t (snd e)) es) by (eapply Permutation_Forall; eauto).
    destruct (entries_came k t (fun p n => unm f2i f2u uf t p n (zero t)) p es m) with (acc := @nil (key * val)) as [H1 H2].
    { eapply Forall2_impl_in; [|exact He|exact Hte]. cbn beta. intros e x [Ek Hx] [E1 E2]. split; auto. }
    { eapply Forall_impl; [|exact Hte]. cbn beta. tauto. }
    { constructor. }
    { cbn. eapply Permutation_NoDup; [apply Permutation_map; exact Hpe|]. now apply sorted_nodup. }
    destruct (unm_entries k (fun p n => unm f2i f2u uf t p n (zero t)) p [] m) as [e c]. cbn [fst snd] in *. subst c. unfold came. cbn [fst snd keysok nf]. split; auto.
    destruct e as [r| |]; auto.
    + destruct H2 as (I1 & I2 & I3). split.
      * eapply Permutation_Forall; [symmetry; exact Hpe|exact I1].
      * f_equal. apply kle_unique; auto.
        -- now apply sorted_map.
        -- rewrite I3. cbn. symmetry. now apply Permutation_map.
    + intros Hf. apply H2. eapply Permutation_Forall; eauto.
  - destruct H as (m & Hmap & Hnd & Hin & Hf). pose proof (wf_fields fs Hw) as [Hd Hok].
    assert (Hno : mget beqb m [] = None).
    { apply mget_none; [apply beqb_ok|]. intros Hi. apply Hin in Hi. revert Hi. apply vnames_nonnil. intros f Hi. apply in_map_iff in Hi as ([f' t] & <- & Hi).
      now apply (Hok f' t). }
    pose proof (fields_came (unm f2i f2u uf) p m fs Hno l) as Hc.
    assert (Hcame : came (TStruct fs) (VStruct l)
      (let '(e, vs', c) := unm_fields p m (map (fun f => (fst f, unm f2i f2u uf (snd f))) fs) (map (fun f => zero (snd f)) fs) in
       match e with
       | EOk _ => match uf with
                  | None => (UOk (VStruct vs'), c)
                  | Some h => let (bad, c') := unhandled h p (seen (map fst fs)) m in (if bad then UErr (VStruct vs') else UOk (VStruct vs'), c ++ c')
                  end
       | EErr => (UErr (VStruct vs'), c)
       | EPanic => (UPanic, c)
       end)).
    { match type of Hc with ?A -> ?C -> _ => assert (HA : A); [|assert (HC : C)] end.
      - intros f t Hi. now apply (Hok f t).
      - eapply fieldwise_impl; [|apply (fieldwise_and _ _ _ _ Hf Ht)]. cbn beta. intros f t v Hi [Hx Hv] name o Hvis. specialize (Hx _ _ Hvis).
        destruct (o && blank v); auto. destruct Hx as (x & Hx1 & Hx2). exists x. split; auto. intros q. apply (IH f t); auto. now apply (Hok f t).
      - specialize (Hc HA HC). destruct (unm_fields p m (map (fun f => (fst f, unm f2i f2u uf (snd f))) fs) (map (fun f => zero (snd f)) fs)) as [[e r] c].
        destruct Hc as [-> Hc]. destruct e as [u| |]; unfold came; auto. destruct Hc as [Hc ->]. destruct uf as [h|].
        + rewrite unhandled_none; cbn [fst snd app]; auto. intros k Hk. apply vnames_seen. auto.
        + cbn [fst snd]. auto. }
    destruct Hmap as [->|(ps & -> & ->)]; exact Hcame.
Qed.

(* ---- exactly what comes back unchanged ---- *)
Lemma blank_keeps t : blank (zero t) = true -> keeps t (zero t).
Proof. destruct t; cbn; auto; discriminate. Qed.
Lemma keeps_field f t v : okfld f -> hasty t v -> (keeps t v <-> keysok t v /\ nf t v = v) ->
  (((hidden f -> v = zero t) /\ (forall name o, tagged f name o -> keeps t v /\ (o = true -> blank v = true -> v = zero t))) <->
   ((forall name o, vis f = Some (name, o) -> o && blank v = false -> keysok t v) /\
    match vis f with Some (_, o) => if o && blank v then zero t else nf t v | None => zero t end = v)).
Proof.
  intros Hok Ht Hk. destruct (vis f) as [[name o]|] eqn:E.
  - assert (Htag : tagged f name o) by now apply tagged_vis.
    assert (Huniq : forall name' o', tagged f name' o' -> o' = o). { intros name' o' H. apply tagged_vis in H. congruence. }
    assert (Hnh : ~ hidden f). { intros Hh. apply hidden_vis in Hh. congruence. }
    split.
    + intros [_ H]. destruct (H _ _ Htag) as [H1 H2]. split; [intros; now apply Hk|].
      destruct o; cbn [andb]; [|now apply Hk]. destruct (blank v) eqn:Eb; [symmetry; auto|now apply Hk].
    + intros [H1 H2]. split; [tauto|]. intros name' o' Ht'. rewrite (Huniq _ _ Ht'). destruct (o && blank v) eqn:Eb.
      * apply andb_true_iff in Eb as [-> Eb]. subst v. split; auto. now apply blank_keeps.
      * split; [apply Hk; eauto|]. intros -> Hb. rewrite Hb in Eb. discriminate.
  - assert (Hh : hidden f) by (eapply vis_hidden; eauto; apply Hok). split.
    + intros [H _]. split; [discriminate|symmetry; auto].
    + intros [_ H]. split; [auto|]. intros name o Ht'. apply tagged_vis in Ht'. congruence.
Qed.
Lemma keeps_fields (fs : list (fld * ty)) : (forall f t, In (f, t) fs -> okfld f /\ forall v, hasty t v -> (keeps t v <-> keysok t v /\ nf t v = v)) ->
  forall vs, fieldwise (fun _ t v => hasty t v) fs vs ->
  (keeps (TStruct fs) (VStruct vs) <-> keysok (TStruct fs) (VStruct vs) /\ nf (TStruct fs) (VStruct vs) = VStruct vs).
Proof.
  cbn [keeps keysok nf]. induction fs as [|[f t] fs IH]; intros H [|v vs] Hf; cbn [fieldwise mapf] in *; try contradiction; [tauto|].
  destruct Hf as [Ht Hf]. specialize (IH (fun f t Hi => H f t (or_intror Hi)) vs Hf). destruct (H f t (or_introl eq_refl)) as [Hok Hk]. specialize (Hk v Ht).
  pose proof (keeps_field f t v Hok Ht Hk) as Hone. clear H Hk Hok.
  rewrite Hone, IH. clear Hone IH. split.
  - intros [[H1 H2] [H3 H4]]. repeat split; auto. inversion H4. congruence.
  - intros [[H1 H3] H2]. injection H2 as H4 H5. repeat split; auto. now f_equal.
Qed.
Lemma map_id_iff {A} (g : A -> A) l : map g l = l <-> Forall (fun x => g x = x) l.
Proof.
  induction l as [|a l IH]; cbn; split; auto; intros H.
  - injection H as H1 H2. constructor; [auto|]. now apply IH.
  - inversion H; subst. f_equal; auto. now apply IH.
Qed.
Lemma Forall_iff {A} (P Q : A -> Prop) l : Forall (fun x => P x <-> Q x) l -> (Forall P l <-> Forall Q l).
Proof. intros H. rewrite !Forall_forall in *. split; intros Hx x Hi; apply (H x Hi); auto. Qed.
Lemma Forall_both {A} (P Q : A -> Prop) l : Forall (fun x => P x /\ Q x) l <-> Forall P l /\ Forall Q l.
Proof. rewrite !Forall_forall. firstorder. Qed.
Lemma keeps_iff t : forall v, wfty t -> hasty t v -> (keeps t v <-> keysok t v /\ nf t v = v).
Proof.
  induction t as [ | w | w | | t IH | t IH | k t IH | k t IH | fs IH] using ty_nest; intros v Hw Ht; destruct v; cbn [hasty wfty] in *; try contradiction;
    try (cbn; tauto).
  - cbn [keeps keysok nf]. rewrite (IH v Hw Ht). destruct (nullish v).
    + split; [intros [E _]; discriminate|intros [_ E]; discriminate].
    + split; [intros (_ & H1 & H2); split; auto; congruence|intros [H1 H2]; repeat split; auto; congruence].
  - cbn [keeps keysok nf]. assert (E : VList (map (nf t) l) = VList l <-> Forall (fun x => nf t x = x) l).
    { rewrite <- map_id_iff. split; congruence. }
    rewrite E, <- Forall_both. apply Forall_iff. eapply Forall_impl; [|exact Ht]. cbn beta. auto.
  - cbn [keeps keysok nf]. assert (E : VList (map (nf t) l) = VList l <-> Forall (fun x => nf t x = x) l).
    { rewrite <- map_id_iff. split; congruence. }
    rewrite E, <- Forall_both. apply Forall_iff. eapply Forall_impl; [|apply Ht]. cbn beta. auto.
  - cbn [keeps keysok nf]. assert (E : VMap (map (fun e => (fst e, nf t (snd e))) l) = VMap l <-> Forall (fun x => (fst x, nf t (snd x)) = x) l).
    { rewrite <- map_id_iff. split; congruence. }
    rewrite E, <- Forall_both. apply Forall_iff. eapply Forall_impl; [|apply Ht]. cbn beta. intros [x v] [_ Hv]. cbn [fst snd] in *.
    rewrite (IH v Hw Hv). unfold key_small. split; [intros (H1 & H2 & H3); repeat split; auto; congruence|].
    intros ((H1 & H2) & H3). repeat split; auto. congruence.
  - pose proof (wf_fields fs Hw) as [Hd Hok]. apply keeps_fields; auto. intros f t Hi. split; [now apply (Hok f t)|]. intros v Hv. apply (IH f t); auto. now apply (Hok f t).
Qed.

(* ---- nodes that stand for the same ---- *)
Definition maps_rel (R : node -> node -> Prop) (m m2 : list (bytes * node)) : Prop :=
  NoDup (map fst m2) /\
  forall k, match mget beqb m k, mget beqb m2 k with Some x, Some y => R x y | None, None => True | _, _ => False end.
Definition ent (R : node -> node -> Prop) (a b : bytes * node) : Prop := fst a = fst b /\ R (snd a) (snd b).
Lemma ent_keys R m m2 : Forall2 (ent R) m m2 -> map fst m = map fst m2.
Proof. induction 1 as [|a b m m2 [H _] _ IH]; cbn; congruence. Qed.
Lemma ent_rel R m m2 : Forall2 (ent R) m m2 -> NoDup (map fst m) -> maps_rel R m m2.
Proof.
  intros H Hnd. split; [erewrite <- ent_keys; eauto|]. intros k. clear Hnd.
  induction H as [|[a x] [b y] m m2 [H1 H2] H3 IH]; cbn [mget]; auto. cbn in H1, H2. subst b. destruct (beqb k a); auto.
Qed.
Lemma perm_rel (R : node -> node -> Prop) m mm m2 : NoDup (map fst m) -> Permutation m mm -> maps_rel R mm m2 -> maps_rel R m m2.
Proof.
  intros Hnd Hp [H1 H2]. split; auto. intros k. specialize (H2 k). replace (mget beqb m k) with (mget beqb mm k); auto.
  assert (Hnd' : NoDup (map fst mm)) by (eapply Permutation_NoDup; [apply Permutation_map; eauto|auto]).
  destruct (mget beqb mm k) as [x|] eqn:E.
  - apply (mget_in beqb beqb_ok) in E; auto. symmetry. apply (mget_in beqb beqb_ok); auto. eapply Permutation_in; [symmetry; eauto|auto].
  - apply (mget_none beqb beqb_ok) in E. symmetry. apply (mget_none beqb beqb_ok). intros Hi. apply E. eapply Permutation_in; [apply Permutation_map; eauto|auto].
Qed.

(* R turns nodes into others that stand for the same; when Q also integers into their digits *)
Record harmless (Q : Prop) (R : node -> node -> Prop) : Prop := {
  h_nil : forall x, R NNil x -> x = NNil;
  h_bool : forall b x, R (NBool b) x -> x = NBool b;
  h_int : forall z x, R (NInt z) x -> x = NInt z \/ (Q /\ x = NDigits (decz z));
  h_dig : forall s x, R (NDigits s) x -> x = NDigits s;
  h_str : forall s x, R (NStr s) x -> x = NStr s;
  h_list : forall l x, R (NList l) x -> exists l', x = NList l' /\ Forall2 R l l';
  h_map : forall m x, R (NMap m) x -> exists mm m2, x = NMap m2 /\ Permutation m mm /\ Forall2 (ent R) mm m2;
  h_pairs : forall ps x, R (NPairs ps) x -> exists m2, is_map x m2 /\ maps_rel R (AsMap ps) m2
}.
Lemma F2_comp {A C D} (P : A -> Prop) (R : A -> C -> Prop) (S' : C -> D -> Prop) (T : A -> D -> Prop) l m n :
  (forall a c d, P a -> R a c -> S' c d -> T a d) -> Forall P l -> Forall2 R l m -> Forall2 S' m n -> Forall2 T l n.
Proof.
  intros H Hp Hr. revert n Hp. induction Hr; intros n Hp Hs; inversion Hs; subst; inversion Hp; subst; constructor; eauto.
Qed.
Lemma F2_flip {A C} (R : A -> C -> Prop) l m : Forall2 R l m -> Forall2 (fun y x => R x y) m l.
Proof. induction 1; constructor; auto. Qed.
Lemma repr_harmless Q R t : harmless Q R -> forall v n n', wfty t -> hasty t v -> (Q -> textual t v) -> repr t v n -> R n n' -> repr t v n'.
Proof.
  intros HR. induction t as [ | w | w | | t IH | t IH | k t IH | k t IH | fs IH] using ty_nest; intros v n n' Hw Ht Hq H Hn; destruct v; cbn [hasty repr wfty textual] in *; try contradiction;
    try (subst n; first [now apply (h_nil _ _ HR) in Hn|now apply (h_bool _ _ HR) in Hn|now apply (h_str _ _ HR) in Hn]).
  - destruct H as [->| ->].
    + apply (h_int _ _ HR) in Hn as [->|[_ ->]]; auto.
    + apply (h_dig _ _ HR) in Hn as ->; auto.
  - pose proof (uint64 _ _ Ht) as H64. unfold uint_range in H64. cbn in H64. destruct H as [->|[Hz ->]].
    + apply (h_int _ _ HR) in Hn as [->|[Hx ->]]; auto. specialize (Hq Hx). right. split; auto. now rewrite swrap_small by lia.
    + apply (h_dig _ _ HR) in Hn as ->; auto.
  - eapply IH; eauto.
  - destruct H as (ns & -> & H). apply (h_list _ _ HR) in Hn as (l' & -> & Hl). exists l'. split; auto.
    eapply (F2_comp (fun v => hasty t v /\ (Q -> textual t v))); [|apply Forall_forall|exact H|exact Hl].
    + cbn beta. intros a c d [H1 H2] H3 H4. eapply IH; eauto.
    + intros x Hx. rewrite Forall_forall in Ht. split; auto. intros q. specialize (Hq q). rewrite Forall_forall in Hq. auto.
  - destruct H as (ns & -> & H). apply (h_list _ _ HR) in Hn as (l' & -> & Hl). exists l'. split; auto. destruct Ht as [_ Ht].
    eapply (F2_comp (fun v => hasty t v /\ (Q -> textual t v))); [|apply Forall_forall|exact H|exact Hl].
    + cbn beta. intros a c d [H1 H2] H3 H4. eapply IH; eauto.
    + intros x Hx. rewrite Forall_forall in Ht. split; auto. intros q. specialize (Hq q). rewrite Forall_forall in Hq. auto.
  - destruct H as (m & m' & -> & Hp & H). apply (h_map _ _ HR) in Hn as (mm & m2 & -> & Hp2 & Hm). destruct Ht as [_ Ht].
    assert (Hp3 : Permutation mm m') by (rewrite <- Hp2; symmetry; auto).
    assert (Hfl : Forall2 (fun y x => ent R x y) m2 mm) by (apply F2_flip; exact Hm).
    destruct (Forall2_perm _ _ _ Hp3 _ Hfl) as (m3 & Hp4 & H3).
    assert (Hf3 : Forall2 (ent R) m' m3) by (apply F2_flip in H3; exact H3).
    exists m2, m3. split; auto. split; [now symmetry|].
    eapply (F2_comp (fun e => hasty t (snd e) /\ (Q -> textual t (snd e)))); [|apply Forall_forall|exact H|exact Hf3].
    + cbn beta. intros a c d [H1 H2] [H4 H5] [H6 H7]. split; [congruence|]. eapply IH; eauto.
    + intros x Hx. rewrite Forall_forall in Ht. split; [now apply Ht|]. intros q. specialize (Hq q). rewrite Forall_forall in Hq. now apply Hq.
  - destruct H as (m & Hmap & Hnd & Hin & Hf). pose proof (wf_fields fs Hw) as [Hd Hok].
    assert (Hm2 : exists m2, is_map n' m2 /\ maps_rel R m m2).
    { destruct Hmap as [->|(ps & -> & ->)].
      - apply (h_map _ _ HR) in Hn as (mm & m2 & -> & Hp & Hm). exists m2. split; [now left|]. eapply perm_rel; eauto. apply ent_rel; auto.
        eapply Permutation_NoDup; [apply Permutation_map; eauto|auto].
      - apply (h_pairs _ _ HR) in Hn. exact Hn. }
    destruct Hm2 as (m2 & Hmap2 & Hnd2 & Hrel). exists m2. split; auto. split; auto. split.
    + intros k Hk. apply Hin. destruct (mget beqb m k) eqn:E.
      * apply (mget_in beqb beqb_ok) in E; auto. now apply (in_map fst) in E.
      * specialize (Hrel k). rewrite E in Hrel. destruct (mget beqb m2 k) eqn:E2; [contradiction|]. apply (mget_none beqb beqb_ok) in E2. contradiction.
    + assert (Hq' : fieldwise (fun f t v => Q -> forall name o, tagged f name o -> textual t v) fs l).
      { clear -Hq Hf. revert l Hq Hf. induction fs as [|[f t] fs IHf]; intros [|v l] Hq Hf; cbn [fieldwise] in *; auto.
        destruct Hf as [_ Hf]. split; [intros q name o Ht; now apply (proj1 (Hq q) name o)|]. apply IHf; auto. intros q. apply (Hq q). }
      eapply fieldwise_impl; [|apply (fieldwise_and _ _ _ _ Hq' (fieldwise_and _ _ _ _ Hf Ht))]. cbn beta. intros f t v Hi (Hx & Hx2 & Hv) name o Hvis.
      specialize (Hx2 _ _ Hvis). specialize (Hrel name). destruct (o && blank v).
      * rewrite Hx2 in Hrel. destruct (mget beqb m2 name); auto. contradiction.
      * destruct Hx2 as (x & E & Hr). rewrite E in Hrel. destruct (mget beqb m2 name) as [y|]; [|contradiction]. exists y. split; auto.
        apply (IH f t Hi v x y); auto; [now apply (Hok f t)|]. intros q. apply (Hx q name o). now apply tagged_vis.
Qed.

Lemma asmap_ent R ps ps' : Forall2 (fun a b => fst a = fst b /\ R (snd a) (snd b)) ps ps' -> Forall2 (ent R) (AsMap ps) (AsMap ps').
Proof.
  intros H. unfold AsMap. assert (G : forall m m2, Forall2 (ent R) m m2 -> Forall2 (ent R) (fold_left (fun m p => mset beqb m (snd (fst p)) (snd p)) ps m) (fold_left (fun m p => mset beqb m (snd (fst p)) (snd p)) ps' m2)); [|auto].
  induction H as [|a b ps ps' [H1 H2] H3 IH]; intros m m2 Hm; cbn [fold_left]; auto. apply IH. rewrite H1. clear -Hm H2.
  induction Hm as [|[k x] [k' y] m m2 [E1 E2] Hm IH]; cbn [mset fst snd] in *.
  - constructor; [split; auto|auto].
  - subst k'. destruct (beqb _ k); constructor; auto; split; auto.
Qed.
Lemma reorder_harmless : harmless False reorder.
Proof.
  split; try (intros; match goal with H : reorder _ _ |- _ => inversion H; subst; auto end; fail).
  - intros l x H. inversion H; subst; eauto. exists l. split; auto. clear. induction l; constructor; auto. constructor.
  - intros m x H. inversion H; subst.
    + exists m, m. repeat split; auto. clear. induction m; constructor; auto. split; auto. constructor.
    + exists m0, l'. auto.
  - intros ps x H. inversion H; subst.
    + exists (AsMap ps). split; [right; eauto|]. apply ent_rel; [|apply asmap_nodup]. generalize (AsMap ps). intros m. induction m; constructor; auto. split; auto. constructor.
    + exists (AsMap l'). split; [right; eauto|]. apply ent_rel; [|apply asmap_nodup]. apply asmap_ent. auto.
Qed.
Lemma reads_harmless : harmless True reads_as.
Proof.
  split; try (intros; match goal with H : reads_as _ _ |- _ => inversion H; subst; auto end; fail).
  - intros l x H. inversion H; subst; eauto.
  - intros m x H. inversion H; subst. exists m0, l'. auto.
  - intros ps x H. inversion H; subst. exists l'. split; [now left|].
    match goal with Hf : Forall2 _ m l' |- _ => pose proof (ent_rel reads_as m l' Hf ltac:(auto)) as [E1 E2] end. split; auto.
    intros k. specialize (E2 k). replace (mget beqb (AsMap ps) k) with (mget beqb m k); auto. rewrite AsMap_last. fold (last_value ps k).
    destruct (last_value ps k) as [v|] eqn:E.
    + apply (mget_in beqb beqb_ok); auto. match goal with Hx : forall k v, _ <-> _ |- _ => now apply Hx end.
    + apply (mget_none beqb beqb_ok). intros Hi. apply in_map_iff in Hi as ([k' v] & E3 & Hi). cbn in E3. subst k'.
      match goal with Hx : forall k v, _ <-> _ |- _ => apply Hx in Hi end. congruence.
Qed.

(* ---- the node has a JSON text ---- *)
Lemma elems_inv f l : forall ns, mar_elems f l = Ok ns -> Forall2 (fun v n => f v = Ok n) l ns.
Proof.
  induction l as [|v l IH]; cbn [mar_elems]; intros ns H; [inversion H; auto|].
  destruct (f v) as [n|] eqn:E; [|discriminate]. cbn in H. destruct (mar_elems f l) as [ns'|]; [|discriminate]. inversion H; subst. auto.
Qed.
Lemma mset_forall (P : bytes * node -> Prop) m k n : Forall P m -> P (k, n) -> Forall P (mset beqb m k n).
Proof.
  induction 1 as [|[k' n'] m H Hm IH]; cbn [mset]; intros Hk; auto. destruct (beqb k k') eqn:E; constructor; auto.
  apply beqb_eq in E. now subst.
Qed.
Lemma entries_inv k f (P : bytes * node -> Prop) l : forall acc m, mar_entries k f acc l = Ok m ->
  (forall e n, In e l -> f (snd e) = Ok n -> P (ktext k (fst e), n)) -> Forall P acc -> NoDup (map fst acc) -> Forall P m /\ NoDup (map fst m).
Proof.
  induction l as [|[x v] l IH]; cbn [mar_entries]; intros acc m H He Ha Hn; [inversion H; subst; auto|].
  destruct (f v) as [n|] eqn:E; [|discriminate]. cbn in H. eapply IH; eauto.
  - intros e n' Hi. apply He. now right.
  - apply mset_forall; auto. apply (He (x, v)); auto. now left.
  - apply mset_nodup; auto using beqb_ok.
Qed.
Lemma fields_inv (P : bytes * bytes * node -> Prop) (Q : fld -> ty -> val -> Prop) (fs : list (fld * ty)) : forall vs ps,
  mar_fields (map (fun f => (fst f, mar (snd f))) fs) vs = Ok ps -> fieldwise Q fs vs ->
  (forall f t v n name o, In (f, t) fs -> Q f t v -> vis f = Some (name, o) -> mar t v = Ok n -> P (f_name f, name, n)) -> Forall P ps.
Proof.
  induction fs as [|[f t] fs IH]; intros [|v vs] ps H Hq Hf; cbn [fieldwise] in Hq; try contradiction; cbn [mar_fields map fst snd] in H.
  - inversion H. auto.
  - assert (IHf : forall ps, mar_fields (map (fun f => (fst f, mar (snd f))) fs) vs = Ok ps -> Forall P ps).
    { intros ps' Hp. eapply IH; [exact Hp|apply Hq|]. intros f' t' v' n name o Hi. apply Hf. now right. }
    destruct (f_exported f) eqn:Ex; [|auto]. destruct (parseTag f) as [tg|] eqn:Et; [|discriminate]. cbn [rbind] in H.
    destruct (g_skip tg) eqn:Es; [auto|]. destruct (mar t v) as [n|] eqn:En; [|discriminate]. cbn [rbind] in H.
    destruct (mar_fields (map (fun f => (fst f, mar (snd f))) fs) vs) as [ps'|]; [|discriminate]. cbn [rbind] in H. inversion H; subst.
    specialize (IHf ps' eq_refl). destruct (g_omit tg && is_empty n); auto. constructor; auto.
    eapply (Hf f t v n _ (g_omit tg)); auto; [now left|apply Hq|]. unfold vis. now rewrite Ex, Et, Es.
Qed.
Lemma valid_decz z : valid_utf8 (decz z) = true.
Proof.
  unfold decz. destruct (z <? 0)%Z; [|apply valid_dec]. change (valid_utf8 ([chr 45] ++ dec (Z.abs_N z)) = true). apply valid_app; [reflexivity|apply valid_dec].
Qed.
Lemma fold_good l : Forall good_node l -> fold_right (fun x R => good_node x /\ R) True l.
Proof. induction 1; cbn; auto. Qed.
Lemma mar_good t : forall v n, hasty t v -> textual t v -> mar t v = Ok n -> good_node n.
Proof.
  induction t as [ | w | w | | t IH | t IH | k t IH | k t IH | fs IH] using ty_nest; intros v n Ht Hx H; destruct v; cbn [hasty mar textual] in *; try contradiction;
    try (inversion H; subst; cbn; auto; fail).
  - eauto.
  - destruct (mar_elems (mar t) l) as [ns|] eqn:E; [|discriminate]. inversion H; subst. cbn [good_node]. apply fold_good. apply elems_inv in E.
    clear H. induction E as [|a b l ns E1 E2 IHl]; inversion Ht; inversion Hx; subst; constructor; eauto.
  - destruct Ht as [_ Ht]. destruct (mar_elems (mar t) l) as [ns|] eqn:E; [|discriminate]. inversion H; subst. cbn [good_node]. apply fold_good. apply elems_inv in E.
    clear H. induction E as [|a b l ns E1 E2 IHl]; inversion Ht; inversion Hx; subst; constructor; eauto.
  - destruct Ht as [_ Ht]. destruct (mar_entries k (mar t) [] l) as [m|] eqn:E; [|discriminate]. inversion H; subst. cbn [good_node].
    destruct (entries_inv k (mar t) (fun e => valid_utf8 (fst e) = true /\ good_node (snd e)) l [] m E) as [H1 H2].
    + cbn [fst snd]. intros e n Hi En. rewrite Forall_forall in *. destruct (Ht e Hi) as [T1 T2]. destruct (Hx e Hi) as [X1 X2]. split; eauto.
      destruct k, (fst e); cbn [ktext key_of] in *; auto; try contradiction; apply valid_decz.
    + constructor.
    + constructor.
    + split; auto. clear -H1. induction H1 as [|e m [] _ IH]; cbn; auto.
  - destruct (mar_fields _ l) as [ps|] eqn:E; [|discriminate]. inversion H; subst. cbn [good_node].
    assert (Hp : Forall (fun e => valid_utf8 (snd (fst e)) = true /\ good_node (snd e)) ps).
    { eapply fields_inv; [exact E|exact (fieldwise_and _ _ _ _ Ht Hx)|]. cbn beta. intros f t v n name o Hi [T1 T2] Hv Hn. apply tagged_vis in Hv.
      destruct (T2 _ _ Hv) as [X1 X2]. split; auto. eapply (IH f t); eauto. }
    clear -Hp. induction Hp as [|e m [] _ IH]; cbn; auto.
Qed.
Lemma fold_max_le {A} (g : A -> nat) l k : Forall (fun x => g x <= k) l -> fold_right (fun x m => Nat.max (g x) m) 0 l <= k.
Proof. induction 1; cbn; lia. Qed.
Lemma fold_max_in {A} (g : A -> nat) l x : In x l -> g x <= fold_right (fun x m => Nat.max (g x) m) 0 l.
Proof. induction l as [|a l IH]; cbn; intros [].
  - subst. lia.
  - specialize (IH H). lia.
Qed.
Lemma mar_depth t : forall v n, hasty t v -> mar t v = Ok n -> ndepth n <= tdepth t.
Proof.
  induction t as [ | w | w | | t IH | t IH | k t IH | k t IH | fs IH] using ty_nest; intros v n Ht H; destruct v; cbn [mar hasty tdepth] in *; try contradiction;
    try (inversion H; subst; cbn; lia).
  - eauto.
  - destruct (mar_elems (mar t) l) as [ns|] eqn:E; [|discriminate]. inversion H; subst. cbn [ndepth]. apply le_n_S, fold_max_le. apply elems_inv in E.
    clear H. induction E; inversion Ht; subst; constructor; eauto.
  - destruct Ht as [_ Ht]. destruct (mar_elems (mar t) l) as [ns|] eqn:E; [|discriminate]. inversion H; subst. cbn [ndepth]. apply le_n_S, fold_max_le. apply elems_inv in E.
    clear H. induction E; inversion Ht; subst; constructor; eauto.
  - destruct Ht as [_ Ht]. destruct (mar_entries k (mar t) [] l) as [m|] eqn:E; [|discriminate]. inversion H; subst. cbn [ndepth]. apply le_n_S.
    apply (fold_max_le (fun e => ndepth (snd e))).
    apply (entries_inv k (mar t) (fun e => ndepth (snd e) <= tdepth t) l [] m E); try constructor. cbn. rewrite Forall_forall in Ht. intros e n Hi. apply IH. now apply Ht.
  - destruct (mar_fields _ l) as [ps|] eqn:E; [|discriminate]. inversion H; subst. cbn [ndepth]. apply le_n_S. apply (fold_max_le (fun e => ndepth (snd e))).
    eapply fields_inv; [exact E|exact Ht|]. cbn beta. intros f t v n name o Hi T Hv Hn. cbn [snd]. transitivity (tdepth t); [eapply (IH f t); eauto|].
    apply (fold_max_in (fun x => tdepth (snd x)) fs (f, t)). auto.
Qed.

(* ---- C31 ---- *)
Lemma came_iff t v r : wfty t -> hasty t v -> came t v r -> (r = (UOk v, []) <-> keeps t v) /\ snd r = [] /\ fst r <> UPanic.
Proof.
  intros Hw Ht [Hc H]. rewrite (keeps_iff t v Hw Ht). destruct r as [[w|w|] c]; cbn [fst snd] in *; subst c; (split; [|split; auto; try discriminate]).
  - destruct H as [H ->]. split; [intros E; inversion E; split; auto; congruence|intros [_ E]; rewrite E; auto].
  - split; [discriminate|tauto].
  - contradiction.
Qed.
Lemma round_trip f2i f2u uf t v : wfty t -> hasty t v -> exists n, mar t v = Ok n /\
  forall n', reorder n n' -> (Unmarshal f2i f2u uf t n' (zero t) = (UOk v, []) <-> keeps t v).
Proof.
  intros Hw Ht. destruct (mar_repr t v Hw Ht) as (n & H1 & H2). exists n. split; auto. intros n' Hn.
  apply came_iff; auto. apply unm_repr; auto. eapply repr_harmless; eauto using reorder_harmless. contradiction.
Qed.
Lemma round_trip_json f2i f2u uf short ind t v : wfty t -> hasty t v -> textual t v -> (N.of_nat (tdepth t) <= 10000)%N ->
  exists n j m, mar t v = Ok n /\ Encode short ind n = Ok j /\ Decode j = Good (Some m) /\
    (Unmarshal f2i f2u uf t m (zero t) = (UOk v, []) <-> keeps t v).
Proof.
  intros Hw Ht Hx Hd. destruct (mar_repr t v Hw Ht) as (n & H1 & H2). pose proof (mar_good t v n Ht Hx H1) as Hg. pose proof (mar_depth t v n Ht H1) as Hnd.
  destruct (encode_decode short ind n Hg) as (j & m & E1 & E2 & E3); [lia|]. exists n, j, m. repeat (split; [assumption|]).
  apply came_iff; auto. apply unm_repr; auto. eapply repr_harmless; eauto using reads_harmless.
Qed.
