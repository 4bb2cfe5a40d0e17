(* Struct fields, hidden fields, panics and map order: C33, C34, C74, C75. *)
From Coq Require Import Bool Ascii String Arith NArith ZArith Lia List Sorted Permutation.
From Verif Require Import Prelude PreludeFacts Utf8Model Utf8Facts DecModel DecFacts DurModel DurProofs EncModel JsonModel KvSpec JsonSpec JsonFacts KvProofs JsonProofs MarModel MarSpec MarFacts MarProofs.
Import ListNotations.

Lemma fieldwise2_impl {A} (P Q : fld -> A -> val -> val -> Prop) fs : forall vs ws,
  (forall f t v w, In (f, t) fs -> P f t v w -> Q f t v w) -> fieldwise2 P fs vs ws -> fieldwise2 Q fs vs ws.
Proof.
  induction fs as [|[f t] fs IH]; intros [|v vs] [|w ws]; cbn [fieldwise2]; auto. intros H [H1 H2]. split.
  - apply H; auto. now left.
  - apply IH; auto. intros f' t' v' w' Hi. apply H. now right.
Qed.

(* ---- Marshal does not look at hidden fields ---- *)
Lemma hidden_step f t (fs : list (fld * (val -> res node))) g v vs : hidden f -> t = fs -> mar_fields ((f, g) :: fs) (v :: vs) = mar_fields fs vs.
Proof.
  intros [H|H] ->; cbn [mar_fields]; [now rewrite H|]. destruct (f_exported f); auto. unfold parseTag. rewrite H. reflexivity.
Qed.
Lemma mar_visible t : forall v w, same_visible t v w -> mar t v = mar t w.
Proof.
  induction t as [ | w | w | | t IH | t IH | k t IH | k t IH | fs IH] using ty_nest; intros v v' H;
    try (now cbn in H; subst).
  - destruct v; try (cbn in H; now subst). destruct v'; try (cbn in H; now subst). cbn in *. auto.
  - destruct v; try (cbn in H; now subst). destruct v'; try (cbn in H; now subst). cbn in *. f_equal.
    induction H as [|a b l l' H1 H2 IHl]; cbn [mar_elems]; auto. now rewrite (IH _ _ H1), IHl.
  - destruct v; try (cbn in H; now subst). destruct v'; try (cbn in H; now subst). cbn in *. f_equal.
    induction H as [|a b l l' H1 H2 IHl]; cbn [mar_elems]; auto. now rewrite (IH _ _ H1), IHl.
  - destruct v; try (cbn in H; now subst). destruct v'; try (cbn in H; now subst). cbn in *. f_equal. generalize (@nil (bytes * node)).
    induction H as [|[a x] [b y] l l' [H1 H2] H3 IHl]; intros acc; cbn [mar_entries]; auto. cbn in H1, H2. subst b. rewrite (IH _ _ H2). destruct (mar t y); cbn; auto.
  - destruct v as [| | | | | | |vs]; try (cbn in H; now subst). destruct v' as [| | | | | | |ws]; try (cbn in H; now subst). cbn in *. f_equal. revert vs ws H.
    induction fs as [|[f t] fs IHf]; intros [|v vs] [|w ws] H; cbn [fieldwise2] in H; try contradiction; auto.
    destruct H as [H1 H2]. assert (E : mar_fields (map (fun f => (fst f, mar (snd f))) fs) vs = mar_fields (map (fun f => (fst f, mar (snd f))) fs) ws).
    { apply IHf; auto. intros f' t' Hi. apply (IH f' t'). now right. }
    destruct H1 as [H1|H1]; cbn [map fst snd].
    + rewrite !(hidden_step f _ _ _ _ _ H1 eq_refl). exact E.
    + cbn [mar_fields]. rewrite E, (IH f t (or_introl eq_refl) _ _ H1). reflexivity.
Qed.
Lemma mar_names fs vs ps name key x : mar (TStruct fs) (VStruct vs) = Ok (NPairs ps) -> In ((name, key), x) ps ->
  exists f t o, In (f, t) fs /\ tagged f key o /\ f_name f = name.
Proof.
  cbn [mar]. destruct (mar_fields _ vs) as [ps'|] eqn:E; [|discriminate]. intros H. inversion H; subst. clear H. revert vs ps E.
  induction fs as [|[f t] fs IH]; intros [|v vs] ps E Hi; cbn [mar_fields map fst snd] in E; try (inversion E; subst; contradiction).
  assert (Hrec : forall ps', mar_fields (map (fun f => (fst f, mar (snd f))) fs) vs = Ok ps' -> In ((name, key), x) ps' ->
    exists f0 t0 o, In (f0, t0) ((f, t) :: fs) /\ tagged f0 key o /\ f_name f0 = name).
  { intros ps' E' Hi'. destruct (IH vs ps' E' Hi') as (f0 & t0 & o & H1 & H2). exists f0, t0, o. split; auto. now right. }
  destruct (f_exported f) eqn:Ex; [|eauto]. destruct (parseTag f) as [tg|] eqn:Et; [|discriminate]. cbn [rbind] in E. destruct (g_skip tg) eqn:Es; [eauto|].
  destruct (mar t v); [|discriminate]. cbn [rbind] in E. destruct (mar_fields _ vs) as [ps'|]; [|discriminate]. cbn [rbind] in E. inversion E; subst.
  destruct (g_omit tg && is_empty a); [eauto|]. destruct Hi as [Hi|Hi]; [|eauto]. inversion Hi; subst. exists f, t, (g_omit tg). split; [now left|]. split; auto.
  apply tagged_vis. unfold vis. now rewrite Ex, Et, Es.
Qed.

Section U.
  Context (f2i f2u : floatv -> Z) (uf : option (list pel -> node -> bool)).
  Notation unm := (unm f2i f2u uf).

  (* Unmarshal into a struct from the entries m *)
  Definition unm_struct (fs : list (fld * ty)) (p : list pel) (m : list (bytes * node)) (vs : list val) : ures * list call :=
    let '(e, vs', c) := unm_fields p m (map (fun f => (fst f, unm (snd f))) fs) vs in
    match e with
    | EOk _ => match uf with
               | None => (UOk (VStruct vs'), c)
               | Some h => let (bad, c') := unhandled h p (seen (map fst fs)) m in (if bad then UErr (VStruct vs') else UOk (VStruct vs'), c ++ c')
               end
    | EErr => (UErr (VStruct vs'), c)
    | EPanic => (UPanic, c)
    end.
  Lemma unm_is_map fs p n m vs : is_map n m -> unm (TStruct fs) p n (VStruct vs) = unm_struct fs p m vs.
  Proof. intros [->|(ps & -> & ->)]; reflexivity. Qed.

  (* the fields of unm_fields, one by one *)
  Definition field_done (p : list pel) (m : list (bytes * node)) (f : fld) (t : ty) (v v' : val) (c : list call) : Prop :=
    (v' = v /\ c = [] /\ (f_exported f = false \/ exists tg, parseTag f = Ok tg /\ mget beqb m (g_json tg) = None)) \/
    (exists tg x, f_exported f = true /\ parseTag f = Ok tg /\ mget beqb m (g_json tg) = Some x /\ unm t (p ++ [PName (f_name f)]) x v = (UOk v', c)).
  Inductive fields_run (p : list pel) (m : list (bytes * node)) : list (fld * ty) -> list val -> eres unit -> list val -> list (list call) -> Prop :=
  | fr_nil fs vs : fs = [] \/ vs = [] -> fields_run p m fs vs (EOk tt) vs []
  | fr_done f t fs v vs v' c e vs' cs : field_done p m f t v v' c -> fields_run p m fs vs e vs' cs -> fields_run p m ((f, t) :: fs) (v :: vs) e (v' :: vs') (c :: cs)
  | fr_err f t fs v vs v' c tg x : f_exported f = true -> parseTag f = Ok tg -> mget beqb m (g_json tg) = Some x ->
      unm t (p ++ [PName (f_name f)]) x v = (UErr v', c) -> fields_run p m ((f, t) :: fs) (v :: vs) EErr (v' :: vs) [c]
  | fr_tag f t fs v vs : f_exported f = true -> parseTag f = Panic -> fields_run p m ((f, t) :: fs) (v :: vs) EPanic (v :: vs) []
  | fr_panic f t fs v vs c tg x : f_exported f = true -> parseTag f = Ok tg -> mget beqb m (g_json tg) = Some x ->
      unm t (p ++ [PName (f_name f)]) x v = (UPanic, c) -> fields_run p m ((f, t) :: fs) (v :: vs) EPanic (v :: vs) [c].
  Lemma fields_run_ok p m (fs : list (fld * ty)) : forall vs, let '(e, vs', c) := unm_fields p m (map (fun f => (fst f, unm (snd f))) fs) vs in
    exists cs, fields_run p m fs vs e vs' cs /\ c = concat cs.
  Proof.
    induction fs as [|[f t] fs IH]; intros vs.
    - cbn. exists []. split; [constructor|]; auto.
    - destruct vs as [|v vs]; [cbn; exists []; split; [constructor|]; auto|]. cbn [unm_fields map fst snd]. specialize (IH vs).
      destruct (unm_fields p m (map (fun f => (fst f, unm (snd f))) fs) vs) as [[e vs'] c]. destruct IH as (cs & IH & ->).
      destruct (f_exported f) eqn:Ex.
      2:{ exists ([] :: cs). split; [|reflexivity]. constructor; auto. left. auto. }
      destruct (parseTag f) as [tg|] eqn:Et.
      2:{ exists []. split; [|reflexivity]. constructor; auto. }
      destruct (mget beqb m (g_json tg)) as [x|] eqn:Em.
      2:{ exists ([] :: cs). split; [|reflexivity]. constructor; auto. left. repeat split; auto. right. eauto. }
      destruct (unm t (p ++ [PName (f_name f)]) x v) as [[w|w|] c] eqn:Eu.
      + exists (c :: cs). split; [|reflexivity]. constructor; auto. right. exists tg, x. auto.
      + exists [c]. split; [|cbn; now rewrite app_nil_r]. eapply fr_err; eauto.
      + exists [c]. split; [|cbn; now rewrite app_nil_r]. eapply fr_panic; eauto.
  Qed.

  (* ---- hidden fields stay as they are ---- *)
  Lemma plain_map l : plain (NMap l) -> forall k x, In (k, x) l -> k <> [] /\ plain x.
  Proof.
    cbn. induction l as [|[k x] l IH]; cbn; intros H k' x' Hi; [contradiction|]. destruct H as (H1 & H2 & H3). destruct Hi as [Hi|Hi]; [inversion Hi; subst; auto|eauto].
  Qed.
  Lemma asmap_in ps k x : In (k, x) (AsMap ps) -> exists name, In ((name, k), x) ps.
  Proof.
    intros H. apply (mget_in beqb beqb_ok) in H; [|apply asmap_nodup]. rewrite AsMap_last in H. destruct (find _ (rev ps)) as [q|] eqn:E; [|discriminate].
    apply find_some in E as [E1 E2]. apply beqb_eq in E2. inversion H; subst. apply in_rev in E1. destruct q as [[a b] y]. cbn in *. subst. eauto.
  Qed.
  Lemma plain_is_map n m : plain n -> is_map n m -> forall k x, In (k, x) m -> k <> [] /\ plain x.
  Proof.
    intros H [->|(ps & -> & ->)]; [now apply plain_map|]. intros k x Hi. apply asmap_in in Hi as [name Hi]. clear -H Hi. cbn in H.
    induction ps as [|q ps IH]; [contradiction|]. destruct H as (H1 & H2 & H3). destruct Hi as [->|Hi]; [cbn in *; auto|auto].
  Qed.
  Lemma mget_some_in {V} (m : list (bytes * V)) k x : mget beqb m k = Some x -> In (k, x) m.
  Proof.
    induction m as [|[k' x'] m IH]; cbn [mget]; [discriminate|]. destruct (beqb k k') eqn:E; [apply beqb_eq in E; intros H; inversion H; subst; now left|right; auto].
  Qed.
  Lemma same_hidden_refl t : forall v, hasty t v -> same_hidden t v v.
  Proof.
    induction t as [ | w | w | | t IH | t IH | k t IH | k t IH | fs IH] using ty_nest; intros v Hv; cbn [same_hidden]; auto.
    destruct v; cbn [hasty] in Hv; try contradiction. revert l Hv. induction fs as [|[f t] fs IHf]; intros [|v l] Hv; cbn [fieldwise fieldwise2] in *; auto.
    destruct Hv as [H1 H2]. repeat split; auto. { apply (IH f t); auto. now left. } apply IHf; auto. intros f' t' Hi. apply (IH f' t'). now right.
  Qed.
  Lemma skip_json f tg : hidden f -> f_exported f = true -> parseTag f = Ok tg -> g_json tg = [].
  Proof. intros [H|H] Hx Ht; [congruence|]. unfold parseTag in Ht. rewrite H in Ht. cbn in Ht. inversion Ht. reflexivity. Qed.
  Lemma hidden_kept t : forall p n v w c, hasty t v -> plain n -> (unm t p n v = (UOk w, c) \/ unm t p n v = (UErr w, c)) -> same_hidden t v w.
  Proof.
    induction t as [ | w | w | | t IH | t IH | k t IH | k t IH | fs IH] using ty_nest; intros p n v v' c Hv Hn H; try exact I.
    destruct v as [| | | | | | |vs]; cbn [hasty] in Hv; try contradiction.
    assert (Hm : forall m, is_map n m -> same_hidden (TStruct fs) (VStruct vs) v').
    { intros m Hm. rewrite (unm_is_map fs p n m vs Hm) in H. pose proof (plain_is_map n m Hn Hm) as Hp. clear Hn Hm. unfold unm_struct in H.
      pose proof (fields_run_ok p m fs vs) as Hr. destruct (unm_fields p m (map (fun f => (fst f, unm (snd f))) fs) vs) as [[e vs'] c0]. destruct Hr as (cs & Hr & _).
      assert (Hw : e <> EPanic /\ v' = VStruct vs').
      { destruct e as [u| |].
        - split; [discriminate|]. destruct uf as [h|]; [destruct (unhandled h p (seen (map fst fs)) m) as [[|] c1]|]; destruct H as [H|H]; inversion H; auto.
        - split; [discriminate|]. destruct H as [H|H]; inversion H; auto.
        - destruct H as [H|H]; inversion H. }
      destruct Hw as [He ->]. clear H. cbn [same_hidden]. revert Hv He.
      induction Hr as [fs vs Hz|f t fs v vs w c1 e vs' cs Hd Hr IHr|f t fs v vs w c1 tg x Hx Ht Hg Hu|f t fs v vs Hx Ht|f t fs v vs c1 tg x Hx Ht Hg Hu]; intros Hv He; try congruence.
      - destruct Hz as [->| ->]; [destruct vs; cbn in *; auto|destruct fs as [|[]]; cbn in *; auto].
      - cbn [fieldwise fieldwise2] in *. destruct Hv as [Hv1 Hv2]. split.
        + destruct Hd as [(-> & _ & _)|(tg & x & Hx & Ht & Hg & Hu)]; [split; auto; now apply same_hidden_refl|].
          apply mget_some_in in Hg. destruct (Hp _ _ Hg) as [Hk Hpx]. split.
          * intros Hh. exfalso. apply Hk. eapply skip_json; eauto.
          * eapply (IH f t); eauto. now left.
        + apply IHr; auto. intros f' t' Hi. apply (IH f' t'). now right.
      - cbn [fieldwise fieldwise2] in *. destruct Hv as [Hv1 Hv2]. split.
        + apply mget_some_in in Hg. destruct (Hp _ _ Hg) as [Hk Hpx]. split.
          * intros Hh. exfalso. apply Hk. eapply skip_json; eauto.
          * eapply (IH f t); eauto. now left.
        + clear -Hv2. revert vs Hv2. induction fs as [|[f t] fs IHf]; intros [|v vs]; cbn [fieldwise fieldwise2]; auto. intros [H1 H2]. repeat split; auto. now apply same_hidden_refl. }
    assert (Hsame : v' = VStruct vs -> same_hidden (TStruct fs) (VStruct vs) v').
    { intros ->. apply same_hidden_refl. exact Hv. }
    destruct n; try (cbn in Hn; contradiction); try (apply Hsame; cbn in H; destruct H as [H|H]; congruence).
    - eapply Hm. left. reflexivity.
    - eapply Hm. right. eauto.
  Qed.

  (* ---- C34 ---- *)
  Lemma unhandled_calls h p names m : forall b c, unhandled h p names m = (b, c) ->
    if b then exists k x ks, c = map (fun e => (p ++ [PKey (fst e)], snd e)) (ks ++ [(k, x)]) /\ In (k, x) m /\ ~ In k names /\ h (p ++ [PKey k]) x = true
    else c = map (fun e => (p ++ [PKey (fst e)], snd e)) (filter (fun e => negb (existsb (beqb (fst e)) names)) m) /\
         forall k x, In (k, x) m -> ~ In k names -> h (p ++ [PKey k]) x = false.
  Proof.
    induction m as [|[k x] m IH]; cbn [unhandled filter fst]; intros b c H.
    - inversion H; subst. split; auto. contradiction.
    - destruct (existsb (beqb k) names) eqn:E; cbn [negb].
      + apply existsb_exists in E as (k' & Hk & E). apply beqb_eq in E. subst k'. specialize (IH _ _ H). destruct b.
        * destruct IH as (k1 & x1 & ks & H1 & H2 & H3). exists k1, x1, ks. split; auto. split; auto. now right.
        * destruct IH as [H1 H2]. split; auto. intros k1 x1 [Hi|Hi] Hn; [inversion Hi; subst; contradiction|eauto].
      + assert (Hk : ~ In k names).
        { intros Hi. apply not_true_iff_false in E. apply E. apply existsb_exists. exists k. split; auto. now apply beqb_eq. }
        destruct (h (p ++ [PKey k]) x) eqn:Eh.
        * inversion H; subst. exists k, x, []. split; auto. split; [now left|auto].
        * destruct (unhandled h p names m) as [b1 c1]. inversion H; subst. specialize (IH _ _ eq_refl). destruct b.
          -- destruct IH as (k1 & x1 & ks & -> & H2 & H3). exists k1, x1, ((k, x) :: ks). split; auto. split; auto. now right.
          -- destruct IH as [-> H2]. split; auto. intros k1 x1 [Hi|Hi] Hn; [inversion Hi; subst; auto|eauto].
  Qed.
  Lemma seen_names fs k : (forall f, In f fs -> hidden f \/ exists name o, tagged f name o) -> k <> [] ->
    (In k (seen fs) <-> exists f o, In f fs /\ tagged f k o).
  Proof.
    intros Hok Hk. induction fs as [|f fs IH]; cbn [seen].
    - split; [contradiction|intros (f & o & [] & _)].
    - specialize (IH (fun f Hi => Hok f (or_intror Hi))). destruct (vis_cases f (Hok f (or_introl eq_refl))) as [(E1 & E2)|[(E1 & E2 & E3)|(name & o & E1 & E2 & E3)]]; rewrite E1, ?E2.
      + rewrite IH. split; intros (g & o & Hi & Ht); exists g, o; split; auto; [now right|]. destruct Hi as [<-|Hi]; auto. apply tagged_vis in Ht. congruence.
      + cbn [In g_json]. rewrite IH. split; [intros [H|(g & o & Hi & Ht)]; [congruence|exists g, o; split; auto; now right]|].
        intros (g & o & Hi & Ht). right. exists g, o. split; auto. destruct Hi as [<-|Hi]; auto. apply tagged_vis in Ht. congruence.
      + cbn [In g_json]. rewrite IH. split.
        * intros [<-|(g & o' & Hi & Ht)]; [exists f, o; split; [now left|now apply tagged_vis]|exists g, o'; split; auto; now right].
        * intros (g & o' & Hi & Ht). destruct Hi as [<-|Hi]; [left; apply tagged_vis in Ht; congruence|right; eauto].
  Qed.
  (* the field after Unmarshal into the struct, with the calls made for it *)
  Definition field_spec (p : list pel) (m : list (bytes * node)) (f : fld) (t : ty) (v v' : val) (c : list call) : Prop :=
    (hidden f -> v' = v /\ c = []) /\
    (forall name o, tagged f name o -> match mget beqb m name with
      | None => v' = v /\ c = []
      | Some x => unm t (p ++ [PName (f_name f)]) x v = (UOk v', c)
      end).
  Lemma done_spec p m f t v v' c : hidden f \/ (exists name o, tagged f name o) -> mget beqb m [] = None -> field_done p m f t v v' c -> field_spec p m f t v v' c.
  Proof.
    intros Hok Hm H. destruct (vis_cases f Hok) as [(E1 & E2)|[(E1 & E2 & E3)|(name & o & E1 & E2 & E3)]].
    - destruct H as [(-> & -> & _)|(tg & x & Hx & _)]; [|congruence]. split; auto. intros name o Ht. apply tagged_vis in Ht. congruence.
    - destruct H as [(-> & -> & _)|(tg & x & Hx & Ht & Hg & _)].
      + split; auto. intros name o Ht. apply tagged_vis in Ht. congruence.
      + rewrite E2 in Ht. inversion Ht; subst. cbn in Hg. congruence.
    - split; [intros Hh; apply hidden_vis in Hh; congruence|]. intros name' o' Ht. apply tagged_vis in Ht. rewrite E3 in Ht. inversion Ht; subst.
      destruct H as [(-> & -> & [H|(tg & Hp & Hg)])|(tg & x & Hx & Hp & Hg & Hu)]; [congruence| |].
      + rewrite E2 in Hp. inversion Hp; subst. cbn in Hg. rewrite Hg. auto.
      + rewrite E2 in Hp. inversion Hp; subst. cbn in Hg. rewrite Hg. auto.
  Qed.
  Lemma run_ok p m fs vs vs' cs : fields_run p m fs vs (EOk tt) vs' cs -> length vs = length fs ->
    (forall f t, In (f, t) fs -> hidden f \/ exists name o, tagged f name o) -> mget beqb m [] = None ->
    length vs' = length fs /\ length cs = length fs /\
    forall i f t v v' c, nth_error fs i = Some (f, t) -> nth_error vs i = Some v -> nth_error vs' i = Some v' -> nth_error cs i = Some c -> field_spec p m f t v v' c.
  Proof.
    remember (EOk tt) as e eqn:Ee. induction 1 as [fs vs Hz|f t fs v vs w c1 e vs' cs Hd Hr IHr| | | ]; try discriminate; intros Hl Hok Hm.
    - destruct Hz as [->| ->]; cbn in Hl; [destruct vs; [|discriminate]|destruct fs; [|discriminate]]; (split; [auto|split; [auto|]]); intros [|i] f t v v' c Hi; discriminate.
    - cbn in Hl. destruct IHr as (I1 & I2 & I3); auto. { intros f' t' Hi. apply (Hok f' t'). now right. } cbn [length]. split; [lia|]. split; [lia|].
      intros [|i] f0 t0 v0 v' c H1 H2 H3 H4; cbn [nth_error] in *; [|now apply (I3 i f0 t0 v0 v' c)].
      inversion H1; inversion H2; inversion H3; inversion H4; subst. apply done_spec; auto. apply (Hok f0 t0). now left.
  Qed.
  Lemma nodup_filter {A} (g : A -> bool) l : NoDup l -> NoDup (filter g l).
  Proof. induction 1; cbn; [constructor|]. destruct (g x); auto. constructor; auto. rewrite filter_In. tauto. Qed.
  Lemma nodup_fst {A C} (l : list (A * C)) : NoDup (map fst l) -> NoDup l.
  Proof. intros H. eapply NoDup_map_inv; eauto. Qed.
  Lemma struct_ok fs p n m vs r calls : (forall f t, In (f, t) fs -> hidden f \/ exists name o, tagged f name o) -> is_map n m -> NoDup (map fst m) -> ~ In [] (map fst m) ->
    length vs = length fs -> unm (TStruct fs) p n (VStruct vs) = (UOk r, calls) ->
    exists vs' cs us, r = VStruct vs' /\ length vs' = length fs /\ length cs = length fs /\
      (forall i f t v v' c, nth_error fs i = Some (f, t) -> nth_error vs i = Some v -> nth_error vs' i = Some v' -> nth_error cs i = Some c -> field_spec p m f t v v' c) /\
      calls = concat cs ++ map (fun e => (p ++ [PKey (fst e)], snd e)) us /\
      match uf with
      | None => us = []
      | Some h => NoDup us /\ (forall k x, In (k, x) us <-> In (k, x) m /\ ~ exists f t o, In (f, t) fs /\ tagged f k o) /\ (forall k x, In (k, x) us -> h (p ++ [PKey k]) x = false)
      end.
  Proof.
    intros Hok Hm Hnd Hno Hl H. rewrite (unm_is_map fs p n m vs Hm) in H. unfold unm_struct in H.
    pose proof (fields_run_ok p m fs vs) as Hr. destruct (unm_fields p m (map (fun f => (fst f, unm (snd f))) fs) vs) as [[e vs'] c0]. destruct Hr as (cs & Hr & ->).
    destruct e as [[]| |]; try discriminate. assert (Hg : mget beqb m [] = None) by now apply (mget_none beqb beqb_ok).
    destruct (run_ok p m fs vs vs' cs Hr Hl Hok Hg) as (R1 & R2 & R3).
    destruct uf as [h|].
    - destruct (unhandled h p (seen (map fst fs)) m) as [b c1] eqn:Eu. pose proof (unhandled_calls _ _ _ _ _ _ Eu) as Hc. destruct b; [discriminate|]. inversion H; subst. destruct Hc as [-> Hc].
      exists vs', cs, (filter (fun e => negb (existsb (beqb (fst e)) (seen (map fst fs)))) m). repeat (split; [first [assumption|reflexivity]|]).
      assert (Hiff : forall k x, In (k, x) (filter (fun e => negb (existsb (beqb (fst e)) (seen (map fst fs)))) m) <-> In (k, x) m /\ ~ In k (seen (map fst fs))).
      { intros k x. rewrite filter_In. cbn [fst]. rewrite negb_true_iff, <- not_true_iff_false, existsb_exists. split; intros [H1 H2]; split; auto.
        - intros Hi. apply H2. exists k. split; auto. now apply beqb_eq.
        - intros (k' & Hi & E). apply beqb_eq in E. subst. auto. }
      split; [apply nodup_filter; now apply nodup_fst|]. split.
      + intros k x. rewrite Hiff. assert (Hs : In (k, x) m -> (In k (seen (map fst fs)) <-> exists f t o, In (f, t) fs /\ tagged f k o)).
        { intros Hi. rewrite seen_names.
          - split; [intros (f & o & Hf & Ht); apply in_map_iff in Hf as ([f' t] & <- & Hf); exists f', t, o; auto|].
            intros (f & t & o & Hf & Ht). exists f, o. split; auto. apply in_map_iff. exists (f, t). auto.
          - intros f Hf. apply in_map_iff in Hf as ([f' t] & <- & Hf). now apply (Hok f' t).
          - intros ->. apply Hno. now apply (in_map fst) in Hi. }
        split; intros [H1 H2]; split; auto; intros H3; apply H2; now apply Hs.
      + intros k x Hi. apply Hiff in Hi as [H1 H2]. eauto.
    - inversion H; subst. exists vs', cs, []. cbn [map]. rewrite app_nil_r. repeat (split; [first [assumption|reflexivity]|]). auto.
  Qed.
  (* after an error: fields done, the one that failed, fields not reached *)
  Lemma run_err p m fs vs vs' cs e : fields_run p m fs vs e vs' cs -> e <> EPanic -> length vs = length fs ->
    (forall f t, In (f, t) fs -> hidden f \/ exists name o, tagged f name o) -> mget beqb m [] = None ->
    length vs' = length fs /\
    forall i f t v v', nth_error fs i = Some (f, t) -> nth_error vs i = Some v -> nth_error vs' i = Some v' ->
      v' = v \/ exists name o x c, tagged f name o /\ mget beqb m name = Some x /\ (unm t (p ++ [PName (f_name f)]) x v = (UOk v', c) \/ unm t (p ++ [PName (f_name f)]) x v = (UErr v', c)).
  Proof.
    induction 1 as [fs vs Hz|f t fs v vs w c1 e vs' cs Hd Hr IHr|f t fs v vs w c1 tg x Hx Ht Hg Hu|f t fs v vs Hx Ht|f t fs v vs c1 tg x Hx Ht Hg Hu]; intros He Hl Hok Hm; try congruence.
    - split; auto. intros i f t v v' H1 H2 H3. left. congruence.
    - cbn in Hl. destruct IHr as (I1 & I2); auto. { intros f' t' Hi. apply (Hok f' t'). now right. } cbn [length]. split; [lia|].
      intros [|i] f0 t0 v0 v' H1 H2 H3; cbn [nth_error] in *; [|eauto]. inversion H1; inversion H2; inversion H3; subst.
      pose proof (Hok f0 t0 (or_introl eq_refl)) as Hf. pose proof (done_spec p m f0 t0 v0 v' c1 Hf Hm Hd) as [S1 S2].
      destruct Hf as [Hh|(name & o & Ht)]; [left; now apply S1|]. specialize (S2 _ _ Ht). destruct (mget beqb m name) as [x|] eqn:Ex; [|left; apply S2].
      right. exists name, o, x, c1. auto.
    - split; [cbn in *; lia|]. intros [|i] f0 t0 v0 v' H1 H2 H3; cbn [nth_error] in *; [|left; congruence]. inversion H1; inversion H2; inversion H3; subst. right.
      destruct (vis_cases f0 (Hok f0 t0 (or_introl eq_refl))) as [(E1 & E2)|[(E1 & E2 & E3)|(name & o & E1 & E2 & E3)]]; [congruence| |].
      + rewrite E2 in Ht. inversion Ht; subst. cbn in Hg. congruence.
      + rewrite E2 in Ht. inversion Ht; subst. cbn in Hg. exists name, o, x, c1. split; [now apply tagged_vis|auto].
  Qed.
  Lemma struct_err fs p n m vs r calls : (forall f t, In (f, t) fs -> hidden f \/ exists name o, tagged f name o) -> is_map n m -> ~ In [] (map fst m) ->
    length vs = length fs -> unm (TStruct fs) p n (VStruct vs) = (UErr r, calls) ->
    exists vs', r = VStruct vs' /\ length vs' = length fs /\
    forall i f t v v', nth_error fs i = Some (f, t) -> nth_error vs i = Some v -> nth_error vs' i = Some v' ->
      v' = v \/ exists name o x c, tagged f name o /\ mget beqb m name = Some x /\ (unm t (p ++ [PName (f_name f)]) x v = (UOk v', c) \/ unm t (p ++ [PName (f_name f)]) x v = (UErr v', c)).
  Proof.
    intros Hok Hm Hno Hl H. rewrite (unm_is_map fs p n m vs Hm) in H. unfold unm_struct in H.
    pose proof (fields_run_ok p m fs vs) as Hr. destruct (unm_fields p m (map (fun f => (fst f, unm (snd f))) fs) vs) as [[e vs'] c0]. destruct Hr as (cs & Hr & ->).
    assert (Hg : mget beqb m [] = None) by now apply (mget_none beqb beqb_ok).
    assert (E : e <> EPanic /\ r = VStruct vs').
    { destruct e as [[]| |]; [|inversion H; split; auto; discriminate|inversion H]. split; [discriminate|].
      destruct uf as [h|]; [destruct (unhandled h p (seen (map fst fs)) m) as [[|] c1]|]; inversion H; auto. }
    destruct E as [E ->]. exists vs'. split; auto. eapply run_err; eauto.
  Qed.

  (* ---- C75: no panic ---- *)
  Lemma tags_fields fs : tags_ok (TStruct fs) -> forall f t, In (f, t) fs -> (hidden f \/ exists name o, tagged f name o) /\ tags_ok t.
  Proof.
    cbn [tags_ok]. induction fs as [|[f t] fs IH]; cbn [fold_right fst snd]; intros H f' t' Hi; [contradiction|]. destruct H as (H1 & H2 & H3). destruct Hi as [Hi|Hi]; [inversion Hi; subst; auto|auto].
  Qed.
  Lemma no_dur_is_map n m : no_dur n -> is_map n m -> forall k x, In (k, x) m -> no_dur x.
  Proof.
    intros H [->|(ps & -> & ->)]; intros k x Hi.
    - cbn in H. induction m as [|e m IH]; [contradiction|]. destruct H as [H1 H2]. destruct Hi as [->|Hi]; auto.
    - apply asmap_in in Hi as [name Hi]. cbn in H. induction ps as [|e m IH]; [contradiction|]. destruct H as [H1 H2]. destruct Hi as [->|Hi]; auto.
  Qed.
  Lemma no_panic t : forall p n v, tags_ok t -> no_dur n -> fst (unm t p n v) <> UPanic.
  Proof.
    induction t as [ | w | w | | t IH | t IH | k t IH | k t IH | fs IH] using ty_nest; intros p n v Ht Hn;
      try (destruct n; cbn in *; try contradiction; try discriminate; try (destruct (parse_int _); discriminate); try (destruct (parse_uint _); discriminate); fail).
    - specialize (IH p n (zero t) Ht Hn). cbn [MarModel.unm]. destruct n; try discriminate; (match goal with |- context [MarModel.unm _ _ _ t p ?x (zero t)] => destruct (unm t p x (zero t)) as [[u|u|] c] end; cbn in *; try discriminate; congruence).
    - destruct n; cbn in *; try contradiction; try discriminate.
      assert (H : fst (unm_elems (fun p n => unm t p n (zero t)) p 0 l) <> EPanic).
      { generalize 0. induction l as [|x l IHl]; intros i; cbn [unm_elems]; [discriminate|]. destruct Hn as [Hx Hn]. pose proof (IH (p ++ [PIdx i]) x (zero t) Ht Hx) as Hp.
        destruct (unm t (p ++ [PIdx i]) x (zero t)) as [[u|u|] c]; cbn in *; try discriminate; [|congruence]. specialize (IHl Hn (S i)).
        destruct (unm_elems _ p (S i) l) as [e c']. cbn in *. destruct e; congruence. }
      destruct (unm_elems _ p 0 l) as [e c]. cbn in *. destruct e; congruence.
    - destruct n; cbn in *; try contradiction; try discriminate.
      assert (H : fst (unm_elems (fun p n => unm t p n (zero t)) p 0 l) <> EPanic).
      { generalize 0. clear k. induction l as [|x l IHl]; intros i; cbn [unm_elems]; [discriminate|]. destruct Hn as [Hx Hn]. pose proof (IH (p ++ [PIdx i]) x (zero t) Ht Hx) as Hp.
        destruct (unm t (p ++ [PIdx i]) x (zero t)) as [[u|u|] c]; cbn in *; try discriminate; [|congruence]. specialize (IHl Hn (S i)).
        destruct (unm_elems _ p (S i) l) as [e c']. cbn in *. destruct e; congruence. }
      destruct (length l =? k); [|discriminate].
      destruct (unm_elems _ p 0 l) as [e c]. cbn in *. destruct e; congruence.
    - assert (H : forall m acc, (forall s x, In (s, x) m -> no_dur x) -> fst (unm_entries k (fun p n => unm t p n (zero t)) p acc m) <> EPanic).
      { induction m as [|[s x] m IHm]; intros acc Hd; cbn [unm_entries]; [discriminate|]. destruct (ukey k s); [|discriminate].
        pose proof (IH (p ++ [PVal]) x (zero t) Ht (Hd s x (or_introl eq_refl))) as Hp.
        destruct (unm t (p ++ [PVal]) x (zero t)) as [[u|u|] c]; cbn in *; try discriminate; [|congruence].
        specialize (IHm (kset acc k0 u) (fun s x Hi => Hd s x (or_intror Hi))). destruct (unm_entries k _ p (kset acc k0 u) m) as [e c']. cbn in *. congruence. }
      destruct n; try (cbn in *; try contradiction; discriminate); cbn [MarModel.unm].
      + pose proof (H l [] (no_dur_is_map _ l Hn (or_introl eq_refl))) as Hp. destruct (unm_entries k _ p [] l) as [e c]. cbn in *. destruct e; congruence.
      + pose proof (H (AsMap l) [] (no_dur_is_map _ (AsMap l) Hn (or_intror (ex_intro _ l (conj eq_refl eq_refl))))) as Hp. destruct (unm_entries k _ p [] (AsMap l)) as [e c]. cbn in *. destruct e; congruence.
    - assert (H : forall m vs, is_map n m -> fst (unm_struct fs p m vs) <> UPanic).
      { intros m vs Hm. pose proof (no_dur_is_map n m Hn Hm) as Hd. unfold unm_struct.
        pose proof (fields_run_ok p m fs vs) as Hr. destruct (unm_fields p m (map (fun f => (fst f, unm (snd f))) fs) vs) as [[e vs'] c0]. destruct Hr as (cs & Hr & _).
        assert (He : e <> EPanic).
        { pose proof (tags_fields fs Ht) as Hf. clear Ht Hm. induction Hr as [fs vs Hz|f t fs v0 vs w c1 e vs' cs Hdn Hr IHr|f t fs v0 vs w c1 tg x Hx Htg Hg Hu|f t fs v0 vs Hx Htg|f t fs v0 vs c1 tg x Hx Htg Hg Hu]; try discriminate.
          - apply IHr; [intros f' t' Hi; apply (IH f' t'); now right|intros f' t' Hi; apply Hf; now right].
          - destruct (vis_cases f (proj1 (Hf f t (or_introl eq_refl)))) as [(E1 & E2)|[(E1 & E2 & E3)|(name & o & E1 & E2 & E3)]]; congruence.
          - exfalso. apply (IH f t (or_introl eq_refl) (p ++ [PName (f_name f)]) x v0); [now apply (Hf f t); left| |now rewrite Hu]. apply mget_some_in in Hg. eauto. }
        destruct e as [u| |]; try discriminate; [|congruence]. destruct uf as [h|]; [|discriminate]. destruct (unhandled h p (seen (map fst fs)) m) as [[|] c1]; discriminate. }
      destruct n; try (cbn in *; try contradiction; discriminate); destruct v; try (cbn; discriminate).
      + apply H. now left.
      + apply (H (AsMap l)). right. eauto.
  Qed.
End U.
