(* Lemmas about the schemas: more steps do not change the result, components are kept, references resolve. *)
From Coq Require Import Bool Ascii String Arith NArith ZArith List Lia.
From Verif Require Import Prelude PreludeFacts Utf8Model DecModel DurModel DurProofs KvProofs EncModel JsonModel MarModel MarSpec ApiModel OaModel OaSpec.
Import ListNotations.

Lemma mset_eq {V} (m : list (bytes * V)) k v : mget beqb (mset beqb m k v) k = Some v.
Proof. apply (mget_mset_eq beqb beqb_ok). Qed.
Lemma mset_ne {V} (m : list (bytes * V)) k v j : j <> k -> mget beqb (mset beqb m k v) j = mget beqb m j.
Proof. intro H. apply (mget_mset_ne beqb beqb_ok). congruence. Qed.
Lemma mget_In {V} (m : list (bytes * V)) k v : mget beqb m k = Some v -> In (k, v) m.
Proof. induction m as [|[j w] m IH]; cbn [mget]; [discriminate|]. destruct (beqb k j) eqn:E; [apply beqb_eq in E as ->; intros [= ->]; now left|right; auto]. Qed.
Lemma mset_In {V} (m : list (bytes * V)) k v j w : In (j, w) (mset beqb m k v) -> w = v \/ In (j, w) m.
Proof.
  induction m as [|[k' v'] m IH]; cbn [mset]; intros Hi; [destruct Hi as [[= <- <-]|[]]; auto|]. destruct (beqb k k'); cbn in Hi |- *; destruct Hi as [[= <- <-]|Hi]; auto. destruct (IH Hi); auto.
Qed.

Section Proofs.
  Context (env : tid -> tinfo) (parse_float : bytes -> option floatv).
  Notation sft := (schemaFromType env parse_float).
  Notation recT := (comps -> tid -> bytes -> bytes -> option (sres * comps)).

  (* ---- more steps ---- *)
  Lemma deref_mono n : forall m t u, deref env n t = Some u -> n <= m -> deref env m t = Some u.
  Proof.
    induction n as [|n IH]; intros m t u E Hm.
    - destruct m as [|m]; cbn [deref] in *; destruct (t_kind (env t)); auto; discriminate.
    - destruct m as [|m]; [lia|]. cbn [deref] in *. destruct (t_kind (env t)); auto. apply IH; [assumption|lia].
  Qed.
  Lemma deref_plain n : forall t u, deref env n t = Some u -> forall e, t_kind (env u) <> KPtr e.
  Proof.
    induction n as [|n IH]; intros t u E e He; cbn [deref] in E.
    - destruct (t_kind (env t)) eqn:K; try discriminate; injection E as <-; congruence.
    - destruct (t_kind (env t)) eqn:K; try (injection E as <-; congruence). eapply IH; eauto.
  Qed.
  Definition more (rec rec' : recT) : Prop := forall st t d e r, rec st t d e = Some r -> rec' st t d e = Some r.
  Lemma fields_more (rec rec' : recT) key format fs : more rec rec' -> forall st props descs r,
    fields env rec key format st props descs fs = Some r -> fields env rec' key format st props descs fs = Some r.
  Proof.
    intros Hm. induction fs as [|f fs IH]; intros st props descs r E; cbn [fields] in *; [exact E|].
    destruct (rec st (sf_type f) (sf_doc f) (sf_example f)) as [[[s| |] st1]|] eqn:Er; try discriminate; rewrite (Hm _ _ _ _ _ Er); auto.
  Qed.
  Lemma ofKind_more (rec rec' : recT) st t u doc ex r : more rec rec' -> ofKind env parse_float rec st t u doc ex = Some r -> ofKind env parse_float rec' st t u doc ex = Some r.
  Proof.
    intros Hm. unfold ofKind. destruct (t_kind (env u)); auto.
    - destruct (rec st e [] []) as [[[s| |] st1]|] eqn:Er; try discriminate; rewrite (Hm _ _ _ _ _ Er); auto.
    - destruct (rec st k [] []) as [[[s| |] st1]|] eqn:Er; try discriminate; rewrite (Hm _ _ _ _ _ Er); auto.
      destruct (rec st1 e [] []) as [[[s'| |] st2]|] eqn:Er'; try discriminate; rewrite (Hm _ _ _ _ _ Er'); auto.
    - unfold ofStruct. destruct name as [[pkg n]|].
      + destruct (mget beqb st (structKey pkg n)); auto. destruct (fields env rec _ _ _ _ _ _) as [r'|] eqn:Ef; [|discriminate]. now rewrite (fields_more _ _ _ _ _ Hm _ _ _ _ Ef).
      + destruct (fields env rec _ _ _ _ _ _) as [r'|] eqn:Ef; [|discriminate]. now rewrite (fields_more _ _ _ _ _ Hm _ _ _ _ Ef).
  Qed.
  Lemma sft_S n : more (sft n) (sft (S n)).
  Proof.
    induction n as [|n IH]; intros st t d e r E; [discriminate|]. cbn [schemaFromType] in E. remember (S n) as n1. cbn [schemaFromType].
    destruct (deref env n1 t) as [u|] eqn:Ed; [|discriminate]. rewrite (deref_mono n1 (S n1) t u Ed) by lia.
    destruct (t_special (env u)) as [| | |m|]; auto; [destruct m as [| |j]; auto; [|destruct (byJson env parse_float t d e j); auto]|]; eapply ofKind_more; eauto.
  Qed.
  Lemma sft_mono n m st t d e r : n <= m -> sft n st t d e = Some r -> sft m st t d e = Some r.
  Proof. induction 1; auto. intro E. apply sft_S. auto. Qed.

  (* A step of schemaFromType: either nothing is done with the components and no part is looked at, or it goes by kind. *)
  Definition atom (r : sres) : Prop := match r with SOk s => s_allOf s = [] /\ s_props s = [] /\ s_addl s = None /\ s_items s = None | SErr => False | SPanic => True end.
  Lemma byJson_atom t d e j r : byJson env parse_float t d e j = Some r -> atom r.
  Proof.
    unfold byJson. destruct j as [|c j]; [intros [= <-]; exact I|]. destruct (existsb _ _); [discriminate|]. repeat (destruct (existsb _ _); [intros [= <-]; cbn; auto|]). intros [= <-]. exact I.
  Qed.
  Lemma byJson_none t d e j : byJson env parse_float t d e j = None <-> exists c r, j = c :: r /\ (c = "{" \/ c = "n" \/ c = "[")%char.
  Proof.
    unfold byJson. destruct j as [|c j]; [split; [discriminate|intros (? & ? & [=] & _)]|]. split.
    - destruct (existsb (Ascii.eqb c) (B "{n[")) eqn:X.
      + intros _. exists c, j. split; auto. cbn in X. repeat (apply orb_true_iff in X as [X|X]); try (apply Ascii.eqb_eq in X; subst; auto). discriminate.
      + repeat (destruct (existsb _ _); [discriminate|]). discriminate.
    - intros (c' & r & [= <- <-] & Hc). replace (existsb (Ascii.eqb c) (B "{n[")) with true; auto. symmetry. destruct Hc as [->|[->| ->]]; reflexivity.
  Qed.
  Lemma sft_step n st t d e x : sft (S n) st t d e = Some x ->
    exists u, deref env (S n) t = Some u /\ ((snd x = st /\ atom (fst x)) \/ (plain env u /\ ofKind env parse_float (sft n) st t u d e = Some x)).
  Proof.
    intro E. remember (S n) as n1 eqn:En. assert (E' := E). rewrite En in E'. cbn [schemaFromType] in E'. rewrite <- En in E'. clear E.
    destruct (deref env n1 t) as [u|]; [|discriminate]. exists u. split; auto.
    destruct (t_special (env u)) as [| | |m|] eqn:Es.
    1-3: injection E' as <-; left; cbn; auto.
    - destruct m as [| |j].
      + right. split; auto. unfold plain. now rewrite Es.
      + injection E' as <-. left. cbn. auto.
      + destruct (byJson env parse_float t d e j) as [r|] eqn:Ej.
        * injection E' as <-. left. split; auto. eapply byJson_atom; eauto.
        * right. split; auto. apply byJson_none in Ej as (c & r & -> & Hc). unfold plain. now rewrite Es.
    - right. split; auto. unfold plain. now rewrite Es.
  Qed.

  (* ---- components are kept ---- *)
  Definition keeps_all (st st' : comps) : Prop := forall k s, mget beqb st k = Some s -> mget beqb st' k = Some s.
  Definition keeping (rec : recT) : Prop := forall st t d e r st', rec st t d e = Some (r, st') -> keeps_all st st'.
  Lemma keeps_refl st : keeps_all st st.
  Proof. intros k s; auto. Qed.
  Lemma keeps_trans a b c : keeps_all a b -> keeps_all b c -> keeps_all a c.
  Proof. intros H1 H2 k s Hk. auto. Qed.
  Lemma fields_keep (rec : recT) key format fs : keeping rec -> forall st props descs r st',
    fields env rec key format st props descs fs = Some (r, st') -> forall k s, Some k <> key -> mget beqb st k = Some s -> mget beqb st' k = Some s.
  Proof.
    intros Hr. induction fs as [|f fs IH]; intros st props descs r st' E k s Hk Hs; cbn [fields] in E; [injection E as <- <-; auto|].
    destruct (rec st (sf_type f) (sf_doc f) (sf_example f)) as [[[x| |] st1]|] eqn:Er; try discriminate.
    - eapply IH; eauto. pose proof (Hr _ _ _ _ _ _ Er k s Hs) as H1. destruct key as [k0|]; cbn [store]; auto. rewrite mset_ne; auto. congruence.
    - injection E as <- <-. eapply Hr; eauto.
    - injection E as <- <-. eapply Hr; eauto.
  Qed.
  Lemma ofKind_keep (rec : recT) st t u d e r st' : keeping rec -> ofKind env parse_float rec st t u d e = Some (r, st') -> keeps_all st st'.
  Proof.
    intros Hr. unfold ofKind. destruct (t_kind (env u)); try (intros [= <- <-]; apply keeps_refl).
    - destruct (rec st e0 [] []) as [[[x| |] st1]|] eqn:Er; try discriminate; intros [= <- <-]; eapply Hr; eauto.
    - destruct (rec st k [] []) as [[[x| |] st1]|] eqn:Er; try discriminate; try (intros [= <- <-]; eapply Hr; eauto).
      destruct (rec st1 e0 [] []) as [[[y| |] st2]|] eqn:Er'; try discriminate; intros [= <- <-]; eapply keeps_trans; eapply Hr; eauto.
    - unfold ofStruct. destruct name as [[pkg n]|].
      + destruct (mget beqb st (structKey pkg n)) eqn:Ek; [intros [= <- <-]; apply keeps_refl|].
        destruct (fields env rec _ _ _ _ _ _) as [[x st1]|] eqn:Ef; [|discriminate]. intros E k s Hs.
        assert (E1 : st' = st1) by (destruct x as [[? ?]|]; [destruct (loggable _)|]; congruence). subst st1.
        eapply fields_keep; eauto; [congruence|]. cbn [store]. rewrite mset_ne; auto. congruence.
      + destruct (fields env rec _ _ _ _ _ _) as [[x st1]|] eqn:Ef; [|discriminate]. intros E k s Hs.
        assert (E1 : st' = st1) by (destruct x as [[? ?]|]; congruence). subst st1. eapply fields_keep; eauto. discriminate.
  Qed.
  Lemma sft_keep n : keeping (sft n).
  Proof.
    induction n as [|n IH]; intros st t d e r st' E; [discriminate|]. apply sft_step in E as (u & _ & [(E & _)|(_ & E)]); [cbn in E; subst; apply keeps_refl|]. eapply ofKind_keep; eauto.
  Qed.

  (* ---- references ---- *)
  Definition ext (st st' : comps) : Prop := forall k s, mget beqb st k = Some s -> exists s', mget beqb st' k = Some s'.
  Lemma keeps_ext a b : keeps_all a b -> ext a b.
  Proof. intros H k s Hs. eauto. Qed.
  Lemma ext_refl a : ext a a.
  Proof. intros k s Hs. eauto. Qed.
  Lemma ext_trans a b c : ext a b -> ext b c -> ext a c.
  Proof. intros H1 H2 k s Hs. destruct (H1 k s Hs) as (s1 & E1). eauto. Qed.
  Lemma ext_store st key s : ext st (store st key s).
  Proof.
    intros k x Hx. destruct key as [k0|]; cbn [store]; [|eauto]. destruct (beqb k k0) eqn:E; [apply beqb_eq in E as ->; rewrite mset_eq; eauto|].
    rewrite mset_ne; eauto. intros ->. now rewrite beqb_refl in E.
  Qed.
  Lemma resolves_ext st st' r : ext st st' -> resolves st r -> resolves st' r.
  Proof. intros H (k & s & E & Hk). destruct (H k s Hk) as (s' & Hs). exists k, s'. auto. Qed.
  Definition closed_schema (st : comps) (s : schema) : Prop := forall r, In r (refs s) -> resolves st r.
  Definition closed (st : comps) : Prop := forall k s, mget beqb st k = Some s -> closed_schema st s.
  Definition closed_props (st : comps) (props : list (bytes * schema)) : Prop := forall k s, In (k, s) props -> closed_schema st s.
  Lemma closed_schema_ext st st' s : ext st st' -> closed_schema st s -> closed_schema st' s.
  Proof. intros H Hs r Hr. eapply resolves_ext; eauto. Qed.
  Lemma closed_props_ext st st' p : ext st st' -> closed_props st p -> closed_props st' p.
  Proof. intros H Hs k s Hk. eapply closed_schema_ext; eauto. Qed.
  Lemma refs_struct st ty format props d x : closed_props st props -> closed_schema st (Schema ty format props None d x None []).
  Proof.
    intros H r Hr. cbn [refs s_allOf s_props s_addl s_items app] in Hr. rewrite app_nil_r in Hr. apply in_flat_map in Hr as ([k s] & Hk & Hr). eapply H; eauto.
  Qed.
  Lemma closed_props_set st props k s : closed_props st props -> closed_schema st s -> closed_props st (mset beqb props k s).
  Proof. intros Hp Hs j x Hi. apply mset_In in Hi as [->|Hi]; eauto. Qed.
  Lemma closed_store st key format props : closed st -> closed_props st props -> closed (store st key (structSchema format props)).
  Proof.
    intros Hc Hp k s Hs. pose proof (ext_store st key (structSchema format props)) as Hx. destruct key as [k0|]; cbn [store] in *; [|eauto].
    destruct (beqb k k0) eqn:E.
    - apply beqb_eq in E as ->. rewrite mset_eq in Hs. injection Hs as <-. eapply closed_schema_ext; [exact Hx|]. now apply refs_struct.
    - rewrite mset_ne in Hs by (intros ->; now rewrite beqb_refl in E). eapply closed_schema_ext; eauto.
  Qed.
  Lemma fin_refs doc ex s s' : fin doc ex s = SOk s' -> refs s' = refs s.
  Proof. intros [= <-]. destruct s; reflexivity. Qed.
  Definition closing (rec : recT) : Prop := forall st t d e r st', closed st -> rec st t d e = Some (r, st') ->
    closed st' /\ (forall s, r = SOk s -> closed_schema st' s).
  Lemma fields_closed (rec : recT) key format fs : keeping rec -> closing rec -> forall st props descs r st', closed st -> closed_props st props ->
    fields env rec key format st props descs fs = Some (r, st') -> closed st' /\ (forall ps ds, r = Some (ps, ds) -> closed_props st' ps).
  Proof.
    intros Hk Hr. induction fs as [|f fs IH]; intros st props descs r st' Hc Hp E; cbn [fields] in E.
    - injection E as <- <-. split; auto. intros ps ds [= <- <-]. auto.
    - destruct (rec st (sf_type f) (sf_doc f) (sf_example f)) as [[x st1]|] eqn:Er; [|discriminate].
      destruct (Hr _ _ _ _ _ _ Hc Er) as (H1 & H2). pose proof (keeps_ext _ _ (Hk _ _ _ _ _ _ Er)) as Hx.
      destruct x as [x| |]; try (injection E as <- <-; split; [assumption|discriminate]).
      assert (Hp1 : closed_props st1 (mset beqb props (propName f) x)) by (apply closed_props_set; [eapply closed_props_ext; eauto|eauto]).
      eapply IH; [| |exact E]; [now apply closed_store|]. eapply closed_props_ext; [apply ext_store|exact Hp1].
  Qed.
  Lemma fields_stored (rec : recT) k0 format fs : keeping rec -> forall st props descs ps ds st', mget beqb st k0 = Some (structSchema format props) ->
    fields env rec (Some k0) format st props descs fs = Some (Some (ps, ds), st') -> mget beqb st' k0 = Some (structSchema format ps).
  Proof.
    intros Hk. induction fs as [|f fs IH]; intros st props descs ps ds st' Hs E; cbn [fields] in E; [injection E as <- <- <-; auto|].
    destruct (rec st (sf_type f) (sf_doc f) (sf_example f)) as [[[x| |] st1]|] eqn:Er; try discriminate. eapply IH; [|exact E]. apply mset_eq.
  Qed.
  Lemma fields_stored_any (rec : recT) k0 format fs : keeping rec -> forall st props descs r st', mget beqb st k0 = Some (structSchema format props) ->
    fields env rec (Some k0) format st props descs fs = Some (r, st') -> exists ps, mget beqb st' k0 = Some (structSchema format ps).
  Proof.
    intros Hk. induction fs as [|f fs IH]; intros st props descs r st' Hs E; cbn [fields] in E; [injection E as <- <-; eauto|].
    destruct (rec st (sf_type f) (sf_doc f) (sf_example f)) as [[[x| |] st1]|] eqn:Er; try discriminate.
    - eapply IH; [|exact E]. apply mset_eq.
    - injection E as <- <-. apply (Hk _ _ _ _ _ _ Er) in Hs. eauto.
    - injection E as <- <-. apply (Hk _ _ _ _ _ _ Er) in Hs. eauto.
  Qed.
  Lemma leaf_closed st ty f x : closed_schema st (leaf ty f x).
  Proof. intros r []. Qed.
  Lemma fin_closed st doc ex s s' : closed_schema st s -> fin doc ex s = SOk s' -> closed_schema st s'.
  Proof. intros H E r Hr. rewrite (fin_refs _ _ _ _ E) in Hr. auto. Qed.
  Lemma ref_closed st k s x : mget beqb st k = Some s -> closed_schema st (Schema [] [] [] None [] x None [referencePrefix ++ k]).
  Proof. intros H r Hr. cbn [refs s_allOf s_props s_addl s_items flat_map app] in Hr. destruct Hr as [<-|[]]. exists k, s. auto. Qed.
  Lemma ofKind_closed (rec : recT) st t u d e r st' : keeping rec -> closing rec -> closed st -> ofKind env parse_float rec st t u d e = Some (r, st') ->
    closed st' /\ (forall s, r = SOk s -> closed_schema st' s).
  Proof.
    intros Hk Hr Hc. unfold ofKind. destruct (t_kind (env u)) as [e0| | | | |e0|k0 e0|any|name fs|];
      try (intros [= <- <-]; split; [assumption|]; first [intros s E; eapply fin_closed; [|exact E]; apply leaf_closed|discriminate]).
    - destruct (rec st e0 [] []) as [[x st1]|] eqn:Er; [|discriminate]. destruct (Hr _ _ _ _ _ _ Hc Er) as (H1 & H2).
      destruct x as [x| |]; intros [= <- <-]; (split; [assumption|]); try discriminate.
      intros s E. eapply fin_closed; [|exact E]. intros r Hi. cbn [refs s_allOf s_props s_addl s_items flat_map app] in Hi. eapply H2; eauto.
    - destruct (rec st k0 [] []) as [[x st1]|] eqn:Er; [|discriminate]. destruct (Hr _ _ _ _ _ _ Hc Er) as (H1 & H2).
      destruct x as [x| |]; try (intros [= <- <-]; split; [assumption|discriminate]).
      destruct (rec st1 e0 [] []) as [[y st2]|] eqn:Er'; [|discriminate]. destruct (Hr _ _ _ _ _ _ H1 Er') as (H3 & H4).
      destruct y as [y| |]; intros [= <- <-]; (split; [assumption|]); try discriminate.
      intros s E. eapply fin_closed; [|exact E]. intros r Hi. cbn [refs s_allOf s_props s_addl s_items flat_map app] in Hi. rewrite app_nil_r in Hi. eapply H4; eauto.
    - unfold ofStruct. destruct name as [[pkg n]|].
      + destruct (mget beqb st (structKey pkg n)) as [s0|] eqn:Ek; [intros [= <- <-]; split; [assumption|]; intros s E; eapply fin_closed; [|exact E]; eapply ref_closed; eauto|].
        destruct (fields env rec _ _ _ _ _ _) as [[x st1]|] eqn:Ef; [|discriminate]. intros E.
        assert (E1 : st' = st1) by (destruct x as [[? ?]|]; [destruct (loggable _)|]; congruence). subst st1.
        pose proof (fields_stored_any rec _ _ _ Hk _ _ _ _ _ (mset_eq _ _ _) Ef) as (ps & Hps).
        apply (fields_closed rec _ _ _ Hk Hr) in Ef as (H1 & _); [|apply closed_store; [assumption|intros ? ? []]|intros ? ? []].
        split; [assumption|]. intros s Es. subst r. destruct x as [[? ?]|]; [destruct (loggable _)|]; try congruence. apply (f_equal (fun o => match o with Some (r, _) => r | None => SErr end)) in E. eapply fin_closed; [|exact E]. eapply ref_closed; eauto.
      + destruct (fields env rec _ _ _ _ _ _) as [[x st1]|] eqn:Ef; [|discriminate]. intros E.
        assert (E1 : st' = st1) by (destruct x as [[? ?]|]; congruence). subst st1.
        apply (fields_closed rec _ _ _ Hk Hr) in Ef as (H1 & H2); [|assumption|intros ? ? []].
        split; [assumption|]. intros s Es. subst r. destruct x as [[ps ds]|]; [|congruence]. apply (f_equal (fun o => match o with Some (r, _) => r | None => SErr end)) in E. eapply fin_closed; [|exact E]. apply refs_struct. eapply H2; eauto.
  Qed.
  Lemma atom_closed st r s : atom r -> r = SOk s -> closed_schema st s.
  Proof. intros Ha -> q Hr. cbn [atom] in Ha. destruct Ha as (H1 & H2 & H3 & H4). destruct s. cbn in *. subst. destruct Hr. Qed.
  Lemma sft_closed n : closing (sft n).
  Proof.
    induction n as [|n IH]; intros st t d e r st' Hc E; [discriminate|]. apply sft_step in E as (u & _ & [(E & Ha)|(_ & E)]).
    - cbn in E, Ha. subst. split; auto. intros s Es. eapply atom_closed; eauto.
    - eapply ofKind_closed; eauto. apply sft_keep.
  Qed.
  Lemma calls_closed st : calls env parse_float st -> closed st.
  Proof. induction 1; [intros k s; discriminate|]. eapply sft_closed; eauto. Qed.
End Proofs.
