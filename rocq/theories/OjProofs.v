(* Lemmas about the JSON of values of described types. *)
From Coq Require Import Bool Ascii String Arith NArith ZArith List Lia.
From Verif Require Import Prelude PreludeFacts Utf8Model Utf8Facts DecModel DurModel DurProofs KvProofs EncModel JsonModel MarModel MarSpec MarFacts MarProofs ApiModel OaModel OaSpec OaProofs OaShape OjModel OjSpec.
Import ListNotations.

Section Ind.
  Variable P : gv -> Prop.
  Hypothesis HB : forall b, P (GBool b).
  Hypothesis HI : forall z, P (GInt z).
  Hypothesis HU : forall z, P (GUint z).
  Hypothesis HF : forall f, P (GFloat f).
  Hypothesis HS : forall s, P (GStr s).
  Hypothesis HT : forall x, P (GTime x).
  Hypothesis HE : forall x, P (GEncTime x).
  Hypothesis HN : P GNil.
  Hypothesis HP : forall v, P v -> P (GPtr v).
  Hypothesis HL : forall l, (forall v, In v l -> P v) -> P (GList l).
  Hypothesis HM : forall l, (forall x v, In (x, v) l -> P x /\ P v) -> P (GMap l).
  Hypothesis HR : forall l, (forall v, In v l -> P v) -> P (GStruct l).
  Hypothesis HD : forall t v, P v -> P (GDyn t v).
  Fixpoint gv_all (v : gv) : P v :=
    let all := fix go (l : list gv) : forall v, In v l -> P v :=
      match l return forall v, In v l -> P v with
      | [] => fun v h => match h with end
      | x :: r => fun v h => match h with or_introl e => eq_ind x P (gv_all x) v e | or_intror h' => go r v h' end
      end in
    match v with
    | GBool b => HB b | GInt z => HI z | GUint z => HU z | GFloat f => HF f | GStr s => HS s | GTime x => HT x | GEncTime x => HE x
    | GNil => HN | GPtr v => HP v (gv_all v) | GList l => HL l (all l) | GStruct l => HR l (all l) | GDyn t v => HD t v (gv_all v)
    | GMap l => HM l ((fix go (l : list (gv * gv)) : forall x v, In (x, v) l -> P x /\ P v :=
        match l return forall x v, In (x, v) l -> P x /\ P v with
        | [] => fun x v h => match h with end
        | (a, b) :: r => fun x v h => match h with
            | or_introl e => conj (eq_ind a P (gv_all a) x (f_equal fst e)) (eq_ind b P (gv_all b) v (f_equal snd e))
            | or_intror h' => go r x v h' end
        end) l)
    end.
End Ind.

Section Fit.
  Context (env : tid -> tinfo) (own : tid -> gv -> option node) (st : comps) (nl : bool) (Hst : sound env st) (Hnames : names_differ env).
  Notation mar := (marE env own).
  Definition fits (v : gv) : Prop := forall t s n, typed env v t -> regular env own v t -> shape env st t s -> mar v t = Some n -> (nl = true \/ solid v) -> conforms st nl s n.

  Lemma elems_fit e s : forall l ns, (forall v, In v l -> fits v) -> (fix all l := match l with [] => True | x :: r => typed env x e /\ all r end) l ->
    (fix all l := match l with [] => True | x :: r => regular env own x e /\ all r end) l -> shape env st e s -> e_elems mar e l = Some ns ->
    (nl = true \/ (fix all l := match l with [] => True | x :: r => solid x /\ all r end) l) -> forall n, In n ns -> conforms st nl s n.
  Proof.
    induction l as [|v l IH]; intros ns Hf Ht Hr Hs E Hn n Hi; cbn [e_elems] in E. { injection E as <-. destruct Hi. }
    destruct (mar v e) as [n0|] eqn:E0; [|discriminate]. destruct (e_elems mar e l) as [ns'|] eqn:E1; [|discriminate]. injection E as <-. destruct Ht as [Ht Ht'], Hr as [Hr Hr'].
    destruct Hi as [<-|Hi]; [apply (Hf v (or_introl eq_refl) e s n0); tauto|]. apply (IH ns'); auto; [intros x Hx; apply Hf; now right|tauto].
  Qed.
  Lemma entries_fit k e s : forall l acc m, (forall x v, In (x, v) l -> fits x /\ fits v) -> (fix all l := match l with [] => True | (x, y) :: r => typed env x k /\ typed env y e /\ all r end) l ->
    (fix all l := match l with [] => True | (_, y) :: r => regular env own y e /\ all r end) l -> shape env st e s -> e_entries mar k e acc l = Some m ->
    (nl = true \/ (fix all (l : list (gv * gv)) := match l with [] => True | (_, y) :: r => solid y /\ all r end) l) -> Forall (fun x => conforms st nl s (snd x)) acc -> Forall (fun x => conforms st nl s (snd x)) m.
  Proof.
    induction l as [|[x v] l IH]; intros acc m Hf Ht Hr Hs E Hn Ha; cbn [e_entries] in E. { injection E as <-. exact Ha. }
    destruct (mar v e) as [n0|] eqn:E0; [|discriminate]. destruct (mar x k) as [nk|] eqn:E1; [|discriminate]. destruct (key_text nk) as [tx|]; [|discriminate]. destruct Ht as (_ & Ht & Ht'), Hr as [Hr Hr'].
    eapply IH; eauto; [intros y w Hi; apply Hf; now right|tauto|]. apply mset_forall; auto. cbn [snd]. apply (proj2 (Hf x v (or_introl eq_refl)) e s n0); tauto.
  Qed.
  Lemma fields_fit : forall vs fs ss ps, (forall v, In v vs -> fits v) ->
    (fix all (vs : list gv) (fs : list sfld) {struct vs} := match vs, fs with [], [] => True | x :: r, f :: fs' => typed env x (sf_type f) /\ all r fs' | _, _ => False end) vs fs ->
    (fix all (vs : list gv) (fs : list sfld) {struct vs} := match vs, fs with x :: r, f :: fs' => regular env own x (sf_type f) /\ all r fs' | _, _ => True end) vs fs ->
    shapes env st fs ss -> e_fields mar fs vs = Some ps -> (nl = true \/ (fix all l := match l with [] => True | x :: r => solid x /\ all r end) vs) ->
    forall name k x, In ((name, k), x) ps -> exists i sf s, nth_error fs i = Some sf /\ nth_error ss i = Some s /\ shown sf /\ propName sf = k /\ conforms st nl s x.
  Proof.
    induction vs as [|v vs IH]; intros [|f fs] ss ps Hf Ht Hr Hs E Hn name k x Hi; try contradiction; cbn [e_fields] in E. { injection E as <-. destruct Hi. }
    destruct Ht as [Ht Ht'], Hr as [Hr Hr']. inversion Hs as [|? ? s ss' Hs1 Hs2]; subst.
    assert (IHr : forall ps, e_fields mar fs vs = Some ps -> In ((name, k), x) ps -> exists i sf s0, nth_error (f :: fs) i = Some sf /\ nth_error (s :: ss') i = Some s0 /\ shown sf /\ propName sf = k /\ conforms st nl s0 x).
    { intros ps' Ep Hp. destruct (IH fs ss' ps' (fun w Hw => Hf w (or_intror Hw)) Ht' Hr' Hs2 Ep ltac:(tauto) name k x Hp) as (i & sf & s0 & H1 & H2 & H3). exists (S i), sf, s0. auto. }
    destruct (sf_exported f) eqn:Ex; [|eauto]. set (ff := Fld (sf_name f) true (sf_json f)) in *. destruct (parseTag ff) as [tg|] eqn:Et; [|discriminate]. destruct (g_skip tg) eqn:Eg; [eauto|].
    destruct (mar v (sf_type f)) as [n|] eqn:En; [|discriminate]. destruct (e_fields mar fs vs) as [ps'|] eqn:Ep; [|discriminate]. injection E as <-.
    assert (Hhd : exists i sf s0, nth_error (f :: fs) i = Some sf /\ nth_error (s :: ss') i = Some s0 /\ shown sf /\ propName sf = g_json tg /\ conforms st nl s0 n).
    { exists 0, f, s. split; [reflexivity|]. split; [reflexivity|]. split; [|split].
      - split; [exact Ex|]. intros Ej. unfold parseTag in Et. cbn [f_tag ff] in Et. rewrite Ej, beqb_refl in Et. injection Et as <-. discriminate.
      - rewrite (parse_name ff tg); auto.
      - apply (Hf v (or_introl eq_refl) (sf_type f)); auto. tauto. }
    destruct (g_omit tg && is_empty n); [eauto|]. destruct Hi as [Hi|Hi]; [|eauto]. injection Hi as _ <- <-. exact Hhd.
  Qed.
  Lemma props_fit nm sfs ss s t vs ps : t_kind (env t) = KStruct nm sfs -> (forall name k x, In ((name, k), x) ps -> exists i sf s, nth_error sfs i = Some sf /\ nth_error ss i = Some s /\ shown sf /\ propName sf = k /\ conforms st nl s x) ->
    shapes env st sfs ss -> s_type s = B "object" -> s_props s = assemble [] sfs ss -> e_fields mar sfs vs = Some ps -> conforms st nl s (NPairs ps).
  Proof.
    intros K H Hs Ht Hp E. eapply conf_object; [exact Ht|reflexivity|]. intros k x Hi. apply in_map_iff in Hi as ([[name k'] x'] & [= <- <-] & Hi).
    destruct (H name k' x' Hi) as (i & sf & s' & H1 & H2 & Hsh & H3 & H4). exists s'. split; auto. left. rewrite Hp, <- H3.
    eapply assemble_nth; eauto. intros j g Hg E'. symmetry. apply (Hnames t nm sfs i j sf g (propName sf)); auto; apply json_name_iff; auto.
  Qed.
  Lemma none_plain t : t_special (env t) = SNone -> plain env t.
  Proof. intros E. unfold plain. now rewrite E. Qed.
  (* the schema of a type that marshals itself *)
  Lemma own_fit v t s n : (t_special (env t) = SRaw \/ exists m, t_special (env t) = SMarshaler m) -> regular env own v t -> shape env st t s -> own t v = Some n -> conforms st nl s n.
  Proof.
    intros Hsp Hr Hs E.
    assert (Hnp : ~ is_ptr env t /\ ~ plain env t /\ (forall c j m, t_special (env t) = SMarshaler m -> m = MarJson (c :: j) -> same_sort c n) /\ (t_special (env t) = SRaw -> exists l, entries n = Some l)).
    { destruct v; cbn [regular] in Hr; unfold plain; destruct (t_special (env t)) as [| | |[| |[|c j]]|] eqn:Et; try contradiction;
        try (destruct Hsp as [Hsp|(m & Hsp)]; discriminate); destruct Hr as [Hr1 Hr2]; specialize (Hr2 n E); (split; [exact Hr1|]; split; [|split; [|intros Q; try discriminate; exact Hr2]]);
        try (intros c' j' m' [= <-] [= <- <-]; exact Hr2); try (intros c' j' m' Q; discriminate Q); try tauto;
        intros [->|[->| ->]]; destruct n; cbn in Hr2; try contradiction; try discriminate; repeat (destruct Hr2 as [Hr2|Hr2]; [discriminate|]); contradiction. }
    destruct Hnp as (N1 & N2 & N3 & N4). inversion Hs; subst; try contradiction; [exfalso; apply N1; eexists; eauto|]. unfold special_type in H1.
    destruct (t_special (env t)) as [| | |[| |[|c j]]|] eqn:Et; try (destruct Hsp as [Hsp|(m & Hsp)]; discriminate).
    - destruct H1 as (T1 & T2 & T3), (N4 eq_refl) as (l & El). eapply conf_free; eauto.
    - exfalso. apply N2. unfold plain. now rewrite Et.
    - exfalso. destruct v; cbn [regular] in Hr; rewrite Et in Hr; exact Hr.
    - exfalso. destruct v; cbn [regular] in Hr; rewrite Et in Hr; exact Hr.
    - assert (Q := N3 c j _ eq_refl eq_refl). destruct n; cbn [same_sort] in Q; try contradiction;
        (destruct H1 as [(T & C)|[(T & C)|(T & C)]]; [| |]); try (constructor; exact T); exfalso; subst; cbn in *;
        repeat match goal with H : _ \/ _ |- _ => destruct H as [H|H] end; try contradiction; try discriminate; subst; discriminate.
  Qed.
  Lemma time_shape t s : t_special (env t) = STime -> ~ is_ptr env t -> shape env st t s -> s_type s = B "string" /\ s_format s = B "date-time".
  Proof.
    intros Et Hn Hs. assert (N2 : ~ plain env t) by (unfold plain; now rewrite Et). inversion Hs; subst; try contradiction; [exfalso; apply Hn; eexists; eauto|]. unfold special_type in H1. now rewrite Et in H1.
  Qed.
  Lemma special_fit v t s n : t_special (env t) <> SNone -> regular env own v t -> shape env st t s -> mar v t = Some n -> conforms st nl s n.
  Proof.
    intros Hsp Hr Hs E. destruct (t_special (env t)) as [| | |m|] eqn:Et; [| | | |contradiction].
    - eapply own_fit; eauto. destruct v; cbn [marE] in E; rewrite Et in E; exact E.
    - destruct v; cbn [regular] in Hr; rewrite Et in Hr; contradiction.
    - assert (Hn : ~ is_ptr env t) by (destruct v; cbn [regular] in Hr; rewrite Et in Hr; exact Hr). destruct (time_shape t s Et Hn Hs) as [T1 T2].
      destruct v; cbn [marE] in E; rewrite Et in E; try discriminate; injection E as <-; [now apply conf_time|now apply conf_str].
    - eapply own_fit; eauto. destruct v; cbn [marE] in E; rewrite Et in E; exact E.
  Qed.
  Ltac byshape Hs K Hpl := inversion Hs; subst; try congruence; try contradiction; try (exfalso; match goal with H : ~ plain env _ |- _ => now apply H end);
    try (match goal with H : _ = KInt \/ _ = KFloat |- _ => destruct H; congruence end); try (match goal with H : named env _ _ _ |- _ => destruct H as (? & ? & ? & _); congruence end).
  Lemma fits_all v : fits v.
  Proof.
    induction v as [b|z|z|f|x|x|x| |v IH|l IH|l IH|l IH|t' v IH] using gv_all; intros t s n Ht Hr Hs E Hn; (assert (Hc : {t_special (env t) = SNone} + {t_special (env t) <> SNone}) by (destruct (t_special (env t)); (now left) || (right; discriminate)));
      (destruct Hc as [Et|Et]; [|eapply special_fit; eauto]); assert (Hpl := none_plain t Et); cbn [typed] in Ht; cbn [regular] in Hr; cbn [marE] in E; rewrite Et in *;
      destruct (t_kind (env t)) as [e| | | | |e|kk e|any|nm sfs|] eqn:K; try discriminate; try contradiction.
    - byshape Hs K Hpl. injection E as <-. now apply conf_bool.
    - byshape Hs K Hpl. injection E as <-. now apply conf_int.
    - byshape Hs K Hpl. injection E as <-. now apply conf_int.
    - byshape Hs K Hpl. injection E as <-. now apply conf_float.
    - byshape Hs K Hpl. injection E as <-. now apply conf_str.
    - destruct Hn as [Hn|[]]. assert (n = NNil) as -> by (destruct (t_special (env e)); congruence). now apply conf_null.
    - destruct Hn as [Hn|[]]. injection E as <-. now apply conf_null.
    - destruct Hn as [Hn|[]]. injection E as <-. now apply conf_null.
    - destruct Hn as [Hn|[]]. injection E as <-. now apply conf_null.
    - byshape Hs K Hpl. rewrite K in H. injection H as <-. cbn [solid] in Hn.
      assert (G : mar v e = Some n -> conforms st nl s n) by (intros; eapply IH; eauto).
      destruct (t_special (env e)) as [| | |m|] eqn:Ee; auto. destruct v; auto. injection E as <-. cbn [regular] in Hr. rewrite Ee in Hr. destruct (time_shape e s Ee Hr H0) as [T1 T2]. now apply conf_str.
    - byshape Hs K Hpl. rewrite K in H0. injection H0 as <-. destruct (e_elems mar e l) as [ns|] eqn:En; [|discriminate]. injection E as <-. eapply conf_list; eauto. eapply elems_fit; eauto.
    - byshape Hs K Hpl. rewrite K in H0. injection H0 as <- <-. destruct (e_entries mar kk e [] l) as [m|] eqn:En; [|discriminate]. injection E as <-.
      assert (Hm : Forall (fun x => conforms st nl se (snd x)) m) by (eapply entries_fit; eauto).
      eapply conf_object; [eassumption|reflexivity|]. intros k x Hi. exists se. rewrite Forall_forall in Hm. split; [right; rewrite H2; auto|apply (Hm (k, x) Hi)].
    - destruct (e_fields mar sfs l) as [ps|] eqn:Ep; [|discriminate]. injection E as <-. destruct Ht as [_ Ht]. cbn [solid] in Hn.
      byshape Hs K Hpl.
      + rewrite K in H0. injection H0 as -> <-. eapply props_fit; eauto. eapply fields_fit; eauto.
      + destruct Hst as (Hdk & Hg). destruct (Hg _ _ H2) as (t' & fs' & ss & Hn' & _ & Ht' & _ & Hp & Hsh). pose proof (Hdk _ _ _ _ _ H0 Hn') as <-.
        destruct H0 as (p1 & n1 & K1 & E1), Hn' as (p2 & n2 & K2 & E2). rewrite K in K1, K2. injection K1 as -> ->. injection K2 as -> -> <-. eapply conf_ref; eauto. eapply props_fit; eauto. eapply fields_fit; eauto.
    - byshape Hs K Hpl. destruct Hr as (n' & l & E' & El). rewrite E in E'. injection E' as <-. eapply conf_free; eauto.
  Qed.
End Fit.
