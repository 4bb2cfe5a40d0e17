(* Properties C92 and C94 for more types: recursive types, floats, times, interfaces, types that marshal themselves. *)
From Coq Require Import Bool Ascii String Arith NArith ZArith Lia List.
From Verif Require Import Prelude PreludeFacts Utf8Model Utf8Facts DecModel DurModel DurProofs KvProofs EncModel JsonModel MarModel MarSpec MarFacts MarProofs ConfModel ApiModel ApiMar ApiProofs OaModel OaSpec OaProofs OaTerm OaShape OaProps OjModel OjSpec OjProofs.
Import ListNotations.

(* ---- the model of Marshal agrees with MarModel ---- *)
(* a value of MarModel *)
Definition gkey (k : kty) (x : key) : gv := match k, x with KTUint _, KNum z => GUint z | _, KNum z => GInt z | _, KStr s => GStr s end.
Fixpoint inj (a : ty) (v : val) {struct a} : gv :=
  match a, v with
  | TBool, VBool b => GBool b
  | TInt _, VNum z => GInt z
  | TUint _, VNum z => GUint z
  | TStr, VStr s => GStr s
  | TPtr a', VPtr v' => GPtr (inj a' v')
  | TSlice a', VList l | TArr _ a', VList l => GList (map (inj a') l)
  | TMap k a', VMap l => GMap (map (fun e => (gkey k (fst e), inj a' (snd e))) l)
  | TStruct fs, VStruct vs =>
      GStruct ((fix go (fs : list (fld * ty)) (vs : list val) {struct fs} := match fs, vs with f :: fs', v :: vs' => inj (snd f) v :: go fs' vs' | _, _ => [] end) fs vs)
  | _, _ => GNil
  end.
Definition opt {A} (r : res A) : option A := match r with Ok x => Some x | Panic => None end.
Section Agree.
  Context (env : tid -> tinfo) (own : tid -> gv -> option node).
  Definition agree (a : ty) : Prop := forall t v, denotes env t a -> hasty a v -> marE env own (inj a v) t = opt (mar a v).
  Lemma denote_none t a : denotes env t a -> t_special (env t) = SNone.
  Proof. destruct a; cbn [denotes]; destruct (t_kind (env t)); try contradiction; intros H; try exact H; try (destruct H as [[H _] _]; exact H); destruct H as [H _]; exact H. Qed.
  Lemma fields_agree : forall fs sfs vs, (forall f a, In (f, a) fs -> agree a) ->
    (fix all (fs : list (fld * ty)) (sfs : list sfld) : Prop := match fs, sfs with [], [] => True | x :: fs', y :: sfs' => fst x = Fld (sf_name y) (sf_exported y) (sf_json y) /\ denotes env (sf_type y) (snd x) /\ all fs' sfs' | _, _ => False end) fs sfs ->
    fieldwise (fun _ t' v' => hasty t' v') fs vs ->
    e_fields (marE env own) sfs ((fix go (fs : list (fld * ty)) (vs : list val) {struct fs} := match fs, vs with f :: fs', v :: vs' => inj (snd f) v :: go fs' vs' | _, _ => [] end) fs vs) = opt (mar_fields (map (fun f => (fst f, mar (snd f))) fs) vs).
  Proof.
    induction fs as [|[f a] fs IH]; intros [|y sfs] [|v vs] Ha Hd Hv; cbn [fieldwise] in Hv; try contradiction; [reflexivity|]. destruct Hd as (Ef & Hd1 & Hd2), Hv as [Hv1 Hv2]. cbn [fst snd] in Ef, Hd1.
    cbn [e_fields mar_fields map fst snd]. rewrite Ef. cbn [f_exported f_name]. rewrite (IH sfs vs (fun f' a' H => Ha f' a' (or_intror H)) Hd2 Hv2). destruct (sf_exported y); [|reflexivity].
    destruct (parseTag _) as [tg|]; [|reflexivity]. cbn [rbind]. destruct (g_skip tg); [reflexivity|]. rewrite (Ha f a (or_introl eq_refl) (sf_type y) v Hd1 Hv1). destruct (mar a v) as [n|]; [|reflexivity]. cbn [opt rbind].
    destruct (mar_fields _ vs); reflexivity.
  Qed.
  Lemma agree_all a : agree a.
  Proof.
    induction a as [|w|w| |a IH|a IH|k0 a IH|k0 a IH|fs IH] using ty_nest; intros t v Hd Hv; pose proof (denote_none t _ Hd) as Hsp; cbn [denotes] in Hd;
      destruct (t_kind (env t)) as [e| | | | |e|kk e|any|nm sfs|] eqn:K; try contradiction; destruct v; cbn [hasty] in Hv; try contradiction; cbn [inj mar]; cbn [marE]; rewrite ?Hsp, ?K; try reflexivity.
    - destruct Hd as [Hs Hd]. now rewrite (denote_none e a Hd).
    - destruct Hd as [Hs Hd]. rewrite (denote_none e a Hd). now apply IH.
    - destruct Hd as [_ Hd]. assert (G : e_elems (marE env own) e (map (inj a) l) = opt (mar_elems (mar a) l)).
      { clear K. induction Hv as [|x l Hx Hl IHl]; [reflexivity|]. cbn [map e_elems mar_elems]. rewrite (IH e x Hd Hx), IHl. destruct (mar a x); [|reflexivity]. cbn [opt rbind]. destruct (mar_elems (mar a) l); reflexivity. }
      rewrite G. destruct (mar_elems (mar a) l); reflexivity.
    - destruct Hd as [_ Hd], Hv as [_ Hv]. assert (G : e_elems (marE env own) e (map (inj a) l) = opt (mar_elems (mar a) l)).
      { clear K. induction Hv as [|x l Hx Hl IHl]; [reflexivity|]. cbn [map e_elems mar_elems]. rewrite (IH e x Hd Hx), IHl. destruct (mar a x); [|reflexivity]. cbn [opt rbind]. destruct (mar_elems (mar a) l); reflexivity. }
      rewrite G. destruct (mar_elems (mar a) l); reflexivity.
    - destruct Hd as [[_ [Hk1 Hk2]] Hd], Hv as [_ Hv].
      assert (Gk : forall x, key_of k0 x -> exists n, marE env own (gkey k0 x) kk = Some n /\ key_text n = Some (ktext k0 x)).
      { intros x Hx. destruct k0, x; cbn in Hx; try contradiction; cbn [gkey marE]; rewrite Hk1, Hk2; eauto. }
      assert (G : forall acc, e_entries (marE env own) kk e acc (map (fun y => (gkey k0 (fst y), inj a (snd y))) l) = opt (mar_entries k0 (mar a) acc l)).
      { clear K. induction Hv as [|[x y] l [Hx Hy] Hl IHl]; intros acc; [reflexivity|]. cbn [map e_entries mar_entries fst snd]. rewrite (IH e y Hd Hy). cbn [snd]. destruct (mar a y) as [n|]; [|reflexivity]. cbn [opt rbind].
        destruct (Gk x Hx) as (nk & -> & ->). apply IHl. }
      rewrite G. destruct (mar_entries k0 (mar a) [] l); reflexivity.
    - destruct Hd as [_ Hd]. rewrite (fields_agree fs sfs _ IH Hd Hv). destruct (mar_fields _ _); reflexivity.
  Qed.
End Agree.
(* For the types of MarModel both models of Marshal say the same. *)
Theorem C92_model : forall env own t a v, denotes env t a -> hasty a v -> marE env own (inj a v) t = match mar a v with Ok n => Some n | Panic => None end.
Proof. intros env own t a v Hd Hv. exact (agree_all env own a t v Hd Hv). Qed.

(* ---- C92 ---- *)
(* What Marshal makes of a value conforms to the schema of its type, for all types with a schema: if no []byte is in it, if what interfaces
   and json.RawMessage hold is an object, and if types that marshal themselves make the same sort of JSON of all values. *)
Theorem C92_values_partial : forall env own parse_float st n t doc ex s st' v x nullable, distinct_keys env -> names_differ env -> good_calls env parse_float st ->
  schemaFromType env parse_float n st t doc ex = Some (SOk s, st') -> typed env v t -> regular env own v t -> marE env own v t = Some x ->
  nullable = true \/ solid v -> conforms st' nullable s x.
Proof.
  intros env own pf st n t doc ex s st' v x nl Hd Hn Hg E Ht Hr Hm Hnl. assert (Hg' : good_calls env pf st') by (eapply good_more; eauto; discriminate).
  eapply (fits_all env own st' nl (good_sound env pf st' Hd Hg') Hn v); eauto. eapply sft_shape; eauto.
Qed.
(* An interface is documented as an object; a number in it is sent as a number. *)
Theorem C92_interface_refuted : forall env own parse_float st n t t' any doc ex s st' z nullable, t_kind (env t) = KIface any -> t_special (env t) = SNone ->
  t_kind (env t') = KInt -> t_special (env t') = SNone -> schemaFromType env parse_float n st t doc ex = Some (SOk s, st') ->
  typed env (GDyn t' (GInt z)) t /\ marE env own (GDyn t' (GInt z)) t = Some (NInt z) /\ ~ conforms st' nullable s (NInt z).
Proof.
  intros env own pf st n t t' any doc ex s st' z nl K Hs K' Hs' E. split; [cbn [typed]; rewrite K, K', Hs'; split; [discriminate|congruence]|]. split; [cbn [marE]; now rewrite Hs, K, Hs', K'|].
  destruct n as [|n]; [discriminate|]. cbn [schemaFromType deref] in E. rewrite K, Hs in E. unfold ofKind in E. rewrite K in E. injection E as <- _. intros H. inversion H; subst; discriminate.
Qed.
(* json.RawMessage is documented as an object, whatever is in it. *)
Theorem C92_raw_refuted : forall env own parse_float st n t doc ex s st' v d nullable, ~ is_ptr env t -> t_special (env t) = SRaw ->
  schemaFromType env parse_float n st t doc ex = Some (SOk s, st') -> own t v = Some (NDigits d) -> marE env own v t = Some (NDigits d) /\ ~ conforms st' nullable s (NDigits d).
Proof.
  intros env own pf st n t doc ex s st' v d nl Hp Hs E Ho. split; [destruct v; cbn [marE]; now rewrite Hs|].
  destruct n as [|n]; [discriminate|]. cbn [schemaFromType] in E. assert (Ed : deref env (S n) t = Some t) by (cbn [deref]; destruct (t_kind (env t)) eqn:K; auto; exfalso; apply Hp; eexists; eauto).
  rewrite Ed, Hs in E. injection E as <- _. intros H. inversion H; subst; discriminate.
Qed.
(* A type that marshals itself is documented by its zero value: another value may be sent as something else. *)
Theorem C92_methods_refuted : forall env own parse_float st n t j doc ex s st' v d nullable, ~ is_ptr env t -> t_special (env t) = SMarshaler (MarJson (chr 34 :: j)) ->
  schemaFromType env parse_float n st t doc ex = Some (SOk s, st') -> own t v = Some (NDigits d) -> marE env own v t = Some (NDigits d) /\ ~ conforms st' nullable s (NDigits d).
Proof.
  intros env own pf st n t j doc ex s st' v d nl Hp Hs E Ho. split; [destruct v; cbn [marE]; now rewrite Hs|].
  destruct n as [|n]; [discriminate|]. cbn [schemaFromType] in E. assert (Ed : deref env (S n) t = Some t) by (cbn [deref]; destruct (t_kind (env t)) eqn:K; auto; exfalso; apply Hp; eexists; eauto).
  rewrite Ed, Hs in E. cbn in E. injection E as <- _. intros H. inversion H; subst; discriminate.
Qed.

(* ---- C94 ---- *)
Lemma sendE_collect env own ftype obj l : forall d d', sendE env own ftype obj d l = Some d' ->
  exists ns, Forall2 (fun x n => exists v, nth_error obj (fst x) = Some v /\ marE env own v (ftype (fst x)) = Some n) l ns /\ d' = collect d l ns.
Proof.
  induction l as [|[i name] l IH]; intros d d' E; cbn [sendE] in E; [injection E as <-; exists []; auto|]. destruct (nth_error obj i) as [v|] eqn:Ev; [|discriminate]. destruct (marE env own v (ftype i)) as [n|] eqn:En; [|discriminate].
  apply IH in E as (ns & H1 & ->). exists (n :: ns). split; [|reflexivity]. constructor; auto. exists v. auto.
Qed.
(* the values of these fields are of their types and regular *)
Definition values_ok (env : tid -> tinfo) own (ftype : nat -> tid * bytes * bytes) (obj : list gv) (nullable : bool) (l : list (nat * bytes)) : Prop :=
  forall i v, In i (map fst l) -> nth_error obj i = Some v -> typed env v (fst (fst (ftype i))) /\ regular env own v (fst (fst (ftype i))) /\ (nullable = true \/ solid v).
Lemma sendE_fits env own pf ftype n obj l st props st' nl d : distinct_keys env -> names_differ env -> good_calls env pf st ->
  properties env pf ftype n st [] l = Some (Some (Some props), st') -> sendE env own (fun i => fst (fst (ftype i))) obj [] l = Some d -> values_ok env own ftype obj nl l ->
  forall st2, ext st' st2 -> good_calls env pf st2 -> conforms st2 nl (Schema (B "object") [] props None [] None None []) (NMap d).
Proof.
  intros Hd Hn Hg Ep Es Hf st2 Hx Hg2. destruct (properties_shape env pf ftype _ _ _ _ _ _ Hg Ep) as (_ & _ & ss & Hss & ->). apply sendE_collect in Es as (ns & Hns & ->).
  eapply conf_object; [reflexivity|reflexivity|]. intros k x Hi. apply nodup_mget in Hi; [|apply collect_nodup; constructor].
  assert (Hlen : length ns = length l) by (clear - Hns; induction Hns; cbn; auto).
  assert (HR : Forall2 (fun nd s => conforms st2 nl s nd) ns ss).
  { assert (G : forall l', incl l' l -> forall ss ns, Forall2 (fun x s => shape env st' (the_type ftype (fst x)) s) l' ss ->
      Forall2 (fun x n => exists v, nth_error obj (fst x) = Some v /\ marE env own v (fst (fst (ftype (fst x)))) = Some n) l' ns -> Forall2 (fun nd s => conforms st2 nl s nd) ns ss).
    { clear - Hf Hd Hn Hg2 Hx. induction l' as [|y l' IH]; intros Hincl ss ns H1 H2; inversion H1 as [|? s0 ? ss0 Hs0 Hss0]; subst; inversion H2 as [|? n0 ? ns0 Hn0 Hns0]; subst; constructor.
      - destruct Hn0 as (v & F1 & F2). destruct (Hf (fst y) v) as (G1 & G2 & G3); auto; [apply in_map; apply Hincl; now left|].
        eapply (fits_all env own st2 nl (good_sound env pf st2 Hd Hg2) Hn v); eauto. eapply shape_ext; eauto.
      - apply IH; auto. intros z Hz. apply Hincl. now right. }
    apply (G l (incl_refl l)); assumption. }
  destruct (collect_rel (fun nd s => conforms st2 nl s nd) l ns ss [] [] HR Hlen) with (k := k) (v := x) as (s & S1 & S2); auto; [intros ? ? [=]|]. exists s. cbn [s_props]. auto.
Qed.
(* Requests and responses conform to what UpdateOpenAPI documents, for these types too. *)
Theorem C94_values_partial : forall env own parse_float ftype n st h it st' obj nullable, distinct_keys env -> names_differ env -> good_calls env parse_float st ->
  UpdateOpenAPI env parse_float ftype n st h = Some (Some (Some it), st') ->
  (forall d, sendE env own (fun i => fst (fst (ftype i))) obj [] (map fst (h_in h)) = Some d -> values_ok env own ftype obj nullable (map fst (h_in h)) -> conforms st' nullable (body (p_in it)) (NMap d)) /\
  (forall d, sendE env own (fun i => fst (fst (ftype i))) obj [] (h_out h) = Some d -> values_ok env own ftype obj nullable (h_out h) -> conforms st' nullable (body (p_out it)) (NMap d)).
Proof.
  intros env own pf ftype n st h it st' obj nl Hd Hn Hg E. apply update_inv in E as (st1 & E1 & E2 & _ & _).
  destruct (properties_shape env pf ftype _ _ _ _ _ _ Hg E1) as (Hg1 & _ & _). destruct (properties_shape env pf ftype _ _ _ _ _ _ Hg1 E2) as (Hg2 & Hx & _).
  split; intros d Es Hv; [apply (sendE_fits env own pf ftype n obj _ st (p_in it) st1 nl d Hd Hn Hg E1 Es Hv st' Hx Hg2)|apply (sendE_fits env own pf ftype n obj _ st1 (p_out it) st' nl d Hd Hn Hg1 E2 Es Hv st' (ext_refl _) Hg2)].
Qed.

(* type Tree struct { Val float64 `json:"val"`; At time.Time; Kids []*Tree `json:"kids"`; Extra any; Wait enc.Duration `json:"wait,omitempty"` } *)
Definition tree_fields : list sfld := [SFld (B "Val") true (B "val") [] [] 1; SFld (B "At") true [] [] [] 2; SFld (B "Kids") true (B "kids") [] [] 3; SFld (B "Extra") true [] [] [] 5; SFld (B "Wait") true (B "wait,omitempty") [] [] 6].
Definition forest : tid -> tinfo := types
  [TInfo (B "y.Tree") SNone (KStruct (Some (B "x/y", B "Tree")) tree_fields); TInfo (B "float64") SNone KFloat; TInfo (B "time.Time") STime (KStruct (Some (B "time", B "Time")) []);
   TInfo (B "[]*y.Tree") SNone (KSeq 4); TInfo (B "*y.Tree") SNone (KPtr 0); TInfo (B "interface {}") SNone (KIface true); TInfo (B "enc.Duration") (SMarshaler (MarJson [chr 34; chr 34])) KInt;
   TInfo (B "map[string]int") SNone (KMap 8 9); TInfo (B "string") SNone KString; TInfo (B "int") SNone KInt].
Definition forest_own (t : tid) (v : gv) : option node := match t, v with 6, GInt z => Some (NStr (if (z =? 0)%Z then [] else decz z ++ B "ns")) | _, _ => None end.
Definition now : timev := Timev (B "2026") (B "2026-11-16T00:00:00Z").
Definition a_tree (kids : list gv) (extra : gv) (wait : Z) : gv := GStruct [GFloat (Floatv (B "1.5") (B "1.5") (B "1.5")); GTime now; GList kids; extra; GInt wait].
Definition the_tree : gv := a_tree [GPtr (a_tree [] (GDyn 7 (GMap [(GStr (B "a"), GInt 1)])) 0)] (GDyn 7 (GMap [])) 5.
Example C92_values_ex : forall parse_float, exists s st x, distinct_keys forest /\ names_differ forest /\ schemaFromType forest parse_float 9 [] 0 [] [] = Some (SOk s, st) /\
  typed forest the_tree 0 /\ regular forest forest_own the_tree 0 /\ solid the_tree /\ marE forest forest_own the_tree 0 = Some x /\ conforms st false s x /\
  exists y, entries x = Some [(B "val", NFloat (Floatv (B "1.5") (B "1.5") (B "1.5"))); (B "At", NTime now); (B "kids", NList [y]); (B "Extra", NMap []); (B "wait", NStr (B "5ns"))].
Proof.
  intros pf.
  assert (K : forall t nm fs, t_kind (forest t) = KStruct nm fs -> t = 0 /\ nm = Some (B "x/y", B "Tree") /\ fs = tree_fields \/ t = 2 /\ nm = Some (B "time", B "Time") /\ fs = []).
  { intros [|[|[|[|[|[|[|[|[|[|t]]]]]]]]]] nm fs Q; cbn in Q; try discriminate Q; [injection Q as <- <-; auto|injection Q as <- <-; auto|destruct t; discriminate Q]. }
  assert (Hd : distinct_keys forest).
  { intros t t' k fs fs' (p & n & K1 & ->) (p' & n' & K2 & E). destruct (K _ _ _ K1) as [(-> & [= -> ->] & _)|(-> & [= -> ->] & _)], (K _ _ _ K2) as [(-> & [= -> ->] & _)|(-> & [= -> ->] & _)]; auto; discriminate E. }
  assert (Hn : names_differ forest).
  { intros t nm fs i j f g name Kt Hi Hj _ Hf Hg. apply json_name_iff in Hf, Hg. subst name. destruct (K _ _ _ Kt) as [(_ & _ & ->)|(_ & _ & ->)]; [|destruct i; discriminate].
    destruct i as [|[|[|[|[|i]]]]]; cbn in Hi; try (destruct i; discriminate); destruct j as [|[|[|[|[|j]]]]]; cbn in Hj; try (destruct j; discriminate); auto; injection Hi as <-; injection Hj as <-; discriminate Hg. }
  assert (Ht : typed forest the_tree 0) by (cbn; repeat split; try discriminate; try congruence).
  assert (Hp : forall i, i = 2 \/ i = 6 -> ~ is_ptr forest i) by (intros i [->| ->] (e & Q); discriminate Q).
  assert (Hr : regular forest forest_own the_tree 0) by (cbn; repeat split; auto; try (intros n [= <-]; reflexivity); repeat eexists).
  assert (Hs : solid the_tree) by (cbn; tauto).
  destruct (schemaFromType forest pf 9 [] 0 [] []) as [[[s| |] st]|] eqn:E; try (vm_compute in E; discriminate). destruct (marE forest forest_own the_tree 0) as [x|] eqn:Em; [|vm_compute in Em; discriminate].
  exists s, st, x. repeat (split; [assumption||reflexivity|]). split; [eapply (C92_values_partial forest forest_own pf [] 9 0); eauto; constructor|].
  vm_compute in Em. injection Em as <-. eexists. reflexivity.
Qed.
Print Assumptions C92_model.
Print Assumptions C92_values_partial.
Print Assumptions C92_interface_refuted.
Print Assumptions C92_raw_refuted.
Print Assumptions C92_methods_refuted.
Print Assumptions C94_values_partial.
