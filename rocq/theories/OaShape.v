(* What schemas and components look like if no call failed, and that JSON fits them. *)
From Coq Require Import Bool Ascii String Arith NArith ZArith List Lia.
From Verif Require Import Prelude PreludeFacts Utf8Model Utf8Facts DecModel DurModel DurProofs KvProofs EncModel JsonModel MarModel MarSpec MarFacts MarProofs ApiModel OaModel OaSpec OaProofs.
Import ListNotations.

Lemma forall2_from {A B} (R : A -> B -> Prop) l ns : Forall2 R l ns -> forall n, In n ns -> exists v, In v l /\ R v n.
Proof. induction 1 as [|v n l ns H _ IH]; intros m Hi; [destruct Hi|]. destruct Hi as [<-|Hi]; [exists v; split; [now left|auto]|]. destruct (IH m Hi) as (w & H1 & H2). exists w. split; [now right|auto]. Qed.
(* ---- properties by name ---- *)
Definition assemble (props : list (bytes * schema)) (fs : list sfld) (ss : list schema) : list (bytes * schema) :=
  fold_left (fun m x => mset beqb m (fst x) (snd x)) (combine (map propName fs) ss) props.
Lemma assemble_other fs : forall ss props k, ~ In k (map propName fs) -> mget beqb (assemble props fs ss) k = mget beqb props k.
Proof.
  induction fs as [|f fs IH]; intros [|s ss] props k Hk; cbn; auto. unfold assemble in IH. rewrite IH; [|intro; apply Hk; now right]. apply mset_ne. intros ->. apply Hk. now left.
Qed.
Lemma assemble_nth fs : forall ss props i f s, (forall j g, nth_error fs j = Some g -> propName g = propName f -> j = i) -> nth_error fs i = Some f -> nth_error ss i = Some s ->
  mget beqb (assemble props fs ss) (propName f) = Some s.
Proof.
  induction fs as [|g fs IH]; intros ss props i f s Hn Hf Hs; [destruct i; discriminate|]. destruct ss as [|s0 ss]; [destruct i; discriminate|].
  destruct i as [|i]; cbn in Hf, Hs.
  - injection Hf as ->. injection Hs as <-. change (mget beqb (assemble (mset beqb props (propName f) s0) fs ss) (propName f) = Some s0). rewrite assemble_other; [apply mset_eq|].
    intros Hi. apply in_map_iff in Hi as (h & E & Hi). apply In_nth_error in Hi as (j & Hj). discriminate (Hn (S j) h Hj E).
  - change (mget beqb (assemble (mset beqb props (propName g) s0) fs ss) (propName f) = Some s). eapply IH; eauto. intros j h Hj E. specialize (Hn (S j) h Hj E). lia.
Qed.
Lemma assemble_names fs : forall ss props k s, length ss = length fs -> mget beqb (assemble props fs ss) k = Some s -> In k (map propName fs) \/ mget beqb props k = Some s.
Proof.
  intros ss props k s Hl E. destruct (in_dec (list_eq_dec Ascii.ascii_dec) k (map propName fs)) as [Hi|Hi]; auto. rewrite assemble_other in E; auto.
Qed.
Lemma assemble_has fs : forall ss props f, length ss = length fs -> In f fs -> exists s, mget beqb (assemble props fs ss) (propName f) = Some s.
Proof.
  assert (Hkeep : forall hs ss props k s, mget beqb props k = Some s -> exists s', mget beqb (assemble props hs ss) k = Some s').
  { induction hs as [|g gs IH]; intros [|s0 ss] props k s E; cbn; eauto. destruct (beqb k (propName g)) eqn:X.
    - apply beqb_eq in X as ->. eapply IH. apply mset_eq.
    - eapply IH. rewrite mset_ne; eauto. intros ->. now rewrite beqb_refl in X. }
  induction fs as [|g fs IH]; intros ss props f Hl Hf; [destruct Hf|]. destruct ss as [|s0 ss]; [discriminate|]. destruct Hf as [->|Hf].
  - exact (Hkeep fs ss (mset beqb props (propName f) s0) _ s0 (mset_eq _ _ _)).
  - apply (IH ss (mset beqb props (propName g) s0)); auto.
Qed.
Lemma json_name_iff f name : json_name f name <-> name = propName f.
Proof.
  unfold json_name, propName. split.
  - intros (j & r & E & Hj & ->). assert (Ec : fst (cut_comma (sf_json f)) = j).
    { destruct E as [-> | ->]; [now rewrite cut_comma_no|]. change (j ++ ","%char :: r) with (j ++ B "," ++ r). now rewrite cut_comma_at. }
    rewrite Ec. destruct j; reflexivity.
  - intros ->. pose proof (cut_comma_spec (sf_json f)) as H. destruct (cut_comma (sf_json f)) as [j r]. destruct H as (H1 & H2). exists j, r. cbn [fst]. split; [|split]; auto; [|destruct j; reflexivity].
    destruct H2 as [(-> & _)|E]; [left; reflexivity|right; exact E].
Qed.
Section Shape.
  Context (env : tid -> tinfo) (parse_float : bytes -> option floatv).
  Notation sft := (schemaFromType env parse_float).
  Notation recT := (comps -> tid -> bytes -> bytes -> option (sres * comps)).
  (* of the schema of a type that is not described by its kind *)
  Definition special_type (t : tid) (s : schema) : Prop :=
    match t_special (env t) with
    | SRaw => s_type s = B "object" /\ s_props s = [] /\ s_addl s = None
    | SBytes => s_type s = B "string"
    | STime => s_type s = B "string" /\ s_format s = B "date-time"
    | SMarshaler (MarJson (c :: _)) => s_type s = B "string" /\ c = chr 34 \/ s_type s = B "boolean" /\ In c (B "ft") \/ s_type s = B "number" /\ In c (B "0123456789.")
    | _ => True
    end.
  Section St.
    Context (st : comps).
    Inductive shape : tid -> schema -> Prop :=
    | sh_ptr t e s : t_kind (env t) = KPtr e -> shape e s -> shape t s
    | sh_special t s : (forall e, t_kind (env t) <> KPtr e) -> ~ plain env t -> special_type t s -> shape t s
    | sh_bool t s : plain env t -> t_kind (env t) = KBool -> s_type s = B "boolean" -> shape t s
    | sh_num t s : plain env t -> t_kind (env t) = KInt \/ t_kind (env t) = KFloat -> s_type s = B "number" -> shape t s
    | sh_str t s : plain env t -> t_kind (env t) = KString -> s_type s = B "string" -> shape t s
    | sh_iface t s any : plain env t -> t_kind (env t) = KIface any -> s_type s = B "object" -> s_props s = [] -> s_addl s = None -> shape t s
    | sh_seq t s e si : plain env t -> t_kind (env t) = KSeq e -> s_type s = B "array" -> s_items s = Some si -> shape e si -> shape t s
    | sh_map t s k e sk se : plain env t -> t_kind (env t) = KMap k e -> s_type s = B "object" -> s_props s = [] -> s_addl s = Some se -> shape k sk -> shape e se -> shape t s
    | sh_anon t s fs ss : plain env t -> t_kind (env t) = KStruct None fs -> s_allOf s = [] -> s_type s = B "object" -> s_addl s = None -> s_props s = assemble [] fs ss -> shapes fs ss -> shape t s
    | sh_named t s k fs s' : plain env t -> named env t k fs -> s_allOf s = [referencePrefix ++ k] -> mget beqb st k = Some s' -> shape t s
    with shapes : list sfld -> list schema -> Prop :=
    | shs_nil : shapes [] []
    | shs_cons f fs s ss : shape (sf_type f) s -> shapes fs ss -> shapes (f :: fs) (s :: ss).
    Definition describes (k : bytes) (x : schema) : Prop := exists t fs ss, named env t k fs /\ plain env t /\ s_type x = B "object" /\ s_addl x = None /\ s_props x = assemble [] fs ss /\ shapes fs ss.
  End St.
  Scheme shape_mut := Minimality for shape Sort Prop with shapes_mut := Minimality for shapes Sort Prop.
  Combined Scheme shape_both from shape_mut, shapes_mut.
  Lemma shape_ext2 st st' : ext st st' -> (forall t s, shape st t s -> shape st' t s) /\ (forall fs ss, shapes st fs ss -> shapes st' fs ss).
  Proof.
    intros Hx. apply (shape_both st (fun t s => shape st' t s) (fun fs ss => shapes st' fs ss)); intros.
    - eapply sh_ptr; eauto.
    - eapply sh_special; eauto.
    - eapply sh_bool; eauto.
    - eapply sh_num; eauto.
    - eapply sh_str; eauto.
    - eapply sh_iface; eauto.
    - eapply sh_seq; eauto.
    - eapply sh_map; eauto.
    - eapply sh_anon; eauto.
    - destruct (Hx _ _ H2) as (s2 & Hs). eapply sh_named; eauto.
    - constructor.
    - constructor; auto.
  Qed.
  Lemma shape_ext st st' t s : ext st st' -> shape st t s -> shape st' t s.
  Proof. intros H. apply (proj1 (shape_ext2 st st' H)). Qed.
  Lemma shapes_ext st st' fs ss : ext st st' -> shapes st fs ss -> shapes st' fs ss.
  Proof. intros H. apply (proj2 (shape_ext2 st st' H)). Qed.
  Lemma describes_ext st st' k x : ext st st' -> describes st k x -> describes st' k x.
  Proof. intros H (t & fs & ss & H1 & H2 & H3 & H4 & H5 & H6). exists t, fs, ss. repeat apply conj; auto. eapply shapes_ext; eauto. Qed.
  Lemma shapes_length st fs ss : shapes st fs ss -> length ss = length fs.
  Proof. induction 1; cbn; auto. Qed.
  Lemma deref_shape st n : forall t u s, deref env n t = Some u -> shape st u s -> shape st t s.
  Proof.
    induction n as [|n IH]; intros t u s E Hs; cbn [deref] in E; destruct (t_kind (env t)) eqn:K; try discriminate; try (injection E as <-; assumption). eapply sh_ptr; eauto.
  Qed.

  Definition shaping (rec : recT) : Prop := forall st t d e s st', rec st t d e = Some (SOk s, st') ->
    shape st' t s /\ forall k x, mget beqb st' k = Some x -> mget beqb st k = Some x \/ describes st' k x.
  Lemma fields_ext (rec : recT) key format fs : keeping rec -> forall st props descs r st', fields env rec key format st props descs fs = Some (r, st') -> ext st st'.
  Proof.
    intros Hk. induction fs as [|f fs IH]; intros st props descs r st' E; cbn [fields] in E; [injection E as <- <-; apply ext_refl|].
    destruct (rec st (sf_type f) (sf_doc f) (sf_example f)) as [[[x| |] st1]|] eqn:Er; try discriminate; pose proof (keeps_ext _ _ (Hk _ _ _ _ _ _ Er)) as Hx; try (injection E as <- <-; exact Hx).
    eapply ext_trans; [exact Hx|]. eapply ext_trans; [apply ext_store|]. eapply IH; eauto.
  Qed.
  Lemma fields_shape (rec : recT) key format fs : keeping rec -> shaping rec -> forall st props descs ps ds st',
    fields env rec key format st props descs fs = Some (Some (ps, ds), st') ->
    exists ss, shapes st' fs ss /\ ps = assemble props fs ss /\ (forall k x, Some k <> key -> mget beqb st' k = Some x -> mget beqb st k = Some x \/ describes st' k x).
  Proof.
    intros Hk Hr. induction fs as [|f fs IH]; intros st props descs ps ds st' E; cbn [fields] in E.
    - injection E as <- <- <-. exists []. split; [constructor|]. split; auto.
    - destruct (rec st (sf_type f) (sf_doc f) (sf_example f)) as [[[x| |] st1]|] eqn:Er; try discriminate.
      destruct (Hr _ _ _ _ _ _ Er) as (H1 & H2). set (props1 := mset beqb props (propName f) x) in *.
      pose proof (fields_ext _ _ _ _ Hk _ _ _ _ _ E) as Hx. pose proof (ext_store st1 key (structSchema format props1)) as Hx1. pose proof (ext_trans _ _ _ Hx1 Hx) as Hx2.
      apply IH in E as (ss & H3 & -> & H4). exists (x :: ss). split; [constructor; auto; eapply shape_ext; eauto|]. split; [reflexivity|].
      intros k y Hne Hy. destruct (H4 k y Hne Hy) as [H5|H5]; auto.
      assert (H6 : mget beqb st1 k = Some y) by (destruct key as [k0|]; cbn [store] in H5; auto; rewrite mset_ne in H5; auto; congruence).
      destruct (H2 k y H6) as [H7|H7]; auto. right. eapply describes_ext; eauto.
  Qed.
  Lemma fin_same doc ex s s' : fin doc ex s = SOk s' -> s_type s' = s_type s /\ s_props s' = s_props s /\ s_addl s' = s_addl s /\ s_items s' = s_items s /\ s_allOf s' = s_allOf s.
  Proof. intros [= <-]. cbn. auto. Qed.
  Ltac fins E := let F := fresh "F" in pose proof (fin_same _ _ _ _ E) as F; cbn [s_type s_props s_addl s_items s_allOf leaf] in F; destruct F as (F1 & F2 & F3 & F4 & F5).
  Lemma ofKind_shape (rec : recT) st t u d e s st' : keeping rec -> shaping rec -> plain env u -> (forall x, t_kind (env u) <> KPtr x) -> ofKind env parse_float rec st t u d e = Some (SOk s, st') ->
    shape st' u s /\ forall k x, mget beqb st' k = Some x -> mget beqb st k = Some x \/ describes st' k x.
  Proof.
    intros Hk Hr Hp Hptr. unfold ofKind. destruct (t_kind (env u)) as [e0| | | | |e0|k0 e0|any|name fs|] eqn:K; try discriminate.
    - intros [= <- <-]. split; auto. eapply sh_bool; eauto.
    - intros [= <- <-]. split; auto. eapply sh_num; eauto.
    - intros [= <- <-]. split; auto. eapply sh_num; eauto.
    - intros [= <- <-]. split; auto. eapply sh_str; eauto.
    - destruct (rec st e0 [] []) as [[[x| |] st1]|] eqn:Er; try discriminate. destruct (Hr _ _ _ _ _ _ Er) as (H1 & H2). intros [= <- <-]. split; auto. eapply sh_seq; [exact Hp|exact K|reflexivity|reflexivity|exact H1].
    - destruct (rec st k0 [] []) as [[[x| |] st1]|] eqn:Er; try discriminate. destruct (Hr _ _ _ _ _ _ Er) as (H1 & H2).
      destruct (rec st1 e0 [] []) as [[[y| |] st2]|] eqn:Er'; try discriminate. destruct (Hr _ _ _ _ _ _ Er') as (H3 & H4). intros [= <- <-].
      pose proof (keeps_ext _ _ (Hk _ _ _ _ _ _ Er')) as Hx. split; [eapply sh_map; [exact Hp|exact K|reflexivity..|eapply shape_ext; eauto|exact H3]|].
      intros k z Hz. destruct (H4 k z Hz) as [H5|H5]; auto. destruct (H2 k z H5); auto. right. eapply describes_ext; eauto.
    - intros [= <- <-]. split; auto. eapply sh_iface; eauto.
    - unfold ofStruct. destruct name as [[pkg n]|].
      + assert (Hnm : named env u (structKey pkg n) fs) by (exists pkg, n; auto).
        destruct (mget beqb st (structKey pkg n)) as [s0|] eqn:Ek.
        * intros [= <- <-]. split; auto. eapply sh_named; eauto.
        * destruct (fields env rec _ _ _ _ _ _) as [[[[ps ds]|] st1]|] eqn:Ef; try discriminate. destruct (loggable _); [|discriminate]. intros [= <- <-].
          pose proof (fields_stored env rec _ _ _ Hk _ _ _ _ _ _ (mset_eq _ _ _) Ef) as Hst.
          apply (fields_shape rec _ _ _ Hk Hr) in Ef as (ss & H1 & -> & H2). split; [eapply sh_named; eauto|].
          intros k x Hx. destruct (beqb k (structKey pkg n)) eqn:Eb.
          -- apply beqb_eq in Eb as ->. right. rewrite Hst in Hx. injection Hx as <-. exists u, fs, ss. repeat apply conj; auto.
          -- assert (Hne : k <> structKey pkg n) by (intros ->; now rewrite beqb_refl in Eb). destruct (H2 k x) as [H3|H3]; auto; [congruence|]. cbn [store] in H3. rewrite mset_ne in H3; auto.
      + destruct (fields env rec _ _ _ _ _ _) as [[[[ps ds]|] st1]|] eqn:Ef; try discriminate. intros [= <- <-].
        apply (fields_shape rec _ _ _ Hk Hr) in Ef as (ss & H1 & -> & H2). split; [eapply sh_anon; [exact Hp|exact K|reflexivity..|exact H1]|]. intros k x Hx. apply H2; auto. discriminate.
  Qed.
  Lemma plain_dec u : plain env u \/ ~ plain env u.
  Proof.
    unfold plain. destruct (t_special (env u)) as [| | |[| |[|c j]]|]; auto. destruct (Ascii.ascii_dec c "{"), (Ascii.ascii_dec c "n"), (Ascii.ascii_dec c "["); subst; auto. right. intros [|[|]]; auto.
  Qed.
  Lemma sft_plain n st t d e x u : sft (S n) st t d e = Some x -> deref env (S n) t = Some u -> plain env u -> ofKind env parse_float (sft n) st t u d e = Some x.
  Proof.
    intros E Ed Hp. remember (S n) as n1 eqn:En. assert (E' := E). rewrite En in E'. cbn [schemaFromType] in E'. rewrite <- En, Ed in E'. unfold plain in Hp.
    destruct (t_special (env u)) as [| | |[| |j]|]; try contradiction; auto. assert (Ej : byJson env parse_float t d e j = None) by (apply byJson_none; destruct j as [|c j]; [contradiction|eauto]). now rewrite Ej in E'.
  Qed.
  Lemma sft_special n st t d e x u : sft (S n) st t d e = Some x -> deref env (S n) t = Some u -> ~ plain env u -> snd x = st.
  Proof.
    intros E Ed Hp. apply sft_step in E as (u' & Eu & [(E & _)|(Hp' & _)]); [exact E|]. rewrite Ed in Eu. injection Eu as <-. contradiction.
  Qed.
  Lemma sft_special_type n st t d e s st' u : sft (S n) st t d e = Some (SOk s, st') -> deref env (S n) t = Some u -> ~ plain env u -> special_type u s.
  Proof.
    intros E Ed Hp. remember (S n) as n1 eqn:En. assert (E' := E). rewrite En in E'. cbn [schemaFromType] in E'. rewrite <- En, Ed in E'. clear E. unfold plain in Hp. unfold special_type.
    destruct (t_special (env u)) as [| | |[| |[|c j]]|]; auto; try (injection E' as <- _; cbn; auto).
    destruct (byJson env parse_float t d e (c :: j)) as [r|] eqn:Ej; [|exfalso; apply Hp; apply byJson_none in Ej as (c' & r' & [= <- <-] & Hc); exact Hc]. injection E' as -> _. unfold byJson in Ej.
    destruct (existsb (Ascii.eqb c) (B "{n[")); [discriminate|].
    assert (G : forall l, existsb (Ascii.eqb c) l = true -> In c l). { intros l Hl. apply existsb_exists in Hl as (x & Hx & Ex). apply Ascii.eqb_eq in Ex as ->. exact Hx. }
    destruct (existsb (Ascii.eqb c) (B """")) eqn:E1. { injection Ej as <-. left. split; [reflexivity|]. apply G in E1. destruct E1 as [<-|[]]. reflexivity. }
    destruct (existsb (Ascii.eqb c) (B "ft")) eqn:E2. { injection Ej as <-. right. left. split; [reflexivity|]. now apply G. }
    destruct (existsb (Ascii.eqb c) (B "0123456789.")) eqn:E3; [|discriminate]. injection Ej as <-. right. right. split; [reflexivity|]. now apply G.
  Qed.
  Lemma sft_shape n : shaping (sft n).
  Proof.
    induction n as [|n IH]; intros st t d e s st' E; [discriminate|]. destruct (sft_step env parse_float n st t d e _ E) as (u & Ed & _).
    destruct (plain_dec u) as [Hp|Hp].
    - apply (sft_plain _ _ _ _ _ _ u) in E; auto. apply ofKind_shape in E as (H1 & H2); auto; [|apply sft_keep|exact (deref_plain _ _ _ _ Ed)]. split; auto. eapply deref_shape; eauto.
    - pose proof (sft_special _ _ _ _ _ _ u E Ed Hp) as Es. cbn in Es. subst st'. split; auto. eapply deref_shape; eauto. apply sh_special; auto; [exact (deref_plain _ _ _ _ Ed)|eapply sft_special_type; eauto].
  Qed.
  (* ---- errors ---- *)
  Lemma deref_points n : forall t u, deref env n t = Some u -> points env t u.
  Proof.
    induction n as [|n IH]; intros t u E; cbn [deref] in E; destruct (t_kind (env t)) as [e| | | | | | | | |] eqn:K; try discriminate; try (injection E as <-; apply points_at; intros (x & He); congruence).
    eapply points_to; eauto.
  Qed.
  Lemma points_deref t u : points env t u -> exists n, deref env n t = Some u.
  Proof.
    induction 1 as [t H|t e u K _ (n & IH)]; [exists 0|exists (S n)]; cbn [deref]; [|now rewrite K]. destruct (t_kind (env t)) as [e| | | | | | | | |] eqn:K; auto. exfalso. apply H. now exists e.
  Qed.
  Lemma points_inj t u u' : points env t u -> points env t u' -> u = u'.
  Proof.
    induction 1 as [t H|t e u K _ IH]; intros Hp; inversion Hp; subst; auto; [exfalso; apply H; eexists; eauto|exfalso; apply H; eexists; eauto|]. apply IH. congruence.
  Qed.
  Lemma ofKind_err (rec : recT) st t u d e st' : ofKind env parse_float rec st t u d e = Some (SErr, st') -> st' = st /\ (t_kind (env u) = KOther \/ is_ptr env u).
  Proof.
    unfold ofKind, is_ptr. destruct (t_kind (env u)) as [e0| | | | |e0|k0 e0|any|name fs|]; try discriminate.
    - intros [= <-]. eauto.
    - destruct (rec st e0 [] []) as [[[x| |] st1]|]; discriminate.
    - destruct (rec st k0 [] []) as [[[x| |] st1]|]; try discriminate. destruct (rec st1 e0 [] []) as [[[y| |] st2]|]; discriminate.
    - unfold ofStruct. destruct name as [[pkg n]|].
      + destruct (mget beqb st _); [discriminate|]. destruct (fields env rec _ _ _ _ _ _) as [[[[ps ds]|] st1]|]; try discriminate. destruct (loggable _); discriminate.
      + destruct (fields env rec _ _ _ _ _ _) as [[[[ps ds]|] st1]|]; discriminate.
    - intros [= <-]. auto.
  Qed.
  Lemma sft_err n st t d e st' : sft n st t d e = Some (SErr, st') -> st' = st /\ exists u, points env t u /\ plain env u /\ t_kind (env u) = KOther.
  Proof.
    destruct n as [|n]; intros E; [discriminate|]. destruct (sft_step env parse_float n st t d e _ E) as (u & Ed & Hx). destruct Hx as [(_ & Ha)|(Hp & Ek)]; [contradiction|].
    apply ofKind_err in Ek as (-> & [K|(e0 & K)]); [|exfalso; exact (deref_plain _ _ _ _ Ed _ K)]. split; auto. exists u. split; [eapply deref_points; eauto|auto].
  Qed.
  Lemma sft_unsupported t u : points env t u -> plain env u -> t_kind (env u) = KOther -> exists n, forall st d e, sft n st t d e = Some (SErr, st).
  Proof.
    intros Hp Hpl K. destruct (points_deref _ _ Hp) as (n & Ed). exists (S n). intros st d e. assert (Ed' : deref env (S n) t = Some u) by (eapply deref_mono; eauto).
    cbn [schemaFromType]. rewrite Ed'. unfold ofKind. rewrite K. unfold plain in Hpl. destruct (t_special (env u)) as [| | |[| |j]|]; try contradiction; auto.
    assert (Ej : byJson env parse_float t d e j = None) by (apply byJson_none; destruct j as [|c j]; [contradiction|eauto]). now rewrite Ej.
  Qed.
  Lemma good_describes st : good_calls env parse_float st -> forall k x, mget beqb st k = Some x -> describes st k x.
  Proof.
    induction 1 as [|st n t doc ex r st' Hg IH E Hr]; intros k x Hx; [discriminate|]. pose proof (keeps_ext _ _ (sft_keep _ _ _ _ _ _ _ _ _ E)) as Hxt.
    destruct r as [s| |]; [|apply sft_err in E as (-> & _); auto|contradiction].
    apply sft_shape in E as (_ & H2). destruct (H2 k x Hx) as [H3|H3]; auto. eapply describes_ext; eauto.
  Qed.

  (* ---- what is supported ---- *)
  Definition sound (st : comps) : Prop := distinct_keys env /\ forall k x, mget beqb st k = Some x -> describes st k x.
  Lemma shapes_in st fs ss f : shapes st fs ss -> In f fs -> exists s, shape st (sf_type f) s.
  Proof. induction 1; intros Hi; [destruct Hi|]. destruct Hi as [->|Hi]; eauto. Qed.
  Lemma shape_edge st t s b : sound st -> shape st t s -> edge env t b -> exists s', shape st b s'.
  Proof.
    intros (Hd & Hg) Hs (Hb & Hpt). unfold parts in Hb. inversion Hs; subst; try (rewrite H0 in Hb); try (destruct H0 as [H0|H0]; rewrite H0 in Hb); cbn [In] in Hb; try contradiction.
    - rewrite H in Hb. cbn in Hb. destruct Hb as [<-|[]]. eauto.
    - exfalso. destruct Hpt as [(e & He)|Hp]; [exact (H e He)|contradiction].
    - destruct Hb as [<-|[]]. eauto.
    - destruct Hb as [<-|[<-|[]]]; eauto.
    - apply in_map_iff in Hb as (f & <- & Hf). eapply shapes_in; eauto.
    - destruct (Hg _ _ H2) as (t' & fs' & ss & Hn & _ & _ & _ & _ & Hsh). pose proof (Hd _ _ _ _ _ H0 Hn) as <-. destruct H0 as (p1 & n1 & K1 & E1), Hn as (p2 & n2 & K2 & E2). rewrite K1 in Hb, K2. injection K2 as -> -> ->.
      apply in_map_iff in Hb as (f & <- & Hf). eapply shapes_in; eauto.
  Qed.
  Lemma shape_within st t s b : sound st -> shape st t s -> within env t b -> exists s', shape st b s'.
  Proof.
    intros Hg Hs [<-|(p & Hp)]; [eauto|]. revert s Hs. induction Hp as [a b He|a b c p He Hp IH]; intros s Hs; destruct (shape_edge _ _ _ _ Hg Hs He) as (s' & Hs'); eauto.
  Qed.
  Lemma shape_kind st t s : shape st t s -> plain env t -> t_kind (env t) <> KOther.
  Proof.
    intros Hs Hp K. inversion Hs; subst; try congruence; try contradiction; try (destruct H0; congruence). destruct H0 as (? & ? & ? & _). congruence.
  Qed.

  (* ---- JSON fits ---- *)
  Context (st : comps) (nl : bool) (Hst : sound st) (Hnames : names_differ env).
  Lemma parse_name f tg : f = Fld (f_name f) (f_exported f) (f_tag f) -> parseTag f = Ok tg -> g_skip tg = false ->
    g_json tg = match fst (cut_comma (f_tag f)) with [] => f_name f | j => j end.
  Proof.
    intros _. unfold parseTag. destruct (beqb (f_tag f) (B "-")); [intros [= <-]; discriminate|]. destruct (cut_comma (f_tag f)) as [j extra]. cbn [fst].
    destruct (beqb extra (B "omitempty")); [intros [= <-] _; destruct j; reflexivity|]. destruct extra; [intros [= <-] _; destruct j; reflexivity|discriminate].
  Qed.
  Definition all_denote (sfs : list sfld) : list (fld * ty) -> Prop :=
    fun fs => Forall2 (fun x y => fst x = Fld (sf_name y) (sf_exported y) (sf_json y) /\ denotes env (sf_type y) (snd x)) fs sfs.
  Lemma denote_all t fs nm sfs : t_kind (env t) = KStruct nm sfs -> denotes env t (TStruct fs) -> t_special (env t) = SNone /\ all_denote sfs fs.
  Proof.
    intros K. cbn [denotes]. rewrite K. intros (Hs & H). split; auto. unfold all_denote. clear - H. revert sfs H. induction fs as [|x fs IH]; intros [|y sfs] H; try contradiction; constructor; [tauto|]. apply IH. tauto.
  Qed.
  Lemma denote_plain t a : denotes env t a -> (forall e, t_kind (env t) <> KPtr e) -> plain env t.
  Proof.
    intros Hd Hp. unfold plain. destruct a; cbn [denotes] in Hd; destruct (t_kind (env t)) eqn:K; try contradiction; try (exfalso; eapply Hp; reflexivity); try (rewrite Hd; exact I); destruct Hd as (Hd & _); try destruct Hd as (Hd & _); rewrite Hd; exact I.
  Qed.
  Definition fits (a : ty) : Prop := forall t s v n, denotes env t a -> shape st t s -> hasty a v -> mar a v = Ok n -> (nl = true \/ no_nil a v) -> conforms st nl s n.
  Lemma fields_fit fs : (forall f t, In (f, t) fs -> fits t) -> forall sfs ss vs ps, all_denote sfs fs -> shapes st sfs ss -> fieldwise (fun _ t' v' => hasty t' v') fs vs ->
    (nl = true \/ fieldwise (fun _ t' v' => no_nil t' v') fs vs) -> mar_fields (map (fun f => (fst f, mar (snd f))) fs) vs = Ok ps ->
    forall name k x, In ((name, k), x) ps -> exists i sf s, nth_error sfs i = Some sf /\ nth_error ss i = Some s /\ shown sf /\ propName sf = k /\ conforms st nl s x.
  Proof.
    induction fs as [|[f t] fs IH]; intros Hfit sfs ss vs ps Hd Hs Hv Hnn E name k x Hi; inversion Hd as [|? sf ? sfs' Hd1 Hd2]; subst; inversion Hs as [|? ? s ss' Hs1 Hs2]; subst; destruct vs as [|v vs]; cbn [fieldwise] in Hv; try contradiction; cbn [map mar_fields fst snd] in E.
    - injection E as <-. destruct Hi.
    - destruct Hd1 as (Ef & Hd1). cbn [fst snd] in Ef, Hd1.
      assert (Hnn' : nl = true \/ fieldwise (fun _ t' v' => no_nil t' v') fs vs) by (cbn [fieldwise] in Hnn; tauto).
      assert (IHr : forall ps, mar_fields (map (fun f => (fst f, mar (snd f))) fs) vs = Ok ps -> In ((name, k), x) ps -> exists i sf0 s0, nth_error (sf :: sfs') i = Some sf0 /\ nth_error (s :: ss') i = Some s0 /\ shown sf0 /\ propName sf0 = k /\ conforms st nl s0 x).
      { intros ps' Ep Hp. destruct (IH (fun f' t' Hf => Hfit f' t' (or_intror Hf)) sfs' ss' vs ps' Hd2 Hs2 (proj2 Hv) Hnn' Ep name k x Hp) as (i & sf0 & s0 & H1 & H2 & H3). exists (S i), sf0, s0. auto. }
      destruct (f_exported f) eqn:Ex; [|eauto]. destruct (parseTag f) as [tg|] eqn:Et; [|discriminate]. cbn [rbind] in E. destruct (g_skip tg) eqn:Eg; [eauto|].
      destruct (mar t v) as [n|] eqn:En; [|discriminate]. cbn [rbind] in E. destruct (mar_fields _ vs) as [ps'|] eqn:Ep; [|discriminate]. cbn [rbind] in E. injection E as <-.
      assert (Hhd : exists i sf0 s0, nth_error (sf :: sfs') i = Some sf0 /\ nth_error (s :: ss') i = Some s0 /\ shown sf0 /\ propName sf0 = g_json tg /\ conforms st nl s0 n).
      { exists 0, sf, s. split; [reflexivity|]. split; [reflexivity|]. split; [|split].
        - rewrite Ef in Ex, Et. split; [exact Ex|]. intros Ej. cbn in Et. unfold parseTag in Et. cbn [f_tag] in Et. rewrite Ej, beqb_refl in Et. injection Et as <-. discriminate.
        - rewrite (parse_name f tg); auto; rewrite Ef; reflexivity.
        - eapply (Hfit f t); eauto; [now left|apply Hv|]. cbn [fieldwise] in Hnn. tauto. }
      destruct (g_omit tg && is_empty n); [eauto|]. destruct Hi as [Hi|Hi]; [|eauto]. apply (f_equal (fun y => (snd (fst y), snd y))) in Hi. cbn [fst snd] in Hi. injection Hi as <- <-. exact Hhd.
  Qed.
  Lemma props_fit nm sfs ss s t fs vs ps : t_kind (env t) = KStruct nm sfs -> (forall f a, In (f, a) fs -> fits a) -> all_denote sfs fs -> shapes st sfs ss -> s_type s = B "object" -> s_props s = assemble [] sfs ss ->
    hasty (TStruct fs) (VStruct vs) -> (nl = true \/ no_nil (TStruct fs) (VStruct vs)) -> mar_fields (map (fun f => (fst f, mar (snd f))) fs) vs = Ok ps -> conforms st nl s (NPairs ps).
  Proof.
    intros K Hfit Hd Hs Ht Hp Hv Hnn E. eapply conf_object; [exact Ht|reflexivity|]. intros k x Hi. apply in_map_iff in Hi as ([[name k'] x'] & [= <- <-] & Hi).
    destruct (fields_fit fs Hfit sfs ss vs ps Hd Hs Hv Hnn E name k' x' Hi) as (i & sf & s' & H1 & H2 & Hsh & H3 & H4). exists s'. split; auto. left. rewrite Hp, <- H3.
    eapply assemble_nth; eauto. intros j g Hg E'. symmetry. apply (Hnames t nm sfs i j sf g (propName sf)); auto; apply json_name_iff; auto.
  Qed.
  Lemma fits_all a : fits a.
  Proof.
    induction a as [|w|w| |a IH|a IH|k0 a IH|k0 a IH|fs IH] using ty_nest; intros t s v n Hd Hs Hv E Hnn; pose proof (denote_plain t _ Hd) as Hpl; cbn [denotes] in Hd;
      destruct (t_kind (env t)) as [e| | | | |e|kk e|any|nm sfs|] eqn:K; try contradiction.
    - inversion Hs; subst; try congruence; try (destruct H0; congruence); try (destruct H0 as (? & ? & ? & _); congruence). { exfalso. apply H0, Hpl. congruence. } destruct v; try contradiction. injection E as <-. now apply conf_bool.
    - inversion Hs; subst; try congruence; try (destruct H0 as (? & ? & ? & _); congruence). { exfalso. apply H0, Hpl. congruence. } destruct v; try contradiction. injection E as <-. now apply conf_int.
    - inversion Hs; subst; try congruence; try (destruct H0 as (? & ? & ? & _); congruence). { exfalso. apply H0, Hpl. congruence. } destruct v; try contradiction. injection E as <-. now apply conf_int.
    - inversion Hs; subst; try congruence; try (destruct H0; congruence); try (destruct H0 as (? & ? & ? & _); congruence). { exfalso. apply H0, Hpl. congruence. } destruct v; try contradiction. injection E as <-. now apply conf_str.
    - inversion Hs; subst; try congruence; try (destruct H0; congruence); try (destruct H0 as (? & ? & ? & _); congruence). destruct Hd as (_ & Hd). rewrite K in H. injection H as <-.
      destruct v; try contradiction; cbn [mar] in E; [injection E as <-; destruct Hnn as [Hn|[]]; now apply conf_null|]. eapply IH; eauto.
    - destruct Hd as (_ & Hd). inversion Hs; subst; try congruence; try (destruct H0; congruence); try (destruct H0 as (? & ? & ? & _); congruence). { exfalso. apply H0, Hpl. congruence. } rewrite K in H0. injection H0 as <-.
      destruct v as [| | | | |l| |]; try contradiction; cbn [mar] in E; [injection E as <-; destruct Hnn as [Hn|[]]; now apply conf_null|].
      destruct (mar_elems (mar a) l) as [ns|] eqn:En; [|discriminate]. injection E as <-. apply elems_inv in En. eapply conf_list; eauto. cbn [hasty no_nil] in Hv, Hnn. intros n Hn.
      assert (Hex : exists v, In v l /\ mar a v = Ok n) by exact (forall2_from _ _ _ En n Hn).
      destruct Hex as (v & Hvi & Ev). rewrite Forall_forall in Hv. eapply IH; eauto. destruct Hnn as [Hn'|Hn']; auto. right. rewrite Forall_forall in Hn'. auto.
    - destruct Hd as (_ & Hd). inversion Hs; subst; try congruence; try (destruct H0; congruence); try (destruct H0 as (? & ? & ? & _); congruence). { exfalso. apply H0, Hpl. congruence. } rewrite K in H0. injection H0 as <-.
      destruct v as [| | | | |l| |]; try contradiction; cbn [mar] in E.
      destruct (mar_elems (mar a) l) as [ns|] eqn:En; [|discriminate]. injection E as <-. apply elems_inv in En. eapply conf_list; eauto. cbn [hasty no_nil] in Hv, Hnn. intros n Hn.
      assert (Hex : exists v, In v l /\ mar a v = Ok n) by exact (forall2_from _ _ _ En n Hn).
      destruct Hex as (v & Hvi & Ev). destruct Hv as (_ & Hv). rewrite Forall_forall in Hv. eapply IH; eauto. destruct Hnn as [Hn'|Hn']; auto. right. rewrite Forall_forall in Hn'. auto.
    - destruct Hd as (_ & Hd). inversion Hs; subst; try congruence; try (destruct H0; congruence); try (destruct H0 as (? & ? & ? & _); congruence). { exfalso. apply H0, Hpl. congruence. } rewrite K in H0. injection H0 as <- <-.
      destruct v as [| | | | | |l|]; try contradiction; cbn [mar] in E; [injection E as <-; destruct Hnn as [Hn|[]]; now apply conf_null|].
      destruct (mar_entries k0 (mar a) [] l) as [m|] eqn:En; [|discriminate]. injection E as <-. cbn [hasty no_nil] in Hv, Hnn. destruct Hv as (_ & Hv). rewrite Forall_forall in Hv.
      assert (Hm : Forall (fun x => conforms st nl se (snd x)) m).
      { apply (entries_inv k0 (mar a) (fun x => conforms st nl se (snd x)) l [] m En); [|constructor|constructor]. intros x n Hx Ex. eapply IH; eauto; [apply (Hv x Hx)|]. destruct Hnn as [Hn'|Hn']; auto. right. rewrite Forall_forall in Hn'. auto. }
      eapply conf_object; [eassumption|reflexivity|]. intros k x Hi. exists se. rewrite Forall_forall in Hm. split; [right; rewrite H2; auto|apply (Hm (k, x) Hi)].
    - assert (Hd' : denotes env t (TStruct fs)) by (cbn [denotes]; rewrite K; exact Hd). destruct (denote_all t fs nm sfs K Hd') as (_ & Hall).
      destruct v as [| | | | | | |vs]; try contradiction; cbn [mar] in E. destruct (mar_fields _ vs) as [ps|] eqn:Ep; [|discriminate]. injection E as <-.
      inversion Hs; subst; try congruence; try (destruct H0; congruence). { exfalso. apply H0, Hpl. congruence. }
      + rewrite K in H0. injection H0 as -> <-. eapply props_fit; eauto.
      + destruct Hst as (Hdk & Hg). destruct (Hg _ _ H2) as (t' & fs' & ss & Hn & _ & Ht & _ & Hp & Hsh). pose proof (Hdk _ _ _ _ _ H0 Hn) as <-.
        destruct H0 as (p1 & n1 & K1 & E1), Hn as (p2 & n2 & K2 & E2). rewrite K in K1, K2. injection K1 as -> ->. injection K2 as -> -> <-. eapply conf_ref; eauto. eapply props_fit; eauto.
  Qed.
End Shape.

(* ---- operations ---- *)
Section Ops.
  Context (env : tid -> tinfo) (parse_float : bytes -> option floatv) (ftype : nat -> tid * bytes * bytes).
  Definition the_type (i : nat) : tid := fst (fst (ftype i)).
  Definition collect {V} (m : list (bytes * V)) (l : list (nat * bytes)) (vs : list V) : list (bytes * V) :=
    fold_left (fun m x => mset beqb m (fst x) (snd x)) (combine (map snd l) vs) m.
  Lemma collect_cons {V} (m : list (bytes * V)) i name l v vs : collect m ((i, name) :: l) (v :: vs) = collect (mset beqb m name v) l vs.
  Proof. reflexivity. Qed.
  Lemma collect_names {V} l : forall (vs : list V) m name, length vs = length l -> ((exists v, mget beqb (collect m l vs) name = Some v) <-> In name (map snd l) \/ exists v, mget beqb m name = Some v).
  Proof.
    induction l as [|[i x] l IH]; intros [|v vs] m name Hl; try discriminate; [cbn; tauto|]. rewrite collect_cons, IH by (cbn in Hl; lia). cbn [map snd In]. destruct (beqb name x) eqn:E.
    - apply beqb_eq in E as ->. rewrite mset_eq. split; auto. intros _. right. eauto.
    - rewrite mset_ne; [|intros ->; now rewrite beqb_refl in E]. split; [tauto|]. intros [[->|H]|H]; auto. now rewrite beqb_refl in E.
  Qed.
  Lemma collect_rel {V W} (R : V -> W -> Prop) l : forall vs ws m m', Forall2 R vs ws -> length vs = length l -> (forall k v, mget beqb m k = Some v -> exists w, mget beqb m' k = Some w /\ R v w) ->
    forall k v, mget beqb (collect m l vs) k = Some v -> exists w, mget beqb (collect m' l ws) k = Some w /\ R v w.
  Proof.
    induction l as [|[i x] l IH]; intros [|v vs] ws m m' H Hl Hm; try discriminate; [exact Hm|]. inversion H as [|? w ? ws' Hr Hrs]; subst. rewrite !collect_cons. apply IH; auto. intros k v' Hk. destruct (beqb k x) eqn:E.
    - apply beqb_eq in E as ->. rewrite mset_eq in Hk. injection Hk as <-. exists w. rewrite mset_eq. auto.
    - assert (k <> x) by (intros ->; now rewrite beqb_refl in E). rewrite mset_ne in Hk by assumption. rewrite mset_ne by assumption. auto.
  Qed.
  Lemma good_sound st : distinct_keys env -> good_calls env parse_float st -> sound env st.
  Proof. intros Hd Hg. split; auto. now apply good_describes with (parse_float := parse_float). Qed.
  Lemma properties_names n l : forall st props ps st', properties env parse_float ftype n st props l = Some (Some (Some ps), st') -> exists ss, length ss = length l /\ ps = collect props l ss.
  Proof.
    induction l as [|[i name] l IH]; intros st props ps st' E; cbn [properties] in E; [injection E as <- <-; exists []; auto|]. destruct (ftype i) as [[t doc] ex]. destruct (schemaFromType _ _ _ _ _ _ _) as [[[s| |] st1]|]; try discriminate.
    apply IH in E as (ss & H1 & ->). exists (s :: ss). split; [cbn; lia|reflexivity].
  Qed.
  Lemma properties_shape n l : forall st props ps st', good_calls env parse_float st -> properties env parse_float ftype n st props l = Some (Some (Some ps), st') ->
    good_calls env parse_float st' /\ ext st st' /\ exists ss, Forall2 (fun x s => shape env st' (the_type (fst x)) s) l ss /\ ps = collect props l ss.
  Proof.
    induction l as [|[i name] l IH]; intros st props ps st' Hg E; cbn [properties] in E; [injection E as <- <-; split; auto; split; [apply ext_refl|]; exists []; auto|].
    destruct (ftype i) as [[t doc] ex] eqn:Ei. destruct (schemaFromType _ _ _ _ _ _ _) as [[[s| |] st1]|] eqn:Es; try discriminate.
    assert (Hg1 : good_calls env parse_float st1) by (eapply good_more; eauto; discriminate).
    destruct (IH _ _ _ _ Hg1 E) as (H1 & H2 & ss & H3 & ->). split; auto. split; [eapply ext_trans; [exact (keeps_ext _ _ (sft_keep _ _ _ _ _ _ _ _ _ Es))|auto]|].
    exists (s :: ss). split; [|reflexivity]. constructor; auto. unfold the_type. cbn [fst]. rewrite Ei. cbn [fst]. eapply shape_ext; eauto. eapply sft_shape; eauto.
  Qed.
  Lemma send_collect h obj l : forall d d', send h obj d l = Ok d' -> exists ns, Forall2 (fun x n => exists f v, nth_error (h_fields h) (fst x) = Some f /\ nth_error obj (fst x) = Some v /\ mar (a_type f) v = Ok n) l ns /\ d' = collect d l ns.
  Proof.
    induction l as [|[i name] l IH]; intros d d' E; cbn [send] in E; [injection E as <-; exists []; auto|]. unfold the_field in E. destruct (nth_error (h_fields h) i) as [f|] eqn:Ef; [|discriminate].
    destruct (nth_error obj i) as [v|] eqn:Ev; [|discriminate]. unfold put in E. destruct (a_exported f); [|discriminate]. destruct (mar (a_type f) v) as [n|] eqn:En; [|discriminate]. cbn [rbind] in E.
    apply IH in E as (ns & H1 & ->). exists (n :: ns). split; [|reflexivity]. constructor; auto. exists f, v. auto.
  Qed.
  Lemma collect_nodup {V} l : forall (vs : list V) m, NoDup (map fst m) -> NoDup (map fst (collect m l vs)).
  Proof.
    induction l as [|[i x] l IH]; intros [|v vs] m Hm; auto. rewrite collect_cons. apply IH. apply (mset_nodup beqb beqb_ok). exact Hm.
  Qed.
  Lemma nodup_mget {V} (m : list (bytes * V)) k v : NoDup (map fst m) -> In (k, v) m -> mget beqb m k = Some v.
  Proof.
    induction m as [|[a b] m IH]; intros Hn Hi; [destruct Hi|]. cbn [map fst] in Hn. inversion Hn; subst. cbn [mget]. destruct Hi as [[= -> ->]|Hi]; [now rewrite beqb_refl|].
    destruct (beqb k a) eqn:E; auto. apply beqb_eq in E as ->. exfalso. apply H1. apply in_map_iff. now exists (a, v).
  Qed.
  (* the data sent fits the schema of all of it *)
  Lemma send_fits n h obj l st props st' nl d : distinct_keys env -> names_differ env -> good_calls env parse_float st ->
    properties env parse_float ftype n st [] l = Some (Some (Some props), st') -> send h obj [] l = Ok d ->
    (forall i f v, In i (map fst l) -> nth_error (h_fields h) i = Some f -> nth_error obj i = Some v -> denotes env (the_type i) (a_type f) /\ hasty (a_type f) v /\ (nl = true \/ no_nil (a_type f) v)) ->
    forall st2, ext st' st2 -> good_calls env parse_float st2 -> conforms st2 nl (Schema (B "object") [] props None [] None None []) (NMap d).
  Proof.
    intros Hd Hn Hg Ep Es Hf st2 Hx Hg2. destruct (properties_shape _ _ _ _ _ _ Hg Ep) as (_ & _ & ss & Hss & ->). apply send_collect in Es as (ns & Hns & ->).
    eapply conf_object; [reflexivity|reflexivity|]. intros k x Hi. apply nodup_mget in Hi; [|apply collect_nodup; constructor].
    assert (Hlen : length ns = length l) by (clear - Hns; induction Hns; cbn; auto).
    assert (HR : Forall2 (fun nd s => conforms st2 nl s nd) ns ss).
    { assert (G : forall l', incl l' l -> forall ss ns, Forall2 (fun x s => shape env st' (the_type (fst x)) s) l' ss ->
        Forall2 (fun x n => exists f v, nth_error (h_fields h) (fst x) = Some f /\ nth_error obj (fst x) = Some v /\ mar (a_type f) v = Ok n) l' ns -> Forall2 (fun nd s => conforms st2 nl s nd) ns ss).
      { clear - Hf Hd Hn Hg2 Hx. induction l' as [|y l' IH]; intros Hincl ss ns H1 H2; inversion H1 as [|? s0 ? ss0 Hs0 Hss0]; subst; inversion H2 as [|? n0 ? ns0 Hn0 Hns0]; subst; constructor.
        - destruct Hn0 as (f & v & F1 & F2 & F3). destruct (Hf (fst y) f v) as (G1 & G2 & G3); auto; [apply in_map; apply Hincl; now left|].
          eapply (fits_all env parse_float st2 nl (good_sound st2 Hd Hg2) Hn (a_type f)); eauto. eapply shape_ext; eauto.
        - apply IH; auto. intros z Hz. apply Hincl. now right. }
      apply (G l (incl_refl l)); assumption. }
    destruct (collect_rel (fun nd s => conforms st2 nl s nd) l ns ss [] [] HR Hlen) with (k := k) (v := x) as (s & S1 & S2); auto; [intros ? ? [=]|]. exists s. cbn [s_props]. auto.
  Qed.
End Ops.
