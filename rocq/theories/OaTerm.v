(* Schemas are made in finitely many steps, if every cycle of types goes through a struct with a name. *)
From Coq Require Import Bool Ascii String Arith NArith ZArith List Lia Relations Wellfounded.
From Verif Require Import Prelude PreludeFacts Utf8Model DecModel DurModel DurProofs KvProofs EncModel JsonModel MarModel MarSpec ApiModel OaModel OaSpec OaProofs.
Import ListNotations.

Lemma filter_le {A} (f g : A -> bool) l : (forall x, In x l -> g x = true -> f x = true) -> length (filter g l) <= length (filter f l).
Proof.
  induction l as [|x l IH]; intros H; cbn [filter]; [lia|]. specialize (IH (fun y Hy => H y (or_intror Hy))). pose proof (H x (or_introl eq_refl)) as Hx.
  destruct (g x); [rewrite (Hx eq_refl); cbn; lia|]. destruct (f x); cbn; lia.
Qed.
Lemma filter_lt {A} (f g : A -> bool) l y : (forall x, In x l -> g x = true -> f x = true) -> In y l -> f y = true -> g y = false -> length (filter g l) < length (filter f l).
Proof.
  induction l as [|x l IH]; intros H Hi Hf Hg; [destruct Hi|]. cbn [filter]. pose proof (H x (or_introl eq_refl)) as Hx. assert (H' : forall z, In z l -> g z = true -> f z = true) by (intros z Hz; apply H; now right).
  destruct Hi as [->|Hi].
  - rewrite Hf, Hg. cbn. pose proof (filter_le f g l H'). lia.
  - specialize (IH H' Hi Hf Hg). destruct (g x); [rewrite (Hx eq_refl); cbn; lia|]. destruct (f x); cbn; lia.
Qed.

Section Term.
  Context (env : tid -> tinfo) (parse_float : bytes -> option floatv).
  Notation sft := (schemaFromType env parse_float).
  Context (l : list tid) (Hl : forall a b, In a l -> edge env a b -> In b l).
  Context (Hcyc : forall a p, path env a a p -> exists b k fs, In b p /\ named env b k fs).

  Definition unnamed (a : tid) : Prop := forall k fs, ~ named env a k fs.
  Definition pedge (b a : tid) : Prop := edge env a b /\ unnamed a.
  Lemma path_end a b p c : path env a b p -> edge env b c -> path env a c (p ++ [b]).
  Proof. induction 1; intros He; cbn [app]; [eapply path_more; eauto; now apply path_one|eapply path_more; eauto]. Qed.
  Lemma acc_from n : forall seen a, NoDup seen -> incl seen l -> length l <= length seen + n -> In a l ->
    (forall x, In x seen -> exists p, path env x a p /\ Forall unnamed p) -> Acc pedge a.
  Proof.
    induction n as [|n IH]; intros seen a Hn Hi Hlen Ha Hp;
      (destruct (in_dec Nat.eq_dec a seen) as [Hs|Hs];
       [exfalso; destruct (Hp a Hs) as (p & Hpa & Hu); destruct (Hcyc a p Hpa) as (b & k & fs & Hb & Hbn); rewrite Forall_forall in Hu; exact (Hu b Hb k fs Hbn)|]);
      assert (Hn1 : NoDup (a :: seen)) by (constructor; assumption); assert (Hi1 : incl (a :: seen) l) by (intros x [<-|Hx]; auto);
      pose proof (NoDup_incl_length Hn1 Hi1) as Hle; cbn [length] in Hle.
    - exfalso. lia.
    - constructor. intros b (He & Hu). apply (IH (a :: seen)); auto; [cbn; lia|eauto|].
      intros x [<-|Hx]; [exists [a]; split; [now apply path_one|auto]|]. destruct (Hp x Hx) as (p & Hpx & Hup). exists (p ++ [a]). split; [eapply path_end; eauto|]. apply Forall_app. auto.
  Qed.
  Lemma acc_all a : In a l -> Acc pedge a.
  Proof. intro Ha. apply (acc_from (length l) [] a); [constructor|intros x []|cbn; lia|assumption|intros x []]. Qed.

  Lemma deref_ends a : Acc pedge a -> In a l -> exists n u, deref env n a = Some u /\ In u l /\ (a = u \/ exists p, path env a u p /\ Forall unnamed p).
  Proof.
    induction 1 as [a _ IH]. intro Ha. destruct (t_kind (env a)) as [e| | | | | | | | |] eqn:K;
      try (exists 0, a; split; [cbn [deref]; now rewrite K|auto]).
    assert (He : edge env a e) by (split; [unfold parts; rewrite K; now left|left; now exists e]).
    assert (Hu : unnamed a) by (intros k fs (pkg & n & E & _); congruence).
    destruct (IH e (conj He Hu) (Hl a e Ha He)) as (n & u & E & Hi & Hp). exists (S n), u. split; [cbn [deref]; now rewrite K|]. split; auto. right.
    destruct Hp as [->|(p & Hp & Hf)]; [exists [a]; split; [now apply path_one|auto]|exists (a :: p); split; [eapply path_more; eauto|auto]].
  Qed.
  Lemma acc_path a u p : path env a u p -> Forall unnamed p -> Acc pedge a -> Acc pedge u.
  Proof. induction 1; intros Hf Ha; inversion Hf; subst; [|apply IHpath; [assumption|]]; eapply Acc_inv; eauto; split; assumption. Qed.

  (* structs that still have no component *)
  Definition absent (st : comps) (t : tid) : bool :=
    match t_kind (env t) with KStruct (Some (pkg, n)) _ => match mget beqb st (structKey pkg n) with None => true | _ => false end | _ => false end.
  Definition missing (st : comps) : nat := length (filter (absent st) l).
  Lemma absent_ext st st' t : ext st st' -> absent st' t = true -> absent st t = true.
  Proof.
    unfold absent. intros H. destruct (t_kind (env t)); auto. destruct name as [[pkg n]|]; auto. destruct (mget beqb st _) eqn:E; auto. destruct (H _ _ E) as (s' & ->). auto.
  Qed.
  Lemma missing_ext st st' : ext st st' -> missing st' <= missing st.
  Proof. intros H. apply filter_le. intros x _. now apply absent_ext. Qed.
  Lemma missing_store st t k fs s : In t l -> named env t k fs -> mget beqb st k = None -> missing (store st (Some k) s) < missing st.
  Proof.
    intros Ht (pkg & n & K & ->) Hm. apply (filter_lt _ _ _ t); auto.
    - intros x _. apply absent_ext, ext_store.
    - unfold absent. now rewrite K, Hm.
    - unfold absent. rewrite K. cbn [store]. now rewrite mset_eq.
  Qed.

  Definition ends (m : nat) (t : tid) : Prop := forall st d e, missing st <= m -> exists n r, sft n st t d e = Some r.
  Lemma fields_end m key format fs : (forall f, In f fs -> ends m (sf_type f)) -> forall st props descs, missing st <= m ->
    exists n r, fields env (sft n) key format st props descs fs = Some r.
  Proof.
    induction fs as [|f fs IH]; intros Hf st props descs Hm; cbn [fields]; [exists 0; eauto|].
    destruct (Hf f (or_introl eq_refl) st (sf_doc f) (sf_example f) Hm) as (n & [r st1] & E).
    pose proof (missing_ext _ _ (keeps_ext _ _ (sft_keep _ _ _ _ _ _ _ _ _ E))) as Hm1.
    destruct r as [s| |]; try (exists n; rewrite E; eexists; reflexivity).
    set (st2 := store st1 key (structSchema format (mset beqb props (propName f) s))).
    destruct (IH (fun g Hg => Hf g (or_intror Hg)) st2 (mset beqb props (propName f) s) (descs ++ [propName f ++ B " " ++ t_string (env (sf_type f))])) as (n' & r' & E').
    { pose proof (missing_ext _ _ (ext_store st1 key (structSchema format (mset beqb props (propName f) s)))). unfold st2. lia. }
    exists (max n n'), r'. rewrite (sft_mono env parse_float n (max n n') _ _ _ _ _ (Nat.le_max_l _ _) E). eapply fields_more; [|exact E'].
    intros a b c d x. apply sft_mono. apply Nat.le_max_r.
  Qed.
  Lemma sft_make nd st t u d e : deref env nd t = Some u -> (plain env u -> exists n r, ofKind env parse_float (sft n) st t u d e = Some r) ->
    exists n r, sft n st t d e = Some r.
  Proof.
    intros Hd Hk.
    assert (Hsome : forall n, nd <= S n -> (forall r, (plain env u -> ofKind env parse_float (sft n) st t u d e = Some r) -> exists r', sft (S n) st t d e = Some r')).
    { intros n Hn r Hr. assert (E := deref_mono env nd (S n) t u Hd Hn). remember (S n) as n1 eqn:En. rewrite En. cbn [schemaFromType]. rewrite <- En, E. unfold plain in Hr.
      destruct (t_special (env u)) as [| | |m|]; try (eexists; reflexivity).
      - destruct m as [| |j]; [rewrite Hr by exact I; eauto|eexists; reflexivity|]. destruct (byJson env parse_float t d e j) as [r'|] eqn:Ej; [eexists; reflexivity|].
        apply byJson_none in Ej as (c & r' & -> & Hc). rewrite Hr by exact Hc. eauto.
      - rewrite Hr by exact I. eauto. }
    assert (Hdec : plain env u \/ ~ plain env u).
    { unfold plain. destruct (t_special (env u)) as [| | |[| |[|c j]]|]; auto. destruct (Ascii.ascii_dec c "{"), (Ascii.ascii_dec c "n"), (Ascii.ascii_dec c "["); subst; auto. right. intros [|[|]]; auto. }
    destruct Hdec as [Hp|Hp].
    - destruct (Hk Hp) as (n & r & E). exists (S (max n nd)). apply (Hsome (max n nd) ltac:(lia) r). intros _. eapply ofKind_more; [|exact E]. intros a b c f x. apply sft_mono. lia.
    - exists (S nd). apply (Hsome nd ltac:(lia) (SErr, st)). intros Hp'. contradiction.
  Qed.
  Lemma path_trans a u p : path env a u p -> Forall unnamed p -> clos_trans tid pedge u a.
  Proof.
    induction 1 as [a b He|a b c p He Hp IH]; intros Hf; inversion Hf; subst; [apply t_step; split; assumption|].
    eapply t_trans; [apply IH; assumption|]. apply t_step. split; assumption.
  Qed.
  Lemma terminates m : forall t, In t l -> ends m t.
  Proof.
    induction m as [m IHm] using lt_wf_ind. intros t Ht. pose proof (Acc_clos_trans _ _ _ (acc_all t Ht)) as Ha. revert Ht. induction Ha as [t _ IHa]. intros Ht st d e Hm.
    destruct (deref_ends t (acc_all t Ht) Ht) as (nd & u & Hd & Hu & Hp). apply (sft_make nd st t u d e Hd). intro Hpl.
    assert (Hpart : unnamed u -> forall b, In b (parts env u) -> ends m b).
    { intros Hun b Hb. assert (He : edge env u b) by (split; auto). assert (Hbl : In b l) by eauto. apply IHa; auto.
      destruct Hp as [->|(p & Hp & Hf)]; [apply t_step; split; assumption|]. eapply t_trans; [apply t_step; split; eassumption|]. eapply path_trans; eauto. }
    unfold unnamed, named, parts in Hpart. unfold ofKind. destruct (t_kind (env u)) as [e0| | | | |e0|k0 e0|any|name fs|] eqn:K; try (exists 0; eexists; reflexivity).
    - assert (Hun : forall k fs, ~ (exists pkg n, KSeq e0 = KStruct (Some (pkg, n)) fs /\ k = structKey pkg n)) by (intros k fs (? & ? & [=] & _)).
      destruct (Hpart Hun e0 (or_introl eq_refl) st [] [] Hm) as (n & [r st1] & E). exists n. rewrite E. destruct r; eexists; reflexivity.
    - assert (Hun : forall k fs, ~ (exists pkg n, KMap k0 e0 = KStruct (Some (pkg, n)) fs /\ k = structKey pkg n)) by (intros k fs (? & ? & [=] & _)).
      destruct (Hpart Hun k0 (or_introl eq_refl) st [] [] Hm) as (n & [r st1] & E). destruct r as [s| |]; [|exists n; rewrite E; eexists; reflexivity..].
      pose proof (missing_ext _ _ (keeps_ext _ _ (sft_keep _ _ _ _ _ _ _ _ _ E))) as Hm1.
      destruct (Hpart Hun e0 (or_intror (or_introl eq_refl)) st1 [] [] ltac:(lia)) as (n' & [r' st2] & E').
      exists (max n n'). rewrite (sft_mono env parse_float n (max n n') _ _ _ _ _ (Nat.le_max_l _ _) E), (sft_mono env parse_float n' (max n n') _ _ _ _ _ (Nat.le_max_r _ _) E').
      destruct r'; eexists; reflexivity.
    - unfold ofStruct. destruct name as [[pkg n]|].
      + destruct (mget beqb st (structKey pkg n)) as [s0|] eqn:Ek; [exists 0; eexists; reflexivity|].
        set (st1 := store st (Some (structKey pkg n)) (structSchema (t_string (env t)) [])).
        assert (Hm1 : missing st1 < missing st) by (eapply missing_store; eauto; exists pkg, n; eauto).
        destruct (fields_end (missing st1) (Some (structKey pkg n)) (t_string (env t)) fs) with (st := st1) (props := @nil (bytes * schema)) (descs := @nil bytes) as (n' & [r st2] & E); auto.
        { intros f Hf. apply IHm; [lia|]. apply (Hl u); auto. split; auto. unfold parts. rewrite K. now apply in_map. }
        exists n'. rewrite E. destruct r as [[? ?]|]; eexists; reflexivity.
      + assert (Hun : forall k fs', ~ (exists pkg n, KStruct None fs = KStruct (Some (pkg, n)) fs' /\ k = structKey pkg n)) by (intros k fs' (? & ? & [=] & _)).
        destruct (fields_end m None [] fs) with (st := st) (props := @nil (bytes * schema)) (descs := @nil bytes) as (n' & [r st2] & E); auto.
        { intros f Hf. apply (Hpart Hun). now apply in_map. }
        exists n'. rewrite E. destruct r as [[? ?]|]; eexists; reflexivity.
  Qed.
End Term.

(* A type that is a pointer to, or a list of, such a type is never done. *)
Lemma diverges env parse_float (P : tid -> Prop) :
  (forall t, P t -> exists e, P e /\ (t_kind (env t) = KPtr e \/ (t_kind (env t) = KSeq e /\ plain env t))) ->
  forall n t st d e, P t -> schemaFromType env parse_float n st t d e = None.
Proof.
  intros HP. assert (Hd : forall n t u, P t -> deref env n t = Some u -> P u).
  { induction n as [|n IH]; intros t u Ht E; cbn [deref] in E; destruct (HP t Ht) as (e & He & [K|(K & _)]); rewrite K in E; try discriminate; try (injection E as <-; auto). eauto. }
  induction n as [|n IH]; intros t st d e Ht; [reflexivity|]. destruct (schemaFromType env parse_float (S n) st t d e) as [x|] eqn:E; [|reflexivity].
  exfalso. assert (E' := E). apply sft_step in E as (u & Ed & Hx). pose proof (Hd _ _ _ Ht Ed) as Hu.
  destruct (HP u Hu) as (e0 & He & [K|(K & Hpl)]); [exact (deref_plain _ _ _ _ Ed _ K)|].
  remember (S n) as n1 eqn:En. assert (E2 := E'). rewrite En in E2. cbn [schemaFromType] in E2. rewrite <- En, Ed in E2. unfold ofKind in E2. rewrite K, (IH e0 st [] [] He) in E2. unfold plain in Hpl.
  destruct (t_special (env u)) as [| | |[| |j]|]; try contradiction; try discriminate.
  assert (Ej : byJson env parse_float t d e j = None) by (apply byJson_none; destruct j as [|c j]; [contradiction|eauto]). rewrite Ej in E2. discriminate.
Qed.
