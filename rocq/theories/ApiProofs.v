(* Proofs about api.Handler. *)
From Coq Require Import Bool Ascii String Arith NArith ZArith Lia List Permutation.
From Verif Require Import Prelude PreludeFacts Utf8Model Utf8Facts DecModel DecFacts DurModel DurProofs EncModel JsonModel KvSpec JsonSpec JsonFacts KvProofs JsonProofs MarModel MarSpec MarFacts MarProofs MarStruct MarOrder ConfModel ConfSpec ConfProofs ApiModel ApiSpec ApiMar.
Import ListNotations.

(* ---- tags ---- *)
Definition has (w : bytes) (l : list bytes) : bool := existsb (fun x => beqb x w) l.
Lemma has_in w l : has w l = true <-> In w l.
Proof.
  unfold has. rewrite existsb_exists. split.
  - intros (x & Hi & E). apply beqb_eq in E. now subst.
  - intros H. exists w. split; auto. apply beqb_refl.
Qed.
Definition allowed : list bytes := [B "in"; B "out"; B "both"; B "required"; B "auth"; B ""].
Lemma api_words_spec l : forall t t', api_words t l = Some t' <->
  (forall w, In w l -> In w allowed) /\
  t' = ATag (t_name t) (t_auth t || has (B "auth") l) (t_in t || (has (B "in") l || has (B "both") l)) (t_out t || (has (B "out") l || has (B "both") l))
    (t_required t || has (B "required") l) (t_url t).
Proof.
  induction l as [|w l IH]; intros t t'; cbn [api_words].
  - cbn. destruct t as [a b c d e f]. cbn. rewrite !orb_false_r. split; [intros H; injection H as <-; split; auto; contradiction|intros [_ ->]; reflexivity].
  - assert (Hall : forall P : Prop, In w allowed -> ((forall x, In x l -> In x allowed) /\ P <-> (forall x, In x (w :: l) -> In x allowed) /\ P)).
    { intros P Hw. split; intros [H1 H2]; split; auto.
      - intros x [<-|Hx]; auto.
      - intros x Hx. apply H1. now right. }
    assert (Heq : forall (a b : atag), a = b -> (t' = a <-> t' = b)) by (intros a b ->; tauto).
    unfold has. cbn [existsb]. fold (has (B "auth") l) (has (B "in") l) (has (B "both") l) (has (B "out") l) (has (B "required") l).
    repeat match goal with |- context [if beqb w ?x then _ else _] => destruct (beqb w x) eqn:? end;
      try (match goal with H : beqb w ?x = true |- _ => apply beqb_eq in H; subst w end;
           rewrite IH; rewrite Hall by (unfold allowed; cbn [In]; tauto); cbn [t_name t_auth t_in t_out t_required t_url];
           apply and_iff_compat_l; apply Heq; f_equal; cbn; rewrite ?orb_true_r, ?orb_false_r; cbn; rewrite ?orb_true_r, ?orb_false_r; auto; fail).
    split; [discriminate|]. intros [H _]. specialize (H w (or_introl eq_refl)). unfold allowed in H. cbn [In] in H.
    repeat match goal with H : beqb w ?x = false |- _ => apply (eqb_false_ne beqb beqb_ok) in H end.
    exfalso. change (B "") with (@nil ascii) in H. intuition congruence.
Qed.
Lemma word_iff f w : word f w <-> In w (split_at 44 (a_api f)).
Proof.
  unfold word. split.
  - intros (l & H & Hi). apply split_iff in H. now subst.
  - intros H. exists (split_at 44 (a_api f)). split; auto. now apply split_iff.
Qed.
Lemma cut_comma_iff s p : up_to_comma s p <-> p = fst (cut_comma s).
Proof.
  revert p. induction s as [|c s IH]; intros p; cbn [cut_comma].
  - split; [intros [_ [->|(r & E)]]; auto; destruct p; discriminate|intros ->; split; [constructor|now left]].
  - destruct (N.eqb_spec (code c) 44) as [E|E]; cbn [fst].
    + assert (Ec : c = chr 44) by (apply code_inj; rewrite E; reflexivity). split.
      * intros [Hw [<-|(r & Hr)]]; [inversion Hw; contradiction|]. destruct p as [|c' p]; auto. injection Hr as <- Hr. inversion Hw. contradiction.
      * intros ->. split; [constructor|]. right. exists s. rewrite Ec. reflexivity.
    + destruct (cut_comma s) as [a b]. cbn [fst] in *. split.
      * intros [Hw H]. destruct p as [|c' p].
        -- destruct H as [H|(r & H)]; [discriminate|]. exfalso. apply E. injection H as -> _. reflexivity.
        -- inversion Hw; subst. assert (Hp : p = a).
           { apply IH. split; auto. destruct H as [H|(r & H)]; injection H as _ H; [left; exact H|right; exists r; exact H]. }
           subst. f_equal. destruct H as [H|(r & H)]; injection H as H _; symmetry; exact H.
      * intros ->. destruct (proj2 (IH a) eq_refl) as [Hw H]. split; [constructor; auto|]. destruct H as [->|(r & ->)]; [now left|right; exists r; reflexivity].
Qed.
Lemma wire_iff f name : wire f name <-> name = tagName f.
Proof.
  unfold wire, tagName. split.
  - intros (p & Hp & ->). apply cut_comma_iff in Hp. subst p. destruct (a_enc f); [destruct (a_json f)|]; auto.
  - intros ->. exists (fst (cut_comma (match a_enc f with [] => a_json f | e => e end))). split; [now apply cut_comma_iff|].
    destruct (a_enc f); [destruct (a_json f)|]; auto.
Qed.
Definition bin f := let l := split_at 44 (a_api f) in has (B "in") l || has (B "both") l.
Definition bout f := let l := split_at 44 (a_api f) in has (B "out") l || has (B "both") l.
Definition bauth f := has (B "auth") (split_at 44 (a_api f)).
Definition breq f := has (B "required") (split_at 44 (a_api f)).
Lemma bin_iff f : bin f = true <-> is_in f.
Proof. unfold bin, is_in. rewrite orb_true_iff, !has_in, <- !word_iff. tauto. Qed.
Lemma bout_iff f : bout f = true <-> is_out f.
Proof. unfold bout, is_out. rewrite orb_true_iff, !has_in, <- !word_iff. tauto. Qed.
Lemma bauth_iff f : bauth f = true <-> is_auth f.
Proof. unfold bauth, is_auth. rewrite !has_in, <- !word_iff. tauto. Qed.
Lemma breq_iff f : breq f = true <-> is_required f.
Proof. unfold breq, is_required. rewrite !has_in, <- !word_iff. tauto. Qed.
Definition burl f := match a_url f with Some _ => true | None => false end.
Definition the_tag f := ATag (tagName f) (bauth f) (bin f) (bout f) (breq f) (burl f).
Lemma parseTags_iff f t : parseTags f = Some t <-> tag_ok f /\ t = the_tag f.
Proof.
  unfold parseTags, tag_ok, the_tag, burl. assert (Hw : (forall w, word f w -> In w allowed) <-> forall w, In w (split_at 44 (a_api f)) -> In w allowed).
  { split; intros H w Hi; apply H; now apply word_iff. }
  change [B "in"; B "out"; B "both"; B "required"; B "auth"; B ""] with allowed. rewrite Hw.
  destruct (a_url f) as [[]|]; [|split; [discriminate|intros [[_ E] _]; congruence]|]; rewrite api_words_spec; cbn [t_name t_auth t_in t_out t_required t_url];
    rewrite !orb_false_l; intuition congruence.
Qed.
Definition bkept f := negb (bin f) && negb (bout f) && negb (burl f).
Lemma bkept_iff f : bkept f = true <-> kept f.
Proof.
  unfold bkept, kept. rewrite !andb_true_iff, !negb_true_iff, <- bin_iff, <- bout_iff. unfold burl. destruct (bin f), (bout f), (a_url f); intuition congruence.
Qed.

(* ---- zero values ---- *)
Lemma is_zero_iff t : forall v, hasty t v -> (is_zero t v = true <-> v = zero t).
Proof.
  induction t as [ | w | w | | t IH | t IH | k t IH | k t IH | fs IH] using ty_nest; intros v Hv; destruct v; cbn [hasty is_zero zero] in *; try contradiction;
    try (split; intros; auto; discriminate).
  - destruct b; cbn; split; auto; discriminate.
  - rewrite Z.eqb_eq. split; [now intros ->|intros E; now injection E].
  - rewrite Z.eqb_eq. split; [now intros ->|intros E; now injection E].
  - destruct s; split; auto; discriminate.
  - destruct Hv as [<- Hv]. rewrite forallb_forall. rewrite Forall_forall in Hv. split.
    + intros H. f_equal. clear -H IH Hv. induction l as [|x l IHl]; cbn; auto. f_equal.
      * apply IH; [apply Hv; now left|apply H; now left].
      * apply IHl; intros y Hy; [apply Hv|apply H]; now right.
    + intros E x Hx. apply IH; auto. injection E as E. rewrite E in Hx. now apply repeat_spec in Hx.
  - revert l Hv. induction fs as [|[f t] fs IHf]; intros [|v l] Hv; cbn [fieldwise map snd] in *; try contradiction; [tauto|].
    destruct Hv as [H1 H2]. rewrite andb_true_iff, (IH f t (or_introl eq_refl) v H1).
    assert (IHf' := IHf (fun f0 t0 Hi => IH f0 t0 (or_intror Hi)) l H2). rewrite IHf'. split.
    + intros [-> E]. injection E as ->. reflexivity.
    + intros E. injection E as -> ->. auto.
Qed.
Lemma is_zero_false t v : hasty t v -> (is_zero t v = false <-> v <> zero t).
Proof. intros H. rewrite <- (is_zero_iff t v H). destruct (is_zero t v); split; congruence. Qed.

(* ---- NewHandler ---- *)
Definition idx {A} (i : nat) (fs : list A) : list (nat * A) := combine (seq i (length fs)) fs.
Lemma idx_in {A} (fs : list A) : forall i k f, In (k, f) (idx i fs) <-> i <= k /\ nth_error fs (k - i) = Some f.
Proof.
  unfold idx. induction fs as [|g fs IH]; intros i k f; cbn [length seq combine In].
  - split; [contradiction|]. intros [_ H]. destruct (k - i); discriminate.
  - rewrite IH. split.
    + intros [E|[H1 H2]]; [injection E as -> ->; rewrite Nat.sub_diag; auto|]. split; [lia|]. replace (k - i) with (S (k - S i)) by lia. exact H2.
    + intros [H1 H2]. destruct (Nat.eq_dec k i) as [->|Hne]; [rewrite Nat.sub_diag in H2; injection H2 as ->; auto|].
      right. split; [lia|]. replace (k - i) with (S (k - S i)) in H2 by lia. exact H2.
Qed.
Lemma idx0_in {A} (fs : list A) k f : In (k, f) (idx 0 fs) <-> nth_error fs k = Some f.
Proof. rewrite idx_in, Nat.sub_0_r. intuition lia. Qed.
Lemma idx_nodup {A} (fs : list A) i : NoDup (map fst (idx i fs)).
Proof.
  unfold idx. revert i. induction fs as [|f fs IH]; intros i; cbn [length seq combine map fst]; constructor; auto.
  intros H. apply in_map_iff in H as ([k g] & E & Hi). cbn in E. subst k. apply (idx_in fs (S i) i g) in Hi. lia.
Qed.
Definition ins_of (x : nat * afld) : list (nat * bytes * bool) := if bin (snd x) then [(fst x, tagName (snd x), breq (snd x))] else [].
Definition outs_of (x : nat * afld) : list (nat * bytes) := if bout (snd x) then [(fst x, tagName (snd x))] else [].
Definition auth_of (x : nat * afld) : list (nat * bool) := if bauth (snd x) then [(fst x, breq (snd x))] else [].
Fixpoint inits_of (i : nat) (fs : list afld) (vs : list val) : list (nat * val) :=
  match fs, vs with
  | f :: fs', v :: vs' => (if bkept f && negb (is_zero (a_type f) v) then [(i, v)] else []) ++ inits_of (S i) fs' vs'
  | _, _ => []
  end.
Lemma handler_fields_iff fs : forall h i vs h', length vs = length fs -> (handler_fields h i fs vs = Some h' <->
  (forall f, In f fs -> tag_ok f) /\
  length (match h_auth h with Some a => [a] | None => [] end ++ flat_map auth_of (idx i fs)) <= 1 /\
  h' = Handler (h_fields h) (hd_error (match h_auth h with Some a => [a] | None => [] end ++ flat_map auth_of (idx i fs))) (h_init h ++ inits_of i fs vs)
     (h_in h ++ flat_map ins_of (idx i fs)) (h_out h ++ flat_map outs_of (idx i fs))).
Proof.
  induction fs as [|f fs IH]; intros h i [|v vs] h' Hl; cbn in Hl; try discriminate; unfold idx; cbn [handler_fields length seq combine flat_map inits_of].
  - rewrite !app_nil_r. destruct h as [a [b|] c d e]; cbn; (split; [intros H; injection H as <-; repeat split; auto; contradiction|intros (_ & _ & ->); reflexivity]).
  - injection Hl as Hl. fold (idx (S i) fs). destruct (parseTags f) as [t|] eqn:E.
    + apply parseTags_iff in E as [Hok ->]. cbn [the_tag t_auth t_in t_out t_required t_url t_name].
      assert (Hall : forall P : Prop, (forall g, In g fs -> tag_ok g) /\ P <-> (forall g, In g (f :: fs) -> tag_ok g) /\ P).
      { intros P. split; intros [H1 H2]; split; auto; intros g Hg; [destruct Hg as [<-|Hg]; auto|apply H1; now right]. }
      change (ins_of (i, f)) with (if bin f then [(i, tagName f, breq f)] else []). change (outs_of (i, f)) with (if bout f then [(i, tagName f)] else []).
      change (auth_of (i, f)) with (if bauth f then [(i, breq f)] else []).
      assert (Hk : forall x, negb (bin f) && negb (bout f) && negb (burl f) && x = bkept f && x) by reflexivity.
      destruct (bauth f) eqn:Ea.
      * destruct (h_auth h) as [a|] eqn:Eh.
        -- split; [discriminate|]. intros (_ & H & _). cbn in H. lia.
        -- rewrite IH by exact Hl. cbn [h_fields h_auth h_init h_in h_out]. rewrite Hall. rewrite Hk. cbn [app].
           destruct (bkept f && negb (is_zero (a_type f) v)), (bin f), (bout f); cbn [app]; rewrite <- ?app_assoc; cbn [app]; tauto.
      * replace (match h_auth h with Some _ => _ | None => _ end) with (handler_fields (Handler (h_fields h) (h_auth h)
          (if negb (bin f) && negb (bout f) && negb (burl f) && negb (is_zero (a_type f) v) then h_init h ++ [(i, v)] else h_init h)
          (if bin f then h_in h ++ [(i, tagName f, breq f)] else h_in h) (if bout f then h_out h ++ [(i, tagName f)] else h_out h)) (S i) fs vs) by (destruct (h_auth h); reflexivity).
        rewrite IH by exact Hl. cbn [h_fields h_auth h_init h_in h_out]. rewrite Hall. rewrite Hk. cbn [app].
        destruct (bkept f && negb (is_zero (a_type f) v)), (bin f), (bout f); cbn [app]; rewrite <- ?app_assoc; cbn [app]; tauto.
    + split; [discriminate|]. intros (H & _). exfalso. specialize (H f (or_introl eq_refl)). assert (X : parseTags f = Some (the_tag f)) by (apply parseTags_iff; auto). congruence.
Qed.

Definition made (fs : list afld) (vs : list val) : handler :=
  Handler fs (hd_error (flat_map auth_of (idx 0 fs))) (inits_of 0 fs vs) (flat_map ins_of (idx 0 fs)) (flat_map outs_of (idx 0 fs)).
Definition one_auth (fs : list afld) : Prop :=
  forall i j f g, nth_error fs i = Some f -> nth_error fs j = Some g -> is_auth f -> is_auth g -> i = j.
Lemma auth_in fs i r : In (i, r) (flat_map auth_of (idx 0 fs)) <-> exists f, nth_error fs i = Some f /\ is_auth f /\ r = breq f.
Proof.
  rewrite in_flat_map. split.
  - intros ([k f] & H1 & H2). unfold auth_of in H2. cbn [fst snd] in H2. destruct (bauth f) eqn:E; [|destruct H2]. destruct H2 as [H2|[]]. injection H2 as -> <-.
    exists f. apply idx0_in in H1. apply bauth_iff in E. auto.
  - intros (f & H1 & H2 & ->). exists (i, f). split; [now apply idx0_in|]. unfold auth_of. cbn [fst snd]. apply bauth_iff in H2. rewrite H2. now left.
Qed.
Lemma idx_auth_len fs : length (flat_map auth_of (idx 0 fs)) <= 1 <-> one_auth fs.
Proof.
  assert (Hnd : NoDup (map fst (flat_map auth_of (idx 0 fs)))).
  { generalize (idx_nodup fs 0). generalize (idx 0 fs). intros l. induction l as [|[k f] l IH]; cbn [flat_map map fst]; intros H; [constructor|].
    inversion H; subst. unfold auth_of at 1. cbn [fst snd]. destruct (bauth f); cbn [app map fst]; auto. constructor; auto.
    intros Hi. apply in_map_iff in Hi as ([k' r] & E & Hi). cbn in E. subst k'. apply in_flat_map in Hi as ([k' g] & H4 & H5). unfold auth_of in H5. cbn [fst snd] in H5.
    destruct (bauth g); [|destruct H5]. destruct H5 as [H5|[]]. injection H5 as -> _. apply H2. apply in_map_iff. exists (k, g). auto. }
  split.
  - intros Hl i j f g Hf Hg Af Ag. assert (Hi : In (i, breq f) (flat_map auth_of (idx 0 fs))) by (apply auth_in; eauto).
    assert (Hj : In (j, breq g) (flat_map auth_of (idx 0 fs))) by (apply auth_in; eauto).
    destruct (flat_map auth_of (idx 0 fs)) as [|a [|b l]]; cbn in Hl; [destruct Hi| |lia]. destruct Hi as [Hi|[]], Hj as [Hj|[]]. congruence.
  - intros H. destruct (flat_map auth_of (idx 0 fs)) as [|[i r] [|[j r'] l]] eqn:E; cbn; try lia. exfalso.
    destruct (proj1 (auth_in fs i r)) as (f & F1 & F2 & _); [rewrite E; now left|]. destruct (proj1 (auth_in fs j r')) as (g & G1 & G2 & _); [rewrite E; right; now left|].
    assert (i = j) by eauto. subst j. cbn in Hnd. inversion Hnd as [|? ? Hn _]. apply Hn. now left.
Qed.
Lemma NewHandler_iff fs vs h : length vs = length fs -> (NewHandler fs (Some vs) = Some h <-> (forall f, In f fs -> tag_ok f) /\ one_auth fs /\ h = made fs vs).
Proof.
  intros Hl. unfold NewHandler. rewrite handler_fields_iff by exact Hl. cbn [h_auth h_fields h_init h_in h_out app]. rewrite idx_auth_len. unfold made. tauto.
Qed.
Lemma NewHandler_nil fs : NewHandler fs None = NewHandler fs (Some (fresh fs)).
Proof. reflexivity. Qed.

(* the parts of the handler *)
Lemma ins_in fs i name r : In (i, name, r) (flat_map ins_of (idx 0 fs)) <-> exists f, nth_error fs i = Some f /\ is_in f /\ wire f name /\ r = breq f.
Proof.
  rewrite in_flat_map. split.
  - intros ([k f] & H1 & H2). unfold ins_of in H2. cbn [fst snd] in H2. destruct (bin f) eqn:E; [|destruct H2]. destruct H2 as [H2|[]]. injection H2 as -> <- <-.
    exists f. apply idx0_in in H1. apply bin_iff in E. repeat split; auto. now apply wire_iff.
  - intros (f & H1 & H2 & H3 & ->). exists (i, f). split; [now apply idx0_in|]. unfold ins_of. cbn [fst snd]. apply bin_iff in H2. rewrite H2. apply wire_iff in H3. subst. now left.
Qed.
Lemma outs_in fs i name : In (i, name) (flat_map outs_of (idx 0 fs)) <-> exists f, nth_error fs i = Some f /\ is_out f /\ wire f name.
Proof.
  rewrite in_flat_map. split.
  - intros ([k f] & H1 & H2). unfold outs_of in H2. cbn [fst snd] in H2. destruct (bout f) eqn:E; [|destruct H2]. destruct H2 as [H2|[]]. injection H2 as -> <-.
    exists f. apply idx0_in in H1. apply bout_iff in E. repeat split; auto. now apply wire_iff.
  - intros (f & H1 & H2 & H3). exists (i, f). split; [now apply idx0_in|]. unfold outs_of. cbn [fst snd]. apply bout_iff in H2. rewrite H2. apply wire_iff in H3. subst. now left.
Qed.
Lemma flat_nodup {X} (g : nat * afld -> list X) (k : X -> nat) : (forall x, g x = [] \/ exists y, g x = [y] /\ k y = fst x) -> forall l, NoDup (map fst l) -> NoDup (map k (flat_map g l)).
Proof.
  intros Hg. induction l as [|x l IH]; cbn [map flat_map]; intros H; [constructor|]. inversion H; subst.
  destruct (Hg x) as [->|(y & -> & Ey)]; cbn [app map]; auto. constructor; auto. rewrite Ey. intros Hi. apply H2.
  apply in_map_iff in Hi as (z & E & Hz). apply in_flat_map in Hz as (x' & H4 & H5). destruct (Hg x') as [E'|(y' & E' & Ey')]; rewrite E' in H5; [destruct H5|].
  destruct H5 as [<-|[]]. rewrite <- E, Ey'. now apply in_map.
Qed.
Lemma ins_nodup fs : NoDup (map (fun x => fst (fst x)) (flat_map ins_of (idx 0 fs))).
Proof. apply flat_nodup; [|apply idx_nodup]. intros [k f]. unfold ins_of. cbn. destruct (bin f); eauto. Qed.
Lemma outs_nodup fs : NoDup (map fst (flat_map outs_of (idx 0 fs))).
Proof. apply flat_nodup; [|apply idx_nodup]. intros [k f]. unfold outs_of. cbn. destruct (bout f); eauto. Qed.
Lemma inits_in fs : forall vs i k v, In (k, v) (inits_of i fs vs) <-> i <= k /\ exists f, nth_error fs (k - i) = Some f /\ nth_error vs (k - i) = Some v /\ kept f /\ is_zero (a_type f) v = false.
Proof.
  induction fs as [|f fs IH]; intros [|v0 vs] i k v; cbn [inits_of]; try (split; [contradiction|]; intros (_ & g & H1 & H2 & _); destruct (k - i); discriminate).
  rewrite in_app_iff, IH. split.
  - intros [H|(H1 & g & H2 & H3 & H4)].
    + destruct (bkept f && negb (is_zero (a_type f) v0)) eqn:E; [|destruct H]. destruct H as [H|[]]. injection H as -> ->. apply andb_true_iff in E as [E1 E2].
      split; auto. exists f. rewrite Nat.sub_diag. cbn. apply bkept_iff in E1. apply negb_true_iff in E2. auto.
    + split; [lia|]. exists g. replace (k - i) with (S (k - S i)) by lia. auto.
  - intros (H1 & g & H2 & H3 & H4 & H5). destruct (Nat.eq_dec k i) as [->|Hne].
    + rewrite Nat.sub_diag in H2, H3. cbn in H2, H3. injection H2 as ->. injection H3 as ->. left. apply bkept_iff in H4. rewrite H4, H5. now left.
    + right. split; [lia|]. exists g. replace (k - i) with (S (k - S i)) in H2, H3 by lia. auto.
Qed.
Lemma inits_nodup fs : forall vs i, NoDup (map fst (inits_of i fs vs)).
Proof.
  induction fs as [|f fs IH]; intros [|v vs] i; cbn [inits_of]; try constructor. rewrite map_app.
  destruct (bkept f && negb (is_zero (a_type f) v)); cbn [map app fst]; auto. constructor; auto. intros Hi. apply in_map_iff in Hi as ([k w] & E & Hi). cbn in E. subst k.
  apply inits_in in Hi as [Hi _]. lia.
Qed.
