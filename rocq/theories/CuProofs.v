From Coq Require Import Bool Ascii String Arith NArith ZArith Lia List Sorted Permutation.
From Verif Require Import Prelude PreludeFacts Utf8Model DecModel DurModel DurProofs EncModel JsonModel JsonSpec MarModel MarSpec MarFacts MarProofs CuModel CuSpec.
Import ListNotations.

Lemma cty_nest (P : cty -> Prop) : P CBool -> P CInt -> P CStr -> (forall t, P t -> P (CPtr t)) -> (forall t, P t -> P (CSlice t)) -> (forall t, P t -> P (CMap t)) ->
  (forall fs, (forall f t, In (f, t) fs -> P t) -> P (CStruct fs)) -> (forall id u, P u -> P (CNamed id u)) -> forall t, P t.
Proof.
  intros H1 H2 H3 H4 H5 H6 H7 H8. fix IH 1. intros t. destruct t as [ | | | t | t | t | fs | id u]; [exact H1|exact H2|exact H3|apply H4, IH|apply H5, IH|apply H6, IH| |apply H8, IH].
  apply H7. induction fs as [|[f t] fs IHf]; intros f' t' Hi; [destruct Hi|]. destruct Hi as [Hi|Hi]; [|apply (IHf _ _ Hi)].
  pose proof (IH t) as Ht. apply (f_equal snd) in Hi. cbn in Hi. rewrite <- Hi. exact Ht.
Qed.
Lemma blank_empty n : is_empty n = true <-> blank_node n.
Proof.
  unfold blank_node. destruct n as [ |b|z|f|d|s|t|d|l|l|l]; cbn [is_empty]; (split; intros H).
  all: try discriminate H; try reflexivity; try (destruct H as [H|[H|[H|[H|(g & H & _)]]]]; discriminate H); auto.
  - apply Z.eqb_eq in H. subst. auto.
  - destruct H as [H|[H|[H|[H|(g & H & _)]]]]; try discriminate. injection H as ->. reflexivity.
  - right; right; right; right. exists f. split; [reflexivity|]. apply orb_true_iff in H. destruct H as [H|H]; apply beqb_eq in H; auto.
  - destruct H as [H|[H|[H|[H|(g & H & K)]]]]; try discriminate. injection H as <-. apply orb_true_iff. destruct K as [K|K]; rewrite K; [left|right]; reflexivity.
  - destruct d; [|discriminate]. auto.
  - destruct H as [H|[H|[H|[H|(g & H & _)]]]]; try discriminate. injection H as ->. reflexivity.
  - destruct s; [|discriminate]. auto.
  - destruct H as [H|[H|[H|[H|(g & H & _)]]]]; try discriminate. injection H as ->. reflexivity.
Qed.

Section P.
  Context (decls : nat -> decl) (run_node run_json : nat -> option val -> mout node) (run_unode run_ujson : nat -> node -> val -> ures) (f2i f2u : floatv -> Z).
  Notation writer := (writer decls run_node run_json).
  Notation plain := (plain_type decls).
  Notation by_method := (by_method decls run_node run_json).
  Notation cmar := (cmar decls run_node run_json).
  Notation cunm := (cunm decls run_unode run_ujson f2i f2u).
  Notation Writes := (Writes decls run_node run_json).
  Notation Fields := (Fields decls run_node run_json).
  Notation by_value := (by_value decls run_node run_json).
  Notation no_nil := (no_nil decls run_node run_json).
  Notation reader := (reader decls run_unode run_ujson).
  Notation comes_back := (comes_back decls run_node run_json run_unode run_ujson).

  Lemma writer_cases : forall id, (exists r f, writer id r f) \/ plain id.
  Proof.
    intros id. unfold plain_type. destruct (d_node (decls id)) as [r|] eqn:E; [left; exists r, (run_node id); constructor; exact E|].
    destruct (d_json (decls id)) as [r|] eqn:J; [left; exists r, (run_json id); apply writes_json; auto|auto].
  Qed.
  Lemma writer_plain : forall id r f, writer id r f -> plain id -> False.
  Proof. intros id r f H [P1 P2]. destruct H; congruence. Qed.
  Lemma writer_one : forall id r f r' f', writer id r f -> writer id r' f' -> r = r' /\ f = f'.
  Proof. intros id r f r' f' H H'. destruct H, H'; split; congruence. Qed.
  Lemma method_ptr : forall id u r f v, writer id r f -> by_method (CPtr (CNamed id u)) v = Some (through r f v).
  Proof. intros id u r f v H. cbn [CuModel.by_method]. destruct H as [r H|r H1 H2]; [rewrite H; reflexivity|rewrite H1, H2; reflexivity]. Qed.
  Lemma method_val : forall id u f v, writer id ByVal f -> by_method (CNamed id u) v = Some (f (Some v)).
  Proof. intros id u f v H. cbn [CuModel.by_method]. inversion H as [r H1|r H1 H2]; subst; [rewrite H1; reflexivity|rewrite H1, H2; reflexivity]. Qed.
  Lemma method_none : forall id u v, plain id -> by_method (CNamed id u) v = None /\ by_method (CPtr (CNamed id u)) v = None.
  Proof. intros id u v [P1 P2]. cbn [CuModel.by_method]. rewrite P1, P2. auto. Qed.
  Lemma method_other : forall t v, (forall id u, t <> CNamed id u) -> by_method (CPtr t) v = None.
  Proof. intros t v H. destruct t; try reflexivity. destruct (H id t eq_refl). Qed.
  Lemma cmar_named : forall id u v, cmar (CNamed id u) v = match by_method (CNamed id u) v with Some r => r | None => cmar u v end.
  Proof. intros. cbn [CuModel.cmar]. reflexivity. Qed.
  Lemma cmar_ptr : forall t v, cmar (CPtr t) v = match by_method (CPtr t) v with Some r => r | None => match v with VNil => MOk NNil | VPtr w => cmar t w | _ => MPanic end end.
  Proof. intros. cbn [CuModel.cmar]. destruct (by_method (CPtr t) v); [reflexivity|]. destruct v; reflexivity. Qed.
  Lemma cmar_struct : forall fs vs, cmar (CStruct fs) (VStruct vs) = mbind (cmar_fields (map (fun f => (fst f, cmar (snd f))) fs) vs) (fun ps => MOk (NPairs ps)).
  Proof. reflexivity. Qed.

  Lemma elems_inv : forall f l ns, cmar_elems f l = MOk ns -> Forall2 (fun v n => f v = MOk n) l ns.
  Proof.
    intros f. induction l as [|v l IH]; intros ns H; cbn [cmar_elems] in H; [injection H as <-; constructor|]. destruct (f v) eqn:E; try discriminate. cbn [mbind] in H.
    destruct (cmar_elems f l) eqn:E2; try discriminate. cbn [mbind] in H. injection H as <-. constructor; [exact E|apply IH; reflexivity].
  Qed.
  Lemma elems_ok : forall f l ns, Forall2 (fun v n => f v = MOk n) l ns -> cmar_elems f l = MOk ns.
  Proof. intros f l ns H. induction H as [|v n l ns H _ IH]; [reflexivity|]. cbn [cmar_elems]. rewrite H. cbn [mbind]. rewrite IH. reflexivity. Qed.
  Lemma entries_inv : forall f l acc m, NoDup (map fst acc ++ map (fun e => ktext KTStr (fst e)) l) -> cmar_entries f acc l = MOk m ->
    exists m', m = acc ++ m' /\ Forall2 (fun e x => ktext KTStr (fst e) = fst x /\ f (snd e) = MOk (snd x)) l m'.
  Proof.
    intros f. induction l as [|[x v] l IH]; intros acc m N H; cbn [cmar_entries] in H; [injection H as <-; exists []; rewrite app_nil_r; split; [reflexivity|constructor]|].
    destruct (f v) eqn:E; try discriminate. cbn [mbind] in H. cbn [map fst] in N. rewrite mset_fresh in H.
    2:{ intros Hi. apply NoDup_remove_2 in N. apply N. apply in_or_app. auto. }
    destruct (IH (acc ++ [(ktext KTStr x, a)]) m) as (m' & -> & F); [rewrite map_app; cbn; rewrite <- app_assoc; exact N|exact H|].
    exists ((ktext KTStr x, a) :: m'). rewrite <- app_assoc. split; [reflexivity|]. constructor; auto.
  Qed.
  Lemma entries_ok : forall f l acc m, NoDup (map fst acc ++ map (fun e => ktext KTStr (fst e)) l) ->
    Forall2 (fun e x => ktext KTStr (fst e) = fst x /\ f (snd e) = MOk (snd x)) l m -> cmar_entries f acc l = MOk (acc ++ m).
  Proof.
    intros f l acc m N H. revert acc N. induction H as [|[x v] [k n] l m [H1 H2] _ IH]; intros acc N; cbn [cmar_entries map fst snd] in *; [rewrite app_nil_r; reflexivity|].
    rewrite H2. cbn [mbind]. rewrite mset_fresh. 2:{ intros Hi. apply NoDup_remove_2 in N. apply N. apply in_or_app. auto. }
    rewrite IH; [rewrite <- app_assoc, H1; reflexivity|]. rewrite map_app. cbn. rewrite <- app_assoc. exact N.
  Qed.
  Lemma chas_keys : forall t l, chas (CMap t) (VMap l) -> NoDup (map (fun e => ktext KTStr (fst e)) l).
  Proof.
    intros t l [S1 F]. apply ktexts_nodup; [apply sorted_nodup; exact S1|]. apply Forall_forall. intros e J. rewrite Forall_forall in F. exact (proj1 (F e J)).
  Qed.
  Lemma chas_key : forall t l e, chas (CMap t) (VMap l) -> In e l -> exists s, fst e = KStr s /\ ktext KTStr (fst e) = s /\ chas t (snd e).
  Proof. intros t l e [_ F] J. rewrite Forall_forall in F. destruct (F e J) as [K H]. destruct (fst e) as [s|z]; [|destruct K]. exists s. auto. Qed.

  Lemma F2_in : forall A C (R : A -> C -> Prop) (S' : A -> C -> Prop) l m, (forall a c, In a l -> R a c -> S' a c) -> Forall2 R l m -> Forall2 S' l m.
  Proof. intros A C R S' l m H F. induction F as [|a c l m Ha _ IH]; constructor; [apply H; [left; reflexivity|exact Ha]|apply IH; intros x y J; apply H; right; exact J]. Qed.

  (* soundness and completeness *)
  Lemma both : forall t v n, chas t v -> by_value t -> (cmar t v = MOk n -> no_nil t v -> Writes t v n) /\ (Writes t v n -> no_nil t v -> cmar t v = MOk n).
  Proof.
    induction t as [ | | | t IH | t IH | t IH | fs IH | id u IH] using cty_nest; intros v n HT BV.
    - destruct v; try contradiction. split; [intros H _; injection H as <-; constructor|intros H _; inversion H; reflexivity].
    - destruct v; try contradiction. split; [intros H _; injection H as <-; constructor|intros H _; inversion H; reflexivity].
    - destruct v; try contradiction. split; [intros H _; injection H as <-; constructor|intros H _; inversion H; reflexivity].
    - assert (D : (exists id u r f, t = CNamed id u /\ writer id r f) \/ ((forall id u, t = CNamed id u -> plain id) /\ (forall v, by_method (CPtr t) v = None) /\ by_value t)).
      { destruct t as [ | | | t | t | t | fs | id u]; try (right; split; [discriminate|split; [reflexivity|exact BV]]).
        destruct (writer_cases id) as [(r & f & W)|P]; [left; exists id, u, r, f; auto|]. right. split; [intros id' u' E; injection E as <- <-; exact P|]. split; [intros v'; apply (method_none id u v' P)|].
        cbn [CuSpec.by_value] in BV |- *. split; [intros r f W; destruct (writer_plain id r f W P)|exact BV]. }
      rewrite cmar_ptr. destruct D as [(id & u & r & f & -> & W)|(PL & M & BV')].
      + rewrite (method_ptr id u r f v W). destruct v as [ | | | |v| | | ]; try contradiction.
        * split; intros H NN.
          -- destruct r; cbn [through] in H; [discriminate|]. apply (w_nil_method _ _ _ id u f n W H).
          -- inversion H as [| | | | |t' Q E1 E2 E3|id' u' f' n' W' H' E1 E2| | | | | | ]; subst.
             ++ specialize (Q id u r f eq_refl W). subst r. cbn [CuSpec.no_nil] in NN. destruct (NN f W).
             ++ destruct (writer_one _ _ _ _ _ W W') as [-> ->]. exact H'.
        * split; intros H NN.
          -- cbn [through] in H. apply w_ptr. apply (w_method _ _ _ id u v r f n W H).
          -- cbn [through]. inversion H as [| | | | | | |t' v' n' H' E1 E2 E3| | | | | ]; subst. inversion H' as [| | |id' u' w' r' f' n' W' R E1 E2 E3|id' u' w' n' P' H2 E1 E2 E3| | | | | | | | ]; subst.
             ++ destruct (writer_one _ _ _ _ _ W W') as [_ ->]. exact R.
             ++ destruct (writer_plain _ _ _ W P').
      + rewrite M. destruct v as [ | | | |v| | | ]; try contradiction.
        * split; intros H NN.
          -- injection H as <-. apply w_nil. intros id u r f E W. destruct (writer_plain id r f W (PL id u E)).
          -- inversion H as [| | | | |t' Q E1 E2 E3|id' u' f' n' W' H' E1 E2| | | | | | ]; subst; [reflexivity|]. destruct (writer_plain _ _ _ W' (PL id' u' eq_refl)).
        * cbn [chas] in HT. destruct (IH v n HT BV') as [I1 I2]. assert (NV : no_nil (CPtr t) (VPtr v) -> no_nil t v) by (destruct t as [ | | | t | t | t | fs | id u]; try exact (fun x => x); cbn [CuSpec.no_nil]; intros Q _ _; exact (Q (PL id u eq_refl))). split; intros H NN.
          -- apply w_ptr. apply I1; [exact H|exact (NV NN)].
          -- inversion H; subst. apply I2; [assumption|exact (NV NN)].
    - destruct v as [ | | | |v|l| | ]; try contradiction.
      + split; [intros H _; injection H as <-; constructor|intros H _; inversion H; reflexivity].
      + cbn [chas] in HT. rewrite Forall_forall in HT. split; intros H NN; cbn [CuSpec.no_nil] in NN; rewrite Forall_forall in NN.
        * cbn [CuModel.cmar CuModel.by_method] in H. destruct (cmar_elems (cmar t) l) as [ns| |] eqn:E; try discriminate. injection H as <-. apply elems_inv in E. constructor.
          eapply F2_in; [|exact E]. intros a c J H. apply (IH a c (HT a J) BV); auto.
        * inversion H as [| | | | | | | | |t' l' ns F E1 E2 E3| | | ]; subst. cbn [CuModel.cmar CuModel.by_method]. rewrite (elems_ok (cmar t) l ns); [reflexivity|].
          eapply F2_in; [|exact F]. intros a c J Hw. apply (IH a c (HT a J) BV); auto.
    - destruct v as [ | | | |v|l|l| ]; try contradiction.
      + split; [intros H _; injection H as <-; constructor|intros H _; inversion H; reflexivity].
      + pose proof (chas_keys t l HT) as ND. split; intros H NN; cbn [CuSpec.no_nil] in NN; rewrite Forall_forall in NN.
        * cbn [CuModel.cmar CuModel.by_method] in H. destruct (cmar_entries (cmar t) [] l) as [m| |] eqn:E; try discriminate. injection H as <-.
          destruct (entries_inv (cmar t) l [] m ND E) as (m' & -> & F). constructor. eapply F2_in; [|exact F]. intros a c J [K H].
          destruct (chas_key t l a HT J) as (s & S1 & S2 & S3). split; [congruence|]. apply (IH (snd a) (snd c) S3 BV); auto.
        * inversion H as [| | | | | | | | | | |t' l' m F E1 E2 E3| ]; subst. cbn [CuModel.cmar CuModel.by_method].
          rewrite (entries_ok (cmar t) l [] m ND); [reflexivity|]. eapply F2_in; [|exact F]. intros a c J [K Hw].
          destruct (chas_key t l a HT J) as (s & S1 & S2 & S3). split; [congruence|]. apply (IH (snd a) (snd c) S3 BV); auto.
    - destruct v as [ | | | | | | |vs]; try contradiction. cbn [chas] in HT. cbn [CuSpec.by_value] in BV. cbn [CuSpec.no_nil].
      assert (Q : forall ps, fieldwise (fun f t' v' => hidden f \/ no_nil t' v') fs vs ->
        (cmar_fields (map (fun f => (fst f, cmar (snd f))) fs) vs = MOk ps -> Fields fs vs ps) /\ (Fields fs vs ps -> cmar_fields (map (fun f => (fst f, cmar (snd f))) fs) vs = MOk ps)).
      { clear n. revert vs HT. induction fs as [|[f t] fs IHf]; intros [|v vs] HT ps NN; cbn [fieldwise] in HT, NN; try contradiction.
        { split; [intros H; injection H as <-; constructor|intros H; inversion H; reflexivity]. }
        destruct HT as [HT1 HT2]. destruct NN as [NN1 NN2]. cbn [fold_right fst snd] in BV. destruct BV as [BV1 BV2].
        specialize (IHf (fun f t J => IH f t (or_intror J)) BV2 vs HT2). cbn [map fst snd cmar_fields].
        destruct (vis f) as [[name o]|] eqn:V.
        - pose proof V as T. apply tagged_vis in T. assert (HN : ~ hidden f) by (intros Hh; apply hidden_vis in Hh; congruence).
          destruct BV1 as [BV1|BV1]; [contradiction|]. destruct NN1 as [NN1|NN1]; [contradiction|].
          unfold vis in V. destruct (f_exported f) eqn:X; [|discriminate]. destruct (parseTag f) as [tg|]; [|discriminate]. destruct (g_skip tg); [discriminate|]. injection V as V1 V2. rewrite V1, V2.
          destruct (IH f t (or_introl eq_refl) v) with (n := NNil) as [_ _]; auto. split; intros H.
          + destruct (cmar t v) as [n| |] eqn:E; try discriminate. cbn [mbind] in H. destruct (cmar_fields _ vs) as [ps'| |] eqn:E2; try discriminate. cbn [mbind] in H. injection H as <-.
            pose proof (proj1 (IH f t (or_introl eq_refl) v n HT1 BV1) E NN1) as W. pose proof (proj1 (IHf ps' NN2) eq_refl) as FF.
            destruct o; cbn [andb]; [|eapply f_field; eauto; discriminate]. destruct (is_empty n) eqn:B; [eapply f_omit; eauto; apply blank_empty; exact B|].
            eapply f_field; eauto. intros _ K. apply blank_empty in K. congruence.
          + inversion H as [|? ? ? ? ? ? Hh HF|f' t' fs' v' vs' n' name' ps' T' W BN HF|f' t' fs' v' vs' n' name' o' ps' T' W BN HF]; subst; [contradiction| |]; apply tagged_vis in T'; apply tagged_vis in T; rewrite T in T'; injection T' as ? ?; subst.
            * rewrite (proj2 (IH f t (or_introl eq_refl) v n' HT1 BV1) W NN1). cbn [mbind]. rewrite (proj2 (IHf ps NN2) HF). cbn [mbind]. apply blank_empty in BN. rewrite BN. match goal with Q : g_omit tg = true |- _ => rewrite Q end. reflexivity.
            * rewrite (proj2 (IH f t (or_introl eq_refl) v n' HT1 BV1) W NN1). cbn [mbind]. rewrite (proj2 (IHf ps' NN2) HF). cbn [mbind].
              destruct (g_omit tg); [|reflexivity]. destruct (is_empty n') eqn:B; [|reflexivity]. apply blank_empty in B. destruct (BN eq_refl B).
        - assert (HV : forall ps, Fields ((f, t) :: fs) (v :: vs) ps -> Fields fs vs ps /\ hidden f).
          { intros ps' H. inversion H as [|? ? ? ? ? ? Hh HF|f' t' fs' v' vs' n' name' ps'' T' W BN HF|f' t' fs' v' vs' n' name' o' ps'' T' W BN HF]; subst; [auto| |]; apply tagged_vis in T'; congruence. }
          unfold vis in V. destruct (f_exported f) eqn:X.
          + destruct (parseTag f) as [tg|] eqn:PT.
            * destruct (g_skip tg) eqn:SK; [|discriminate]. split; intros H; [|apply HV in H; apply (IHf ps NN2); apply H]. apply f_hidden; [|apply (IHf ps NN2); exact H].
              right. unfold parseTag in PT. destruct (beqb (f_tag f) (B "-")) eqn:BE; [apply beqb_eq in BE; exact BE|]. destruct (cut_comma (f_tag f)) as [a b]. destruct (beqb b (B "omitempty")).
              { injection PT as <-. discriminate SK. } destruct b; [injection PT as <-; discriminate SK|discriminate PT].
            * split; intros H; [discriminate|]. apply HV in H. destruct H as [_ [H|H]]; [congruence|]. unfold parseTag in PT. rewrite H in PT. discriminate PT.
          + split; intros H; [apply f_hidden; [left; exact X|]; apply (IHf ps NN2); exact H|apply HV in H; apply (IHf ps NN2); apply H]. }
      rewrite cmar_struct. split; intros H NN.
      + destruct (cmar_fields _ vs) as [ps| |] eqn:E; try discriminate. injection H as <-. constructor. apply (Q ps NN). reflexivity.
      + inversion H as [| | | | | | | | | | | |fs' vs' ps F E1 E2 E3]; subst. rewrite (proj2 (Q ps NN) F). reflexivity.
    - rewrite cmar_named. cbn [CuSpec.by_value] in BV. destruct BV as [BV1 BV2]. cbn [CuSpec.no_nil]. assert (HT' : chas u v) by (destruct v; exact HT).
      destruct (writer_cases id) as [(r & f & W)|P].
      + pose proof (BV1 r f W). subst r. rewrite (method_val id u f v W). split; intros H _; [apply (w_method _ _ _ id u v ByVal f n W H)|].
        inversion H as [| | |id' u' w' r' f' n' W' R E1 E2 E3|id' u' w' n' P' H2 E1 E2 E3| | | | | | | | ]; subst; [destruct (writer_one _ _ _ _ _ W W') as [_ ->]; exact R|destruct (writer_plain _ _ _ W P')].
      + rewrite (proj1 (method_none id u v P)). destruct (IH v n HT' (BV2 P)) as [I1 I2]. split; intros H NN.
        * apply (w_plain _ _ _ id u v n P). apply I1; [exact H|]. destruct P as [P1 P2]; destruct v; apply NN; congruence.
        * inversion H as [| | |id' u' w' r' f' n' W' R E1 E2 E3|id' u' w' n' P' H2 E1 E2 E3| | | | | | | | ]; subst; [destruct (writer_plain _ _ _ W' P)|]. apply I2; [exact H2|]. destruct P as [P1 P2]; destruct v; apply NN; congruence.
  Qed.

  Lemma parse_skip : forall f, (hidden f \/ exists name o, tagged f name o) -> f_exported f = true -> exists tg, parseTag f = Ok tg.
  Proof.
    intros f H X. destruct (vis_cases f H) as [(E & _)|[(_ & E & _)|(name & o & _ & E & _)]]; [congruence|eauto|eauto].
  Qed.
  Lemma not_hidden : forall f tg, f_exported f = true -> parseTag f = Ok tg -> g_skip tg = false -> ~ hidden f.
  Proof. intros f tg X P S1 [H|H]; [congruence|]. unfold parseTag in P. rewrite H in P. injection P as <-. discriminate S1. Qed.
  Lemma is_hidden : forall f tg, parseTag f = Ok tg -> g_skip tg = true -> hidden f.
  Proof.
    intros f tg PT SK. right. unfold parseTag in PT. destruct (beqb (f_tag f) (B "-")) eqn:BE; [apply beqb_eq in BE; exact BE|]. destruct (cut_comma (f_tag f)) as [a b]. destruct (beqb b (B "omitempty")).
    { injection PT as <-. discriminate SK. } destruct b; [injection PT as <-; discriminate SK|discriminate PT].
  Qed.
  Lemma val_method : forall id u v, by_method (CNamed id u) v = None -> d_node (decls id) <> Some ByVal /\ d_json (decls id) <> Some ByVal.
  Proof. intros id u v H. cbn [CuModel.by_method] in H. destruct (d_node (decls id)) as [[]|]; cbn [in_set] in H; try discriminate; destruct (d_json (decls id)) as [[]|]; cbn [in_set] in H; try discriminate; split; discriminate. Qed.
  Lemma val_some : forall id u v r, by_method (CNamed id u) v = Some r -> (d_node (decls id) = Some ByVal /\ r = run_node id (Some v)) \/ (d_json (decls id) = Some ByVal /\ r = run_json id (Some v)).
  Proof. intros id u v r H. cbn [CuModel.by_method] in H. destruct (d_node (decls id)) as [[]|]; cbn [in_set] in H; try (injection H as <-; auto); destruct (d_json (decls id)) as [[]|]; cbn [in_set] in H; try discriminate; injection H as <-; auto. Qed.

  (* what succeeds has no such nil *)
  Lemma ok_no_nil : forall t v n, chas t v -> cmar t v = MOk n -> no_nil t v.
  Proof.
    induction t as [ | | | t IH | t IH | t IH | fs IH | id u IH] using cty_nest; intros v n HT H; try exact I.
    - rewrite cmar_ptr in H. destruct (by_method (CPtr t) v) as [r|] eqn:M.
      + destruct t as [ | | | t | t | t | fs | id u]; try discriminate M. destruct v as [ | | | |v| | | ]; try contradiction; cbn [CuSpec.no_nil].
        * intros f W. rewrite (method_ptr id u ByVal f VNil W) in M. injection M as <-. discriminate H.
        * intros P. rewrite (proj2 (method_none id u (VPtr v) P)) in M. discriminate.
      + destruct v as [ | | | |v| | | ]; try contradiction.
        * destruct t as [ | | | t | t | t | fs | id u]; try exact I. cbn [CuSpec.no_nil]. intros f W. rewrite (method_ptr id u ByVal f VNil W) in M. discriminate.
        * cbn [chas] in HT. pose proof (IH v n HT H) as Q. destruct t as [ | | | t | t | t | fs | id u]; try exact Q. cbn [CuSpec.no_nil] in Q |- *. intros [P1 P2]. destruct v; apply Q; congruence.
    - destruct v as [ | | | | |l| | ]; try contradiction; try exact I. cbn [CuModel.cmar CuModel.by_method] in H. destruct (cmar_elems (cmar t) l) as [ns| |] eqn:E; try discriminate. apply elems_inv in E. cbn [chas] in HT. cbn [CuSpec.no_nil].
      clear H. induction E as [|a c l ns H _ IHl]; constructor; inversion HT; subst; [eapply IH; eauto|auto].
    - destruct v as [ | | | | | |l| ]; try contradiction; try exact I. pose proof (chas_keys t l HT) as ND. cbn [CuModel.cmar CuModel.by_method] in H. destruct (cmar_entries (cmar t) [] l) as [m| |] eqn:E; try discriminate.
      destruct (entries_inv (cmar t) l [] m ND E) as (m' & _ & F). cbn [CuSpec.no_nil]. apply Forall_forall. intros e J. destruct (chas_key t l e HT J) as (s & _ & _ & S3).
      clear - F J IH S3. induction F as [|a c l ns [_ H] _ IHl]; [destruct J|]. destruct J as [->|J]; [eapply IH; eauto|auto].
    - destruct v as [ | | | | | | |vs]; try contradiction. rewrite cmar_struct in H. destruct (cmar_fields _ vs) as [ps| |] eqn:E; try discriminate. clear H. cbn [chas] in HT. cbn [CuSpec.no_nil].
      revert vs HT ps E. induction fs as [|[f t] fs IHf]; intros [|v vs] HT ps E; cbn [fieldwise] in *; try contradiction; [exact I|]. destruct HT as [HT1 HT2]. cbn [map cmar_fields fst snd] in E.
      specialize (IHf (fun f t J => IH f t (or_intror J)) vs HT2). destruct (f_exported f) eqn:X; [|split; [left; left; exact X|exact (IHf ps E)]].
      destruct (parseTag f) as [tg|] eqn:PT; [|discriminate]. destruct (g_skip tg) eqn:SK; [split; [left; exact (is_hidden f tg PT SK)|exact (IHf ps E)]|].
      destruct (cmar t v) as [n0| |] eqn:E1; try discriminate. cbn [mbind] in E. destruct (cmar_fields _ vs) as [ps'| |] eqn:E2; try discriminate. split; [right; exact (IH f t (or_introl eq_refl) v n0 HT1 E1)|exact (IHf ps' eq_refl)].
    - rewrite cmar_named in H. assert (HT' : chas u v) by (destruct v; exact HT). assert (Q : d_node (decls id) <> Some ByVal -> d_json (decls id) <> Some ByVal -> no_nil u v); [|destruct v; exact Q].
      intros N1 N2. destruct (by_method (CNamed id u) v) as [r|] eqn:M; [destruct (val_some id u v r M) as [[A _]|[A _]]; congruence|]. exact (IH v n HT' H).
  Qed.
  (* and what has none does not panic *)
  Lemma no_panic : (forall id w, run_node id w <> MPanic) -> (forall id w, run_json id w <> MPanic) -> forall t v, ctags t -> chas t v -> no_nil t v -> cmar t v <> MPanic.
  Proof.
    intros RN RJ. induction t as [ | | | t IH | t IH | t IH | fs IH | id u IH] using cty_nest; intros v TG HT NN.
    1-3: destruct v; try contradiction; discriminate.
    - rewrite cmar_ptr. destruct (by_method (CPtr t) v) as [r|] eqn:M.
      + destruct t as [ | | | t | t | t | fs | id u]; try discriminate M. destruct (writer_cases id) as [(r' & f & W)|P]; [|rewrite (proj2 (method_none id u v P)) in M; discriminate].
        rewrite (method_ptr id u r' f v W) in M. injection M as <-. assert (RF : forall w, f w <> MPanic) by (destruct W; auto). destruct v as [ | | | |v| | | ]; try contradiction; cbn [through]; [|apply RF].
        destruct r'; [|apply RF]. destruct (NN f W).
      + destruct v as [ | | | |v| | | ]; try contradiction; [discriminate|]. cbn [chas] in HT. apply IH; [exact TG|exact HT|]. destruct t as [ | | | t | t | t | fs | id u]; try exact NN.
        cbn [CuSpec.no_nil] in NN. assert (P : plain id).
        { destruct (writer_cases id) as [(r' & f & W)|P]; [|exact P]. rewrite (method_ptr id u r' f (VPtr v) W) in M. discriminate. }
        cbn [CuSpec.no_nil]. destruct v; intros _ _; exact (NN P).
    - destruct v as [ | | | | |l| | ]; try contradiction; [discriminate|]. cbn [CuModel.cmar CuModel.by_method]. cbn [chas] in HT. cbn [CuSpec.no_nil] in NN.
      assert (Q : cmar_elems (cmar t) l <> MPanic); [|destruct (cmar_elems (cmar t) l); [discriminate|discriminate|congruence]].
      induction l as [|a l IHl]; [discriminate|]. inversion HT; inversion NN; subst. cbn [cmar_elems]. pose proof (IH a TG ltac:(assumption) ltac:(assumption)). destruct (cmar t a); [|discriminate|congruence].
      cbn [mbind]. specialize (IHl ltac:(assumption) ltac:(assumption)). destruct (cmar_elems (cmar t) l); [discriminate|discriminate|congruence].
    - destruct v as [ | | | | | |l| ]; try contradiction; [discriminate|]. cbn [CuModel.cmar CuModel.by_method]. destruct HT as [_ HT]. cbn [CuSpec.no_nil] in NN.
      assert (Q : forall acc, cmar_entries (cmar t) acc l <> MPanic); [|specialize (Q []); destruct (cmar_entries (cmar t) [] l); [discriminate|discriminate|congruence]].
      induction l as [|[x a] l IHl]; intros acc; [discriminate|]. inversion HT as [|? ? [_ H1] H2]; inversion NN as [|? ? H3 H4]; subst. cbn [cmar_entries]. cbn [snd] in *. pose proof (IH a TG H1 H3). destruct (cmar t a); [|discriminate|congruence].
      cbn [mbind]. apply IHl; assumption.
    - destruct v as [ | | | | | | |vs]; try contradiction. rewrite cmar_struct. cbn [chas] in HT. cbn [CuSpec.no_nil] in NN. cbn [ctags] in TG.
      assert (Q : cmar_fields (map (fun f => (fst f, cmar (snd f))) fs) vs <> MPanic); [|destruct (cmar_fields _ vs); [discriminate|discriminate|congruence]].
      revert vs HT NN. induction fs as [|[f t] fs IHf]; intros [|v vs] HT NN; cbn [fieldwise] in *; try contradiction; [discriminate|]. destruct HT as [HT1 HT2]. destruct NN as [NN1 NN2]. cbn [fold_right fst snd] in TG. destruct TG as (TG1 & TG2 & TG3).
      specialize (IHf (fun f t J => IH f t (or_intror J)) TG3 vs HT2 NN2). cbn [map cmar_fields fst snd]. destruct (f_exported f) eqn:X; [|exact IHf]. destruct (parse_skip f TG1 X) as [tg PT]. rewrite PT.
      destruct (g_skip tg) eqn:SK; [exact IHf|]. destruct NN1 as [NN1|NN1]; [destruct (not_hidden f tg X PT SK NN1)|]. pose proof (IH f t (or_introl eq_refl) v TG2 HT1 NN1). destruct (cmar t v); [|discriminate|congruence]. cbn [mbind].
      destruct (cmar_fields _ vs); [discriminate|discriminate|congruence].
    - rewrite cmar_named. assert (HT' : chas u v) by (destruct v; exact HT). destruct (by_method (CNamed id u) v) as [r|] eqn:M.
      + destruct (val_some id u v r M) as [[_ ->]|[_ ->]]; auto.
      + destruct (val_method id u v M) as [N1 N2]. apply IH; [exact TG|exact HT'|]. destruct v; exact (NN N1 N2).
  Qed.

  (* ---- there and back ---- *)
  Definition keys (ps : list (bytes * bytes * node)) : list bytes := map (fun q => snd (fst q)) ps.
  Lemma asmap_distinct : forall ps, NoDup (keys ps) -> AsMap ps = map (fun q => (snd (fst q), snd q)) ps.
  Proof.
    intros ps. induction ps as [|q ps IH] using rev_ind; intros N; [reflexivity|]. unfold keys in N. rewrite map_app in N. cbn [map] in N.
    unfold AsMap. rewrite fold_left_app. cbn [fold_left]. fold (AsMap ps). pose proof (NoDup_remove _ _ _ N) as [N1 N2]. rewrite app_nil_r in N1, N2. rewrite IH by exact N1.
    rewrite mset_fresh; [rewrite map_app; reflexivity|]. rewrite map_map. exact N2.
  Qed.
  Lemma mget_in : forall (m : list (bytes * node)) k n, NoDup (map fst m) -> In (k, n) m -> mget beqb m k = Some n.
  Proof.
    intros m k n. induction m as [|[k' n'] m IH]; intros N J; [destruct J|]. cbn [mget]. cbn [map fst] in N. inversion N as [|? ? N1 N2]; subst. destruct J as [J|J].
    - injection J as -> ->. rewrite beqb_refl. reflexivity.
    - destruct (beqb k k') eqn:E; [|auto]. apply beqb_eq in E. subst k'. destruct N1. apply in_map_iff. exists (k, n). auto.
  Qed.
  Lemma mget_out : forall (m : list (bytes * node)) k, ~ In k (map fst m) -> mget beqb m k = None.
  Proof.
    intros m k. induction m as [|[k' n'] m IH]; intros N; [reflexivity|]. cbn [mget]. cbn [map fst In] in N. destruct (beqb k k') eqn:E; [apply beqb_eq in E; subst; tauto|]. apply IH. tauto.
  Qed.
  Lemma fields_out : forall (fs : list (fld * cty)) vs ps, (forall f t, In (f, t) fs -> hidden f \/ exists name o, tagged f name o) -> NoDup (vnames (map fst fs)) -> length fs = length vs ->
    cmar_fields (map (fun f => (fst f, cmar (snd f))) fs) vs = MOk ps ->
    NoDup (keys ps) /\ (forall k, In k (keys ps) -> In k (vnames (map fst fs))) /\
    fieldwise (fun f t v => forall name o, vis f = Some (name, o) -> exists n, cmar t v = MOk n /\ if o && is_empty n then ~ In name (keys ps) else In ((f_name f, name), n) ps) fs vs.
  Proof.
    induction fs as [|[f t] fs IH]; intros [|v vs] ps TG N L H; try discriminate; cbn [map cmar_fields fst snd] in H.
    { injection H as <-. split; [constructor|]. split; [intros k []|exact I]. }
    assert (TG' : forall f t, In (f, t) fs -> hidden f \/ exists name o, tagged f name o) by (intros f0 t0 J; exact (TG f0 t0 (or_intror J))).
    injection L as L. cbn [map fst vnames flat_map] in N. fold (vnames (map fst fs)) in N.
    assert (N' : NoDup (vnames (map fst fs))) by (destruct (vis f) as [[name o]|]; cbn in N; [inversion N; assumption|exact N]).
    destruct (vis_cases f (TG f t (or_introl eq_refl))) as [(E1 & E2)|[(E1 & E2 & E3)|(name & o & E1 & E2 & E3)]].
    - rewrite E1 in H. destruct (IH vs ps TG' N' L H) as (A & C & D). split; [exact A|]. cbn [map fst vnames flat_map fieldwise]. rewrite E2. cbn [app]. split; [exact C|]. split; [intros n o Q; discriminate|exact D].
    - rewrite E1, E2 in H. cbn [g_skip] in H. destruct (IH vs ps TG' N' L H) as (A & C & D). split; [exact A|]. cbn [map fst vnames flat_map fieldwise]. rewrite E3. cbn [app]. split; [exact C|]. split; [intros n o Q; discriminate|exact D].
    - rewrite E1, E2 in H. cbn [g_skip g_omit g_json] in H. destruct (cmar t v) as [n| |] eqn:E; try discriminate. cbn [mbind] in H. destruct (cmar_fields _ vs) as [ps'| |] eqn:F; try discriminate. cbn [mbind] in H. injection H as <-.
      destruct (IH vs ps' TG' N' L F) as (A & C & D). rewrite E3 in N. cbn [app] in N. inversion N as [|? ? N1 _]; subst.
      assert (NK : ~ In name (keys ps')) by (intros J; apply N1; apply C; exact J).
      cbn [map fst vnames flat_map fieldwise]. rewrite E3. cbn [app]. fold (vnames (map fst fs)). destruct (o && is_empty n) eqn:Q.
      + split; [exact A|]. split; [intros k J; right; exact (C k J)|]. split; [|exact D]. intros name' o' T. injection T as <- <-. exists n. split; [exact E|]. rewrite Q. exact NK.
      + split; [constructor; [exact NK|exact A]|]. split; [intros k [<-|J]; [left; reflexivity|right; exact (C k J)]|]. split.
        * intros name' o' T. injection T as <- <-. exists n. split; [exact E|]. rewrite Q. left. reflexivity.
        * eapply fieldwise_impl; [|exact D]. intros g u w J X name' o' T. destruct (X name' o' T) as (n' & X1 & X2). exists n'. split; [exact X1|]. destruct (o' && is_empty n').
          -- intros [K|K]; [|exact (X2 K)]. cbn [fst snd] in K. subst name'. apply N1. apply in_flat_map. exists g. split; [apply in_map_iff; exists (g, u); auto|]. rewrite T. left. reflexivity.
          -- right. exact X2.
  Qed.
  Lemma fields_in : forall m (fs : list (fld * cty)) vs, mget beqb m [] = None -> (forall f t, In (f, t) fs -> hidden f \/ exists name o, tagged f name o) ->
    fieldwise (fun f t v => match vis f with None => v = czero t | Some (name, _) => (mget beqb m name = None /\ v = czero t) \/ exists n, mget beqb m name = Some n /\ cunm t n (czero t) = UOk v end) fs vs ->
    cunm_fields m (map (fun f => (fst f, cunm (snd f))) fs) (map (fun f => czero (snd f)) fs) = (EOk tt, vs).
  Proof.
    intros m fs vs M0. revert vs. induction fs as [|[f t] fs IH]; intros [|v vs] TG H; cbn [fieldwise] in H; try contradiction; [reflexivity|]. destruct H as [H1 H2].
    specialize (IH vs (fun f t J => TG f t (or_intror J)) H2). cbn [map fst snd cunm_fields]. rewrite IH.
    destruct (vis_cases f (TG f t (or_introl eq_refl))) as [(E1 & E2)|[(E1 & E2 & E3)|(name & o & E1 & E2 & E3)]].
    - rewrite E1. rewrite E2 in H1. subst v. reflexivity.
    - rewrite E1, E2. cbn [g_json]. rewrite M0. rewrite E3 in H1. subst v. reflexivity.
    - rewrite E1, E2. cbn [g_json]. rewrite E3 in H1. destruct H1 as [[H1 ->]|(n & H1 & H3)]; rewrite H1; [reflexivity|]. rewrite H3. reflexivity.
  Qed.
  Lemma tags_in : forall fs, ctags (CStruct fs) -> forall f t, In (f, t) fs -> (hidden f \/ exists name o, tagged f name o) /\ ctags t.
  Proof. intros fs. cbn [ctags]. induction fs as [|e fs IH]; intros H f t J; [destruct J|]. destruct H as (A & C & D). destruct J as [->|J]; [auto|exact (IH D f t J)]. Qed.
  Lemma names_in : forall fs, cnames (CStruct fs) -> forall f t, In (f, t) fs -> f_name f <> [] /\ cnames t.
  Proof. intros fs [_ H]. induction fs as [|e fs IH]; intros f t J; [destruct J|]. destruct H as (A & C & D). destruct J as [->|J]; [auto|exact (IH D f t J)]. Qed.
  Lemma value_in : forall fs, by_value (CStruct fs) -> forall f t, In (f, t) fs -> hidden f \/ by_value t.
  Proof. intros fs. cbn [CuSpec.by_value]. induction fs as [|e fs IH]; intros H f t J; [destruct J|]. destruct H as (A & C). destruct J as [->|J]; [exact A|exact (IH C f t J)]. Qed.
  Lemma fieldwise_len : forall A (P : fld -> A -> val -> Prop) fs vs, fieldwise P fs vs -> length fs = length vs.
  Proof. intros A P. induction fs as [|[f t] fs IH]; intros [|v vs] H; cbn [fieldwise] in H; try contradiction; [reflexivity|]. cbn. f_equal. apply IH. apply H. Qed.
  Lemma entries_back : forall (F : node -> ures) l m, Forall2 (fun e x => fst e = KStr (fst x) /\ F (snd x) = UOk (snd e)) l m ->
    forall acc, StronglySorted kle acc -> NoDup (map fst acc ++ map fst l) -> exists r, cunm_entries F acc m = EOk r /\ StronglySorted kle r /\ Permutation r (acc ++ l).
  Proof.
    intros F l m H. induction H as [|[k v] [s n] l m [H1 H2] _ IH]; intros acc SA N; cbn [cunm_entries fst snd map] in *; [exists acc; rewrite app_nil_r; auto|]. rewrite H2. subst k.
    assert (NI : ~ In (KStr s) (map fst acc)) by (intros J; apply NoDup_remove_2 in N; apply N; apply in_or_app; auto). pose proof (kset_perm acc (KStr s) v NI) as P.
    destruct (IH (kset acc (KStr s) v)) as (r & R1 & R2 & R3).
    - apply kset_sorted. exact SA.
    - eapply Permutation_NoDup; [|exact N]. rewrite <- Permutation_middle. change (KStr s :: map fst acc ++ map fst l) with (map fst ((KStr s, v) :: acc) ++ map fst l). apply Permutation_app_tail. apply Permutation_map. exact P.
    - exists r. split; [exact R1|]. split; [exact R2|]. rewrite R3, <- P. apply Permutation_middle.
  Qed.
  Lemma sorted_kle : forall l : list (key * val), StronglySorted (fun a b => kltb a b = true) (map fst l) -> StronglySorted kle l.
  Proof.
    induction l as [|e l IH]; intros H; [constructor|]. cbn [map] in H. inversion H as [|? ? H1 H2]; subst. constructor; [apply IH; exact H1|]. apply Forall_forall. intros x J. rewrite Forall_forall in H2.
    pose proof (H2 (fst x) (in_map fst _ _ J)) as K. exact K.
  Qed.
  Lemma back : forall t v n, chas t v -> by_value t -> ctags t -> cnames t -> comes_back t v -> cmar t v = MOk n -> cunm t n (czero t) = UOk v.
  Proof.
    induction t as [ | | | t IH | t IH | t IH | fs IH | id u IH] using cty_nest; intros v n HT BV TG CN CB H.
    - destruct v; try contradiction. injection H as <-. reflexivity.
    - destruct v; try contradiction. injection H as <-. cbn. rewrite swrap_id by exact HT. reflexivity.
    - destruct v; try contradiction. injection H as <-. reflexivity.
    - rewrite cmar_ptr in H. assert (D : (exists id u r f, t = CNamed id u /\ writer id r f) \/ ((forall v, by_method (CPtr t) v = None) /\ by_value t)).
      { destruct t as [ | | | t | t | t | fs | id u]; try (right; split; [reflexivity|exact BV]).
        destruct (writer_cases id) as [(r & f & W)|P]; [left; exists id, u, r, f; auto|]. right. split; [intros v'; apply (method_none id u v' P)|].
        cbn [CuSpec.by_value] in BV |- *. split; [intros r f W; destruct (writer_plain id r f W P)|exact BV]. }
      destruct D as [(id & u & r & f & -> & W)|(M & BV')].
      + rewrite (method_ptr id u r f v W) in H. destruct v as [ | | | |v| | | ]; try contradiction; cbn [through] in H.
        * destruct r; [discriminate|]. cbn [CuSpec.comes_back] in CB. rewrite (CB f n W H). reflexivity.
        * cbn [CuSpec.comes_back] in CB. destruct CB as [[_ CB] NN]. destruct (CB r f W) as (g & R & G). specialize (G n H). assert (NZ : n <> NNil) by (apply NN; apply (w_method _ _ _ id u v r f n W H)).
          assert (E : cunm (CNamed id u) n (czero u) = UOk v) by (cbn [CuModel.cunm]; destruct R as [R|R1 R2]; [rewrite R|rewrite R1, R2]; exact G).
          change (match n with NNil => UOk VNil | _ => match cunm (CNamed id u) n (czero (CNamed id u)) with UOk v => UOk (VPtr v) | UErr v => UErr (VPtr v) | UPanic => UPanic end end = UOk (VPtr v)).
          cbn [czero]. rewrite E. destruct n; try reflexivity. congruence.
      + rewrite M in H. destruct v as [ | | | |v| | | ]; try contradiction; [injection H as <-; reflexivity|]. assert (CB' : comes_back t v /\ forall n, Writes t v n -> n <> NNil) by (destruct t; exact CB). destruct CB' as [CB1 CB2].
        cbn [chas] in HT. pose proof (IH v n HT BV' TG CN CB1 H) as E. assert (NZ : n <> NNil) by (apply CB2; apply (both t v n HT BV'); [exact H|exact (ok_no_nil t v n HT H)]).
        change (match n with NNil => UOk VNil | _ => match cunm t n (czero t) with UOk v => UOk (VPtr v) | UErr v => UErr (VPtr v) | UPanic => UPanic end end = UOk (VPtr v)).
        rewrite E. destruct n; try reflexivity. congruence.
    - destruct v as [ | | | | |l| | ]; try contradiction; [injection H as <-; reflexivity|]. cbn [CuModel.cmar CuModel.by_method] in H. destruct (cmar_elems (cmar t) l) as [ns| |] eqn:E; try discriminate. injection H as <-. apply elems_inv in E.
      cbn [chas] in HT. cbn [CuSpec.comes_back] in CB. cbn [CuModel.cunm]. enough (Q : cunm_elems (fun n => cunm t n (czero t)) ns = EOk l) by (rewrite Q; reflexivity).
      induction E as [|a c l ns H _ IHl]; [reflexivity|]. inversion HT; inversion CB; subst. cbn [cunm_elems]. rewrite (IH a c) by assumption. rewrite IHl by assumption. reflexivity.
    - destruct v as [ | | | | | |l| ]; try contradiction; [injection H as <-; reflexivity|]. pose proof (chas_keys t l HT) as ND. cbn [CuModel.cmar CuModel.by_method] in H. destruct (cmar_entries (cmar t) [] l) as [m| |] eqn:E; try discriminate. injection H as <-.
      destruct (entries_inv (cmar t) l [] m ND E) as (m' & -> & F). cbn [app]. cbn [CuSpec.comes_back] in CB. rewrite Forall_forall in CB. cbn [CuModel.cunm].
      assert (F' : Forall2 (fun e x => fst e = KStr (fst x) /\ (fun n => cunm t n (czero t)) (snd x) = UOk (snd e)) l m').
      { eapply F2_in; [|exact F]. intros a c J [K Hc]. destruct (chas_key t l a HT J) as (s & S1 & S2 & S3). split; [congruence|]. apply IH; auto. }
      pose proof (sorted_nodup l (proj1 HT)) as NDK. destruct (entries_back _ l m' F' []) as (r & R1 & R2 & R3); [constructor|exact NDK|]. rewrite R1. f_equal. f_equal. apply kle_unique; [exact R2|apply sorted_kle; apply HT|exact R3].
    - destruct v as [ | | | | | | |vs]; try contradiction. rewrite cmar_struct in H. destruct (cmar_fields _ vs) as [ps| |] eqn:E; try discriminate. injection H as <-. cbn [chas] in HT. cbn [CuSpec.comes_back] in CB.
      pose proof (distinct_vnames fs (proj1 CN)) as NV. destruct (fields_out fs vs ps (fun f t J => proj1 (tags_in fs TG f t J)) NV (fieldwise_len _ _ _ _ HT) E) as (A & C & D).
      assert (NK : NoDup (map fst (AsMap ps))) by apply asmap_nodup.
      assert (M0 : mget beqb (AsMap ps) [] = None).
      { apply mget_out. rewrite asmap_keys. intros J. apply C in J. revert J. apply vnames_nonnil. intros f J. apply in_map_iff in J. destruct J as ([f' t] & <- & J). exact (proj1 (names_in fs CN f' t J)). }
      cbn [CuModel.cunm czero]. rewrite (fields_in (AsMap ps) fs vs M0 (fun f t J => proj1 (tags_in fs TG f t J))); [reflexivity|].
      pose proof (fieldwise_and _ _ _ _ HT (fieldwise_and _ _ _ _ CB D)) as X. eapply fieldwise_impl; [|exact X]. cbv beta. intros f t v J (HT1 & [CB1 CB2] & D1).
      destruct (vis f) as [[name o]|] eqn:V; [|apply CB1; apply vis_hidden; [exact V|exact (proj1 (tags_in fs TG f t J))]].
      destruct (D1 name o eq_refl) as (n & H & B). pose proof V as T. apply tagged_vis in T. destruct (CB2 name o T) as [CB3 CB4].
      assert (BT : by_value t) by (destruct (value_in fs BV f t J) as [Hh|Hh]; [apply hidden_vis in Hh; congruence|exact Hh]).
      destruct (o && is_empty n) eqn:OE.
      + left. split; [apply mget_out; rewrite asmap_keys; exact B|]. apply andb_prop in OE. destruct OE as [-> OE]. apply (CB4 n eq_refl); [apply (both t v n HT1 BT); [exact H|exact (ok_no_nil t v n HT1 H)]|apply blank_empty; exact OE].
      + right. exists n. split.
        * apply mget_in; [exact NK|]. rewrite (asmap_distinct ps A). apply in_map_iff. exists ((f_name f, name), n). auto.
        * apply (IH f t J v n HT1 BT (proj2 (tags_in fs TG f t J)) (proj2 (names_in fs CN f t J)) CB3 H).
    - rewrite cmar_named in H. cbn [CuSpec.by_value] in BV. destruct BV as [BV1 BV2]. assert (HT' : chas u v) by (destruct v; exact HT).
      assert (CB' : (plain id -> comes_back u v /\ forall g, ~ reader id g) /\ (forall r f, writer id r f -> exists g, reader id g /\ forall n, f (Some v) = MOk n -> g n (czero u) = UOk v)) by (destruct v; exact CB).
      destruct CB' as [CB1 CB2]. cbn [CuModel.cunm czero]. destruct (writer_cases id) as [(r & f & W)|P].
      + pose proof (BV1 r f W). subst r. rewrite (method_val id u f v W) in H. destruct (CB2 ByVal f W) as (g & R & G). specialize (G n H). destruct R as [R|R1 R2]; [rewrite R|rewrite R1, R2]; exact G.
      + rewrite (proj1 (method_none id u v P)) in H. destruct (CB1 P) as [CB3 NR]. destruct (d_unode (decls id)) eqn:U1; [destruct (NR (run_unode id)); constructor; exact U1|].
        destruct (d_ujson (decls id)) eqn:U2; [destruct (NR (run_ujson id)); apply reads_json; assumption|]. apply (IH v n HT' (BV2 P) TG CN CB3 H).
  Qed.
End P.
