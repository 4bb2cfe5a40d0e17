(* Proofs about the types registered in http/ws. *)
From Coq Require Import Bool Ascii String Arith NArith ZArith List Lia.
From Verif Require Import Prelude PreludeFacts Utf8Model Utf8Facts DecModel DurModel DurProofs KvProofs EncModel JsonModel CtxModel ErrModel MarModel WsModel WsSpec WsRpc.
Import ListNotations.

Lemma lowered_lower n p : lowered n p -> toLowerFirst n = p.
Proof.
  destruct n as [|c r], p as [|c' r']; cbn [lowered]; try tauto. intros (-> & Hc & [(H1 & H2 & H3)|(H1 & ->)]); cbn [toLowerFirst].
  - replace ((65 <=? code c)%N && (code c <=? 90)%N) with true by (symmetry; apply andb_true_iff; split; apply N.leb_le; assumption). cbn [app]. f_equal. apply code_inj. rewrite code_chr by lia. congruence.
  - replace ((65 <=? code c)%N && (code c <=? 90)%N) with false by (symmetry; apply andb_false_iff; destruct H1; [left|right]; apply N.leb_gt; assumption).
    replace (code c <? 128)%N with true by (symmetry; apply N.ltb_lt; assumption). reflexivity.
Qed.
Lemma lower_lowered n p : match n with c :: _ => (code c < 128)%N | [] => True end -> toLowerFirst n = p -> lowered n p.
Proof.
  intros Hn <-. destruct n as [|c r]; cbn [toLowerFirst lowered]; [exact I|]. destruct ((65 <=? code c)%N && (code c <=? 90)%N) eqn:E.
  - apply andb_true_iff in E as [E1 E2]. apply N.leb_le in E1, E2. cbn [app]. repeat split; auto. left. rewrite code_chr by lia. auto.
  - replace (code c <? 128)%N with true by (symmetry; apply N.ltb_lt; assumption). cbn [app]. repeat split; auto. right. split; [|reflexivity]. apply andb_false_iff in E as [E|E]; apply N.leb_gt in E; auto.
Qed.
(* upper case names *)
Lemma lower_upper_inj n n' : match n with c :: _ => (65 <= code c <= 90)%N | [] => False end -> match n' with c :: _ => (65 <= code c <= 90)%N | [] => False end ->
  toLowerFirst n = toLowerFirst n' -> n = n'.
Proof.
  destruct n as [|c r], n' as [|c' r']; try tauto. intros H1 H2. cbn [toLowerFirst].
  replace ((65 <=? code c)%N && (code c <=? 90)%N) with true by (symmetry; apply andb_true_iff; split; apply N.leb_le; lia).
  replace ((65 <=? code c')%N && (code c' <=? 90)%N) with true by (symmetry; apply andb_true_iff; split; apply N.leb_le; lia).
  cbn [app]. intros E. injection E as E1 E2. apply (f_equal code) in E1. rewrite !code_chr in E1 by lia. f_equal; [apply code_inj; lia|exact E2].
Qed.

Lemma mget_unique {X} (l : list (bytes * X)) k v : In (k, v) l -> (forall v', In (k, v') l -> v' = v) -> mget beqb l k = Some v.
Proof.
  induction l as [|[k' v'] l IH]; [intros []|]. intros Hin Hu. cbn [mget]. destruct (beqb k k') eqn:E.
  - apply beqb_eq in E. subst k'. f_equal. apply Hu. now left.
  - apply IH; [|intros v'' Hv; apply Hu; now right]. destruct Hin as [Hx|Hx]; [injection Hx as -> ->; rewrite beqb_refl in E; discriminate|exact Hx].
Qed.
Lemma mget_in {X} (l : list (bytes * X)) k v : mget beqb l k = Some v -> In (k, v) l.
Proof.
  induction l as [|[k' v'] l IH]; cbn [mget]; [discriminate|]. destruct (beqb k k') eqn:E; [|right; auto]. apply beqb_eq in E. subst. intros Hx. injection Hx as ->. now left.
Qed.

Section Reg.
  Context {V A H : Type}.
  Implicit Types (fs : list (@gfield V H)) (ms : list (@gmeth V A H)).
  Lemma inits_fold h h' fs : forall pre,
    fold_left (fun l x => upd l (fst (fst x)) (snd (fst x) h')) (inits h (length pre) fs) (pre ++ map gf_zero fs) =
    pre ++ map (fun f => if gf_iszero f (gf_value f h) then gf_zero f else gf_value f h') fs.
  Proof.
    induction fs as [|f fs IH]; intros pre; cbn [inits map]; [reflexivity|]. destruct (gf_iszero f (gf_value f h)) eqn:Ez; cbn [app].
    - specialize (IH (pre ++ [gf_zero f])). rewrite app_length, Nat.add_1_r, <- !app_assoc in IH. exact IH.
    - cbn [fold_left fst snd]. rewrite upd_app_r. specialize (IH (pre ++ [gf_value f h'])). rewrite app_length, Nat.add_1_r, <- !app_assoc in IH. exact IH.
  Qed.
  Lemma inits_exported h fs : forall i, (forall x, In x fs -> gf_exported x = true \/ gf_iszero x (gf_value x h) = true) ->
    existsb (fun x => negb (snd x)) (inits h i fs) = false.
  Proof.
    induction fs as [|f fs IH]; intros i Hf; cbn [inits]; [reflexivity|]. rewrite existsb_app, IH by (intros x Hx; apply Hf; now right). rewrite orb_false_r.
    destruct (gf_iszero f (gf_value f h)) eqn:Ez; [reflexivity|]. cbn [existsb snd]. destruct (Hf f (or_introl eq_refl)) as [->|E]; [reflexivity|congruence].
  Qed.
  Lemma same_name ms m m' : NoDup (map g_name ms) -> In m ms -> In m' ms -> g_name m = g_name m' -> m = m'.
  Proof.
    induction ms as [|x ms IH]; [intros _ []|]. cbn [map]. intros Hn. apply NoDup_cons_iff in Hn as [Hn1 Hn2]. intros [<-|H1] [<-|H2] E; auto.
    - destruct Hn1. rewrite E. now apply in_map.
    - destruct Hn1. rewrite <- E. now apply in_map.
  Qed.
  Lemma last_all {X} (l : list X) v : In v l -> (forall x, In x l -> x = v) -> last (map Some l) None = Some v.
  Proof.
    induction l as [|x l IH]; [intros []|]. intros _ Hu. destruct l as [|y l]; [cbn; f_equal; apply Hu; now left|]. change (last (map Some (y :: l)) None = Some v).
    apply IH; [|intros z Hz; apply Hu; now right]. rewrite (Hu y) by (right; now left). now left.
  Qed.
  Lemma exposed_iff (m : @gmeth V A H) : exposed m = true <-> (g_in m = 2 \/ g_in m = 3) /\ g_ctx m = true.
  Proof. unfold exposed. rewrite andb_true_iff, orb_true_iff, !Nat.eqb_eq. reflexivity. Qed.
  Lemma is_init_iff (m : @gmeth V A H) : is_init m = true <-> g_name m = B "Init".
  Proof. apply beqb_eq. Qed.

  (* a type as registered *)
  Lemma inspect_ok h n fs ms : exists b, inspect h (GPtr n fs ms) = Ok (Some b) /\ b_name b = toLowerFirst n /\ b_zero b = map gf_zero fs /\ b_fields b = inits h 0 fs /\
    (forall m, NoDup (map g_name ms) -> In m ms -> g_name m = B "Init" -> (g_in m = 2 \/ g_in m = 3) /\ g_ctx m = true -> b_init b = Some (g_meth m)) /\
    ((forall m, In m ms -> g_name m <> B "Init") -> b_init b = None) /\
    (forall m q, NoDup (map g_name ms) -> (forall x, In x ms -> match g_name x with c :: _ => (65 <= code c <= 90)%N | [] => False end) ->
       In m ms -> g_name m <> B "Init" -> (g_in m = 2 \/ g_in m = 3) /\ g_ctx m = true -> lowered (g_name m) q -> byPath (b_methods b) q = Some (g_meth m)) /\
    (forall q x, byPath (b_methods b) q = Some x -> exists m, In m ms /\ g_name m <> B "Init" /\ ((g_in m = 2 \/ g_in m = 3) /\ g_ctx m = true) /\ toLowerFirst (g_name m) = q /\ g_meth m = x).
  Proof.
    eexists. split; [reflexivity|]. cbn [b_name b_zero b_fields b_init b_methods]. repeat apply conj; try reflexivity.
    - intros m Hn Hin Hi He. replace (map (fun m0 => Some (g_meth m0)) (filter is_init (filter exposed ms))) with (map Some (map g_meth (filter is_init (filter exposed ms)))) by apply map_map.
      apply last_all.
      + apply in_map. apply filter_In. split; [|now apply is_init_iff]. apply filter_In. split; [exact Hin|now apply exposed_iff].
      + intros x Hx. apply in_map_iff in Hx as (m' & <- & Hm'). apply filter_In in Hm' as [Hm' Hi']. apply filter_In in Hm' as [Hm' _]. apply is_init_iff in Hi'. f_equal. apply (same_name ms); auto. congruence.
    - intros Hno. replace (filter is_init (filter exposed ms)) with (@nil (@gmeth V A H)); [reflexivity|]. symmetry. destruct (filter is_init (filter exposed ms)) as [|m l] eqn:E; [reflexivity|].
      assert (Hm : In m (m :: l)) by now left. rewrite <- E in Hm. apply filter_In in Hm as [Hm Hi]. apply filter_In in Hm as [Hm _]. apply is_init_iff in Hi. destruct (Hno m Hm Hi).
    - intros m q Hn Hup Hin Hi He Hq. unfold byPath. apply mget_unique.
      + apply in_rev. rewrite rev_involutive. apply in_map_iff. exists m. split; [f_equal; now apply lowered_lower|]. apply filter_In. split; [apply filter_In; split; [exact Hin|now apply exposed_iff]|].
        apply negb_true_iff. destruct (is_init m) eqn:E; [|reflexivity]. apply is_init_iff in E. contradiction.
      + intros x Hx. apply in_rev in Hx. apply in_map_iff in Hx as (m' & Ex & Hm'). injection Ex as E1 E2. subst x. f_equal. apply filter_In in Hm' as [Hm' _]. apply filter_In in Hm' as [Hm' _].
        apply (same_name ms); auto. apply lower_upper_inj; [apply Hup; exact Hm'|apply Hup; exact Hin|]. rewrite E1. symmetry. now apply lowered_lower.
    - intros q x Hx. apply mget_in in Hx. apply in_rev in Hx. apply in_map_iff in Hx as (m & E & Hm). injection E as E1 E2. apply filter_In in Hm as [Hm Hi]. apply filter_In in Hm as [Hm He].
      exists m. repeat apply conj; auto; try (now apply exposed_iff). intros Hx. apply is_init_iff in Hx. rewrite Hx in Hi. discriminate.
  Qed.
  Lemma Register_get h (r : @registry V A H) n fs ms r1 p : Register h r (GPtr n fs ms) = Ok (Some r1) -> lowered n p -> exists b, inspect h (GPtr n fs ms) = Ok (Some b) /\ mget beqb r1 p = Some b.
  Proof.
    destruct (inspect_ok h n fs ms) as (b & Hb & Hnm & _). unfold Register. rewrite Hb. intros E Hl. injection E as <-. exists b. split; [reflexivity|]. rewrite Hnm, (lowered_lower _ _ Hl). apply (mget_mset_eq beqb beqb_ok).
  Qed.
  Lemma register_all_skip h p l : forall (r r1 : @registry V A H), register_all h r l = Some r1 ->
    (forall n fs ms, In (GPtr n fs ms) l -> toLowerFirst n <> p) -> mget beqb r1 p = mget beqb r p.
  Proof.
    induction l as [|o l IH]; intros r r1 E Hl; cbn [register_all] in E; [now injection E as <-|]. destruct (Register h r o) as [[r2|]|] eqn:Er; try discriminate.
    rewrite (IH r2 r1 E) by (intros n fs ms Hin; eapply Hl; right; exact Hin). destruct o as [n fs ms|n| |]; try discriminate Er.
    unfold Register in Er. destruct (inspect_ok h n fs ms) as (b & Hb & Hnm & _). rewrite Hb in Er. injection Er as <-. apply (mget_mset_ne beqb beqb_ok). rewrite Hnm. eapply Hl. left. reflexivity.
  Qed.
  Lemma register_all_get h n fs ms a l (reg : @registry V A H) p : register_all h [] (a ++ GPtr n fs ms :: l) = Some reg -> lowered n p ->
    (forall n' fs' ms', In (GPtr n' fs' ms') l -> match n' with c :: _ => (code c < 128)%N | [] => True end /\ ~ lowered n' p) ->
    exists b, inspect h (GPtr n fs ms) = Ok (Some b) /\ mget beqb reg p = Some b.
  Proof.
    intros E Hp Hl. assert (Ha : exists r, register_all h r (GPtr n fs ms :: l) = Some reg).
    { revert E. generalize (@nil (bytes * @builder V A H)). induction a as [|o a IH]; intros r E; cbn [app] in E; [eauto|]. cbn [register_all] in E. destruct (Register h r o) as [[r2|]|]; try discriminate. eauto. }
    destruct Ha as [r Ea]. cbn [register_all] in Ea. destruct (Register h r (GPtr n fs ms)) as [[r2|]|] eqn:Er; try discriminate. destruct (Register_get h r n fs ms r2 p Er Hp) as (b & Hb & Hg).
    exists b. split; [exact Hb|]. rewrite <- Hg. eapply register_all_skip; [exact Ea|]. intros n' fs' ms' Hin Hx. destruct (Hl n' fs' ms' Hin) as [H1 H2]. apply H2. now apply lower_lowered.
  Qed.

  Context (user_msg : N -> bytes) (status_text : Z -> bytes) (user_node : N -> res node).
  Notation onFrame := (onFrame user_msg status_text user_node).
  Notation reach := (reach user_msg status_text user_node).
  (* opening a channel, up to Init *)
  Definition fresh_obj (h : H) fs : list V := map (fun x => gf_value x h) fs.
  Lemma open_fresh h (reg : @registry V A H) n fs ms p s f b :
    inspect h (GPtr n fs ms) = Ok (Some b) -> mget beqb reg p = Some b ->
    (forall x, In x fs -> gf_exported x = true \/ gf_iszero x (gf_value x h) = true) ->
    (forall x v, In x fs -> gf_iszero x v = true -> v = gf_zero x) ->
    (forall x, In x fs -> gf_value x (r_heap s) = gf_value x h) ->
    opening f = true -> f_path f = p ->
    let o := length (r_objs s) in
    let s2 := Rpc (mset beqb (r_chans s) (f_chan f) (Chan (f_chan f) o [])) (r_objs s ++ [fresh_obj h fs]) (r_heap s) (TNew (f_chan f) p o :: r_log s) in
    onFrame reg s f = match (match b_init b with None => (s2, MNil) | Some m => call s2 (f_chan f) o None m (f_data f) end) with
      | (s3, MNil) => FNil (Rpc (mset beqb (r_chans s3) (f_chan f) (Chan (f_chan f) o (b_methods b))) (r_objs s3) (r_heap s3) (TReady (f_chan f) p o :: r_log s3))
      | (s3, MError _) => FNil s3
      | (s3, MPanic) => FDies s3
      end.
  Proof.
    intros Hb Hg Hex Hz Hsame Ho Hp o s2. rewrite opening_onFrame by assumption. rewrite Hp, Hg. unfold open. cbn [r_chans r_objs r_heap r_log]. rewrite Hp.
    destruct (inspect_ok h n fs ms) as (b' & Hb' & _ & Hzero & Hf & _). rewrite Hb in Hb'. injection Hb' as <-. rewrite Hf, Hzero, inits_exported by assumption.
    pose proof (inits_fold h (r_heap s) fs []) as Hfold. cbn [length app] in Hfold. rewrite Hfold.
    replace (map (fun f0 => if gf_iszero f0 (gf_value f0 h) then gf_zero f0 else gf_value f0 (r_heap s)) fs) with (fresh_obj h fs); [reflexivity|].
    apply map_ext_in. intros x Hx. destruct (gf_iszero x (gf_value x h)) eqn:E; [eauto|symmetry; auto].
  Qed.
End Reg.
