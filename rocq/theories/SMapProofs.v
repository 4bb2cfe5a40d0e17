(* Proofs about the typed sync.Map. *)
From Coq Require Import Bool Arith Lia List Permutation.
From Verif Require Import Prelude PreludeFacts SMapModel SMapSpec.
Import ListNotations.

Section P.
  Context {K V : Type} (eqb : K -> K -> bool) (Heq : eqb_ok eqb).
  Context (nilv : V -> bool) (zero : V).
  Context (Hnil : forall v, nilv v = true -> v = zero).

  Lemma assert_ok v : (if nilv v then Ok zero else assertV nilv v) = Ok v.
  Proof. unfold assertV. destruct (nilv v) eqn:E; [apply Hnil in E; subst|]; reflexivity. Qed.
  Lemma assert_ok2 v (b : bool) : (if nilv v then Ok (zero, b) else rbind (assertV nilv v) (fun w => Ok (w, b))) = Ok (v, b).
  Proof. unfold assertV. destruct (nilv v) eqn:E; [apply Hnil in E; subst|]; reflexivity. Qed.

  Lemma put_set (m : list (K * V)) k v : same (mget eqb (mset eqb m k v)) (put eqb (mget eqb m) k (Some v)).
  Proof.
    intros x. unfold put. destruct (eqb x k) eqn:E.
    - apply Heq in E; subst. apply mget_mset_eq, Heq.
    - apply mget_mset_ne; [exact Heq|]. intros ->. rewrite (proj2 (Heq x x) eq_refl) in E. discriminate.
  Qed.
  Lemma put_del (m : list (K * V)) k : NoDup (map fst m) -> same (mget eqb (mdel eqb m k)) (put eqb (mget eqb m) k None).
  Proof.
    intros N x. unfold put. destruct (eqb x k) eqn:E.
    - apply Heq in E; subst. apply mget_mdel_eq; [exact Heq|exact N].
    - apply mget_mdel_ne; [exact Heq|]. intros ->. rewrite (proj2 (Heq x x) eq_refl) in E. discriminate.
  Qed.

  Lemma empty_spec (m : list (K * V)) : sIsEmpty m = true <-> forall k, mget eqb m k = None.
  Proof.
    destruct m as [|[k v] t]; cbn; [tauto|]. split; [discriminate|]. intros H. specialize (H k).
    rewrite (proj2 (Heq k k) eq_refl) in H. discriminate.
  Qed.

  Lemma sop_ok (m : list (K * V)) o : NoDup (map fst m) -> exists m' a, sop eqb nilv zero m o = (m', Ok a) /\ NoDup (map fst m') /\
    spec_op eqb zero (mget eqb m) o (mget eqb m') a.
  Proof.
    intros N. destruct o; cbn.
    - eexists. eexists. split; [reflexivity|]. split; [apply mset_nodup; auto|]. split; [apply put_set|reflexivity].
    - eexists. eexists. split; [reflexivity|]. split; [apply mdel_nodup; auto|]. split; [apply put_del, N|reflexivity].
    - unfold sLoad. destruct (mget eqb m k) as [v|] eqn:E; [rewrite assert_ok2|]; eexists; eexists;
        (split; [reflexivity|]); (split; [exact N|]); split; try reflexivity; intros x; reflexivity.
    - unfold sGet. destruct (mget eqb m k) as [v|] eqn:E; [rewrite assert_ok|]; eexists; eexists;
        (split; [reflexivity|]); (split; [exact N|]); split; try reflexivity; intros x; reflexivity.
    - eexists; eexists. split; [reflexivity|]. split; [exact N|]. split; [intros x; reflexivity|]. eexists. split; [reflexivity|].
      apply empty_spec.
    - unfold sLoadOrStore. destruct (mget eqb m k) as [w|] eqn:E; rewrite assert_ok2; cbn; eexists; eexists;
        (split; [reflexivity|]).
      + split; [exact N|]. split; [intros x; reflexivity|reflexivity].
      + split; [apply mset_nodup; auto|]. split; [apply put_set|reflexivity].
    - unfold sGetOrStore. destruct (mget eqb m k) as [w|] eqn:E; rewrite assert_ok; cbn; eexists; eexists;
        (split; [reflexivity|]).
      + split; [exact N|]. split; [intros x; reflexivity|reflexivity].
      + split; [apply mset_nodup; auto|]. split; [apply put_set|reflexivity].
    - destruct (mget eqb m k) as [v|] eqn:E; [rewrite assert_ok2|]; eexists; eexists;
        (split; [reflexivity|]); (split; [apply mdel_nodup; auto|]); split; try reflexivity; apply put_del, N.
  Qed.

  Lemma srun_ok (m : list (K * V)) os : NoDup (map fst m) -> exists m' l, srun eqb nilv zero m os = (m', map Ok l) /\ NoDup (map fst m') /\
    spec_run eqb zero (mget eqb m) os (mget eqb m') l.
  Proof.
    revert m; induction os as [|o os IH]; intros m N; cbn.
    - exists m, []. repeat split; auto. constructor.
    - destruct (sop_ok m o N) as (m1 & a & -> & N1 & S1). destruct (IH m1 N1) as (m2 & l & -> & N2 & S2).
      exists m2, (a :: l). repeat split; auto. econstructor; eauto.
  Qed.
End P.

Section R.
  Context {K V : Type}.
  Context (nilk : K -> bool) (nilv : V -> bool).
  Definition typed (es : list (K * V)) : Prop := Forall (fun e => nilk (fst e) = false /\ nilv (snd e) = false) es.

  Lemma range_visits {S} (f : S -> K -> V -> S * bool) es s : typed es ->
    exists s', sRange nilk nilv es f s = Ok s' /\ visits f es s s'.
  Proof.
    intros H; revert s; induction H as [|[k v] t [Hk Hv] Ht IH]; intros s; cbn in *.
    - exists s. split; [reflexivity|constructor].
    - unfold assertK, assertV. rewrite Hk, Hv. cbn. destruct (f s k v) as [s1 []] eqn:E.
      + destruct (IH s1) as (s2 & -> & Hv2). exists s2. split; [reflexivity|]. eapply v_next; eauto.
      + exists s1. split; [reflexivity|]. apply v_stop. exact E.
  Qed.

  Lemma range_err_visits {S E} (f : S -> K -> V -> S * option E) es s e0 : typed es ->
    exists s' e, range_err nilk nilv es f s e0 = Ok (s', e) /\
      visits (fun p k v => let (s1, e1) := f (fst p) k v in ((s1, e1), match e1 with None => true | _ => false end)) es
        (s, e0) (s', e).
  Proof.
    intros H; revert s e0; induction H as [|[k v] t [Hk Hv] Ht IH]; intros s e0; cbn in *.
    - exists s, e0. split; [reflexivity|constructor].
    - unfold assertK, assertV. rewrite Hk, Hv. cbn. destruct (f s k v) as [s1 [e1|]] eqn:E1.
      + exists s1, (Some e1). split; [reflexivity|]. apply v_stop. cbn. rewrite E1. reflexivity.
      + destruct (IH s1 None) as (s2 & e2 & -> & Hv2). exists s2, e2. split; [reflexivity|].
        eapply v_next; [cbn; rewrite E1; reflexivity|exact Hv2].
  Qed.

  Lemma map_all {E} (eqb : K -> K -> bool) es acc : typed es -> NoDup (map fst es) -> eqb_ok eqb ->
    (forall k, In k (map fst es) -> ~ In k (map fst acc)) ->
    range_err nilk nilv es (fun m k v => (mset eqb m k v, @None E)) acc None = Ok (acc ++ es, None).
  Proof.
    intros H; revert acc; induction H as [|[k v] t [Hk Hv] Ht IH]; intros acc N Heq D; cbn in *.
    - rewrite app_nil_r. reflexivity.
    - unfold assertK, assertV. rewrite Hk, Hv. cbn. inversion N; subst.
      assert (Es : mset eqb acc k v = acc ++ [(k, v)]).
      { assert (Hn : ~ In k (map fst acc)) by (apply D; auto). clear -Hn Heq.
        induction acc as [|[k' v'] acc IHa]; cbn in *; [reflexivity|].
        destruct (eqb k k') eqn:E; [apply Heq in E; subst; tauto|]. f_equal. apply IHa. tauto. }
      rewrite Es, IH; auto; [rewrite <- app_assoc; reflexivity|].
      intros x Hx. rewrite map_app, in_app_iff. cbn. intros [Ha|[<-|[]]]; [apply (D x); auto|contradiction].
  Qed.
End R.
