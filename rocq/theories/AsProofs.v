(* Proofs about the assertions. *)
From Coq Require Import Bool Ascii String Arith NArith ZArith Lia List Permutation.
From Verif Require Import Prelude PreludeFacts Utf8Model Utf8Facts QuoteModel DecModel DurModel DurProofs EncModel KvProofs TqModel AstModel GvModel
  AsModel AsSpec AstProofs.
Import ListNotations.

(* ---- texts ---- *)
Lemma assignment_usable s n : usable s n -> exists r, Assignment s n = Ok r.
Proof.
  intros H. unfold Assignment. destruct (s_file s) as [t|] eqn:Ef.
  - destruct (caller_regular s t n Ef (H t Ef)) as [[-> _]|(args & m & Hn & ->)]; [eauto|].
    destruct (nth_error (map (farg m) args) n) eqn:E; [eauto|]. apply nth_error_None in E. rewrite map_length in E. lia.
  - unfold Caller. rewrite Ef. eauto.
Qed.
Lemma regular_less s n m t : m <= n -> regular s n t -> regular s m t.
Proof. intros Hm (Hg & H). split; [exact Hg|]. intros c Hc Hh. destruct (H c Hc Hh). split; [lia|assumption]. Qed.
Lemma usable_less s n m : m <= n -> usable s n -> usable s m.
Proof. intros Hm H t Ht. eapply regular_less; eauto. Qed.
Lemma argument_sourced s n r : usable s n -> sourced s -> exists x, argument s n r = Ok (fst r, x).
Proof.
  intros Hu (t & c & Ef & Hw & Hh). destruct (caller_sourced s t c n Ef (Hu t Ef) Hw Hh) as (args & m & Hn & E).
  unfold argument. rewrite E. destruct (nth_error (map (farg m) args) n) eqn:En; [eauto|].
  apply nth_error_None in En. rewrite map_length in En. lia.
Qed.
Lemma argument_fst s n r r' : argument s n r = Ok r' -> fst r' = fst r.
Proof. unfold argument. destruct (Caller s); try discriminate. destruct (nth_error a n); [|discriminate]. intros H. injection H as <-. reflexivity. Qed.

(* ---- verdicts ---- *)
Lemma expect_true_passed r : passed (expect_true r) <-> fst r = true.
Proof. unfold expect_true, passed, OK, KO. destruct (fst r); split; eauto; try discriminate; intros (m & E); discriminate. Qed.
Lemma expect_true_failed r : failed (expect_true r) <-> fst r = false.
Proof. unfold expect_true, failed, OK, KO. destruct (fst r); split; eauto; try discriminate; intros (m & E); discriminate. Qed.
Lemma expect_false_passed r : passed (expect_false r) <-> fst r = false.
Proof. unfold expect_false, passed, OK, KO. destruct (fst r); split; eauto; try discriminate; intros (m & E); discriminate. Qed.
Lemma expect_false_failed r : failed (expect_false r) <-> fst r = true.
Proof. unfold expect_false, failed, OK, KO. destruct (fst r); split; eauto; try discriminate; intros (m & E); discriminate. Qed.
(* r is a decision of P *)
Definition says (r : tres) (P : Prop) : Prop := fst r = true <-> P.
Lemma says_true r P : says r P -> decides (Ok (expect_true r)) P.
Proof.
  intros H. eexists. split; [reflexivity|]. destruct (fst r) eqn:E.
  - left. split; [now apply H|now apply expect_true_passed].
  - right. split; [intros HP; apply H in HP; congruence|now apply expect_true_failed].
Qed.
Lemma says_false r P : says r P -> decides (Ok (expect_false r)) (~ P).
Proof.
  intros H. eexists. split; [reflexivity|]. destruct (fst r) eqn:E.
  - right. split; [|now apply expect_false_failed]. intros HP. apply HP. now apply H.
  - left. split; [intros HP; apply H in HP; congruence|now apply expect_false_passed].
Qed.
Lemma says_fst r r' P : fst r' = fst r -> says r P -> says r' P.
Proof. unfold says. now intros ->. Qed.
Lemma decides_trusty r P : decides r P -> trusty r P.
Proof. intros (v & -> & [(H & _)|(H & (m & Hf))]) w E (m' & Hp); [assumption|]. congruence. Qed.
Lemma named2_ok n s r : usable s 2 -> exists r', named2 n s r = Ok r' /\ fst r' = fst r.
Proof.
  intros H. destruct (assignment_usable s 1 (usable_less s 2 1 ltac:(lia) H)) as (a & Ea).
  destruct (assignment_usable s 2 H) as (b & Eb). unfold named2. rewrite Ea. cbn [rbind]. rewrite Eb. cbn [rbind]. eauto.
Qed.
Lemma named2_fst n s r r' : named2 n s r = Ok r' -> fst r' = fst r.
Proof.
  unfold named2. destruct (Assignment s 1); cbn [rbind]; [|discriminate]. destruct (Assignment s 2); cbn [rbind]; [|discriminate].
  intros H. injection H as <-. reflexivity.
Qed.
Lemma named1_ok n s r : usable s 1 -> exists r', named1 n s r = Ok r' /\ fst r' = fst r.
Proof. intros H. destruct (assignment_usable s 1 H) as (a & Ea). unfold named1. rewrite Ea. cbn [rbind]. eauto. Qed.
Lemma equal_says e g : says (equal e g) (e = g).
Proof.
  unfold says, equal. destruct (beqb e g) eqn:E; cbn.
  - apply beqb_eq in E. tauto.
  - split; [discriminate|]. intros ->. rewrite beqb_refl in E. discriminate.
Qed.
Lemma starts_iff p : forall s, starts p s = true <-> exists b, s = p ++ b.
Proof.
  induction p as [|c p IH]; intros s; cbn.
  - split; eauto.
  - destruct s as [|d s]; [split; [discriminate|intros (b & E); discriminate]|].
    rewrite andb_true_iff, N.eqb_eq, IH. split.
    + intros (E & b & ->). apply code_inj in E. subst. eauto.
    + intros (b & E). injection E as -> ->. eauto.
Qed.
Lemma has_sub_iff p : forall s, has_sub s p = true <-> exists a b, s = a ++ p ++ b.
Proof.
  induction s as [|c s IH]; cbn [has_sub]; rewrite orb_true_iff, starts_iff.
  - split.
    + intros [(b & E)|H]; [exists [], b; exact E|discriminate].
    + intros ([|x a] & b & E); [left; exists b; exact E|discriminate].
  - rewrite IH. split.
    + intros [(b & E)|(a & b & ->)]; [exists [], b; exact E|exists (c :: a), b; reflexivity].
    + intros ([|x a] & b & E); [left; exists b; exact E|]. injection E as -> ->. right. eauto.
Qed.
Lemma contains_says s p : says (contains s p) (exists a b, s = a ++ p ++ b).
Proof. unfold says. rewrite <- has_sub_iff. unfold contains. destruct (has_sub s p); cbn; tauto. Qed.

(* ---- values ---- *)
Section Ind.
  Context (P : gty -> Prop) (Hb : forall n, P (GBool n)) (Hi : forall n, P (GInt n)) (Hu : forall n, P (GUint n)) (Hf : forall n, P (GFloat n))
    (Hs : forall n, P (GString n)) (Hsl : forall n e, P e -> P (GSlice n e)) (Ha : forall n k e, P e -> P (GArr n k e))
    (Hm : forall n k e, P k -> P e -> P (GMap n k e)) (Hst : forall n fs, Forall (fun f => P (snd f)) fs -> P (GStruct n fs))
    (Hp : forall n e, P e -> P (GPtr n e)) (Hif : forall n, P (GIface n)) (Hfu : forall n, P (GFunc n)) (Hc : forall n, P (GChan n)).
  Fixpoint gty_ind' (t : gty) : P t :=
    match t with
    | GBool n => Hb n | GInt n => Hi n | GUint n => Hu n | GFloat n => Hf n | GString n => Hs n
    | GSlice n e => Hsl n e (gty_ind' e) | GArr n k e => Ha n k e (gty_ind' e) | GMap n k e => Hm n k e (gty_ind' k) (gty_ind' e)
    | GStruct n fs => Hst n fs ((fix all (l : list (bytes * gty)) : Forall (fun f => P (snd f)) l :=
        match l with [] => Forall_nil _ | f :: r => Forall_cons f (gty_ind' (snd f)) (all r) end) fs)
    | GPtr n e => Hp n e (gty_ind' e) | GIface n => Hif n | GFunc n => Hfu n | GChan n => Hc n
    end.
End Ind.

Section V.
  Context {F : Type}.
  Implicit Types (v w : gval F) (l : list (gval F)).
  Lemma each_forall e l :
    (fix each (l : list (gval F)) : Prop := match l with [] => True | v :: r => has e v /\ each r end) l <-> Forall (has e) l.
  Proof.
    induction l as [|v l IH]; [split; constructor|]. rewrite IH. split; [intros [H1 H2]; constructor; auto|intros H; inversion H; auto].
  Qed.
  Lemma has_slice n e l : has (GSlice n e) (VSlice (Some l)) <-> Forall (has e) l.
  Proof. cbn [has]. apply each_forall. Qed.
  Lemma has_arr n k e l : has (GArr n k e) (VArr l) <-> length l = k /\ Forall (has e) l.
  Proof. cbn [has]. now rewrite each_forall. Qed.
  Lemma has_struct n fs l : has (GStruct n fs) (VStruct l) <-> Forall2 (fun f v => has (snd f) v) fs l.
  Proof.
    cbn [has]. revert fs. induction l as [|v l IH]; intros [|[x t] fs].
    - split; constructor.
    - split; [contradiction|intros H; inversion H].
    - split; [contradiction|intros H; inversion H].
    - rewrite IH. split; [intros [H1 H2]; constructor; auto|intros H; inversion H; auto].
  Qed.
  Lemma has_map n k e (l : list (gval F * gval F)) :
    has (GMap n k e) (VMap (Some l)) <-> key_type k /\ NoDup (map fst l) /\ Forall (fun x => has k (fst x) /\ has e (snd x)) l.
  Proof.
    cbn [has].
    assert (E : (fix each (l : list (gval F * gval F)) : Prop :=
                   match l with [] => True | (x, v) :: r => (has k x /\ has e v) /\ each r end) l <-> Forall (fun x => has k (fst x) /\ has e (snd x)) l).
    { induction l as [|[x v] l IH]; [split; constructor|]. rewrite IH. split; [intros [H1 H2]; constructor; auto|intros H; inversion H; auto]. }
    now rewrite E.
  Qed.

  Context (f0 : F) (fzero : F -> bool) (Hz : forall f, fzero f = true <-> f = f0).
  Lemma isZero_zero t : forall v, has t v -> (isZero fzero v = true <-> v = zero f0 t).
  Proof.
    induction t as [n|n|n|n|n|n e IH|n k e IH|n k e _ _|n fs IH|n e _|n|n|n] using gty_ind'; intros v Hv;
      destruct v as [b|z|m|f|s|[l|]|l|[l|]|l|[[a w]|]|[[d w]|]|[a|]|[[a c]|]]; try contradiction; cbn [isZero zero];
      try (split; [discriminate|intros E; discriminate E]; fail); try (split; auto; fail).
    - destruct b; cbn; split; congruence.
    - rewrite Z.eqb_eq. split; congruence.
    - rewrite N.eqb_eq. split; congruence.
    - rewrite Hz. split; congruence.
    - destruct s; split; congruence.
    - apply has_arr in Hv. destruct Hv as (<- & Hl).
      assert (E : forallb (isZero fzero) l = true <-> l = repeat (zero f0 e) (length l)).
      { induction Hl as [|v l Hv Hl IHl]; cbn; [tauto|]. rewrite andb_true_iff, IHl, (IH v Hv). split.
        - intros [-> <-]. reflexivity.
        - intros H. injection H as -> H. auto. }
      rewrite E. split; congruence.
    - apply has_struct in Hv.
      assert (E : forallb (isZero fzero) l = true <-> l = map (fun f => zero f0 (snd f)) fs).
      { clear n. revert l Hv. induction IH as [|[x t] fs Ht Hfs IHfs]; intros l Hv; inversion Hv as [|? v ? l' Hv1 Hv2]; subst; cbn; [tauto|].
        rewrite andb_true_iff, (IHfs l' Hv2), (Ht v Hv1). cbn. split.
        - intros [-> ->]. reflexivity.
        - intros H. injection H as -> H. auto. }
      rewrite E. split; congruence.
  Qed.
End V.
