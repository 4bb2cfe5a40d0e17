From Coq Require Import Bool Arith Lia List.
From Verif Require Import Prelude PreludeFacts LruModel MemModel MemSpec.
Import ListNotations.

Section P.
  Context {K V E : Type} (eqb : K -> K -> bool) (Heq : eqb_ok eqb).
  Context (dec : forall x y : K, {x = y} + {x <> y}).

  Lemma eqb_dec_if {A} (x y : K) (a b : A) : (if eqb x y then a else b) = if dec x y then a else b.
  Proof.
    destruct (dec x y) as [->|Hn].
    - now rewrite (eqb_refl_ok eqb Heq).
    - now rewrite (eqb_ne eqb Heq).
  Qed.

  Lemma mem_state (ops : list (mop K V E)) : forall m k,
    snd (mrun eqb m ops) k = cached dec (m k) k ops.
  Proof.
    induction ops as [|[k' ld|k'] ops IH]; intros m k; cbn [mrun cached]; auto.
    - destruct (mGet eqb m k' ld) as [r m1] eqn:Hg.
      specialize (IH m1 k). destruct (mrun eqb m1 ops) as [rs m2]. cbn [snd] in *. rewrite IH. f_equal.
      unfold mGet in Hg. destruct (m k') as [v|] eqn:Hm.
      + inversion Hg; subst. destruct (dec k k'); auto. subst. now rewrite Hm.
      + destruct (mlerr ld) eqn:Hl; inversion Hg; subst.
        * destruct (dec k k'); auto. subst. now rewrite Hm.
        * rewrite eqb_dec_if. destruct (dec k k'); auto. subst. now rewrite Hm.
    - specialize (IH (mInvalidate eqb m k') k). destruct (mrun eqb (mInvalidate eqb m k') ops) as [rs m2].
      cbn [snd] in *. rewrite IH. f_equal. unfold mInvalidate. apply eqb_dec_if.
  Qed.

  Lemma mrun_app ops1 : forall m ops2,
    fst (mrun eqb m (ops1 ++ ops2)) =
    fst (mrun eqb m ops1) ++ fst (mrun (V := V) (E := E) eqb (snd (mrun eqb m ops1)) ops2).
  Proof.
    induction ops1 as [|[k' ld|k'] ops IH]; intros m ops2; cbn [mrun app]; auto.
    - destruct (mGet eqb m k' ld) as [r m1]. specialize (IH m1 ops2).
      destruct (mrun eqb m1 (ops ++ ops2)) as [rs m2]. destruct (mrun eqb m1 ops) as [rs' m2']. cbn in *.
      now rewrite IH.
    - specialize (IH (mInvalidate eqb m k') ops2).
      destruct (mrun eqb (mInvalidate eqb m k') (ops ++ ops2)) as [rs m2].
      destruct (mrun eqb (mInvalidate eqb m k') ops) as [rs' m2']. cbn in *. now rewrite IH.
  Qed.

  Lemma mrun_length ops : forall m, length (fst (mrun (V := V) (E := E) eqb m ops)) = length ops.
  Proof.
    induction ops as [|[k' ld|k'] ops IH]; intros m; cbn [mrun]; auto.
    - destruct (mGet eqb m k' ld) as [r m1]. specialize (IH m1). destruct (mrun eqb m1 ops). cbn in *. auto.
    - specialize (IH (mInvalidate eqb m k')). destruct (mrun eqb (mInvalidate eqb m k') ops). cbn in *. auto.
  Qed.

  Lemma mem_answers (before after : list (mop K V E)) k ld :
    nth_error (fst (mrun eqb NewMem (before ++ MGet k ld :: after))) (length before)
    = Some (Some (expected (cached dec None k before) k ld)).
  Proof.
    rewrite mrun_app, nth_error_app2 by (rewrite mrun_length; lia).
    rewrite mrun_length, Nat.sub_diag. cbn [mrun].
    destruct (mGet eqb (snd (mrun eqb NewMem before)) k ld) as [r m1] eqn:Hg.
    destruct (mrun eqb m1 after) as [rs m2]. cbn. do 2 f_equal.
    unfold mGet in Hg. rewrite (mem_state before NewMem k) in Hg. unfold NewMem in Hg.
    unfold expected. destruct (cached dec None k before).
    - now inversion Hg.
    - destruct (mlerr ld); now inversion Hg.
  Qed.
End P.
