From Coq Require Import Bool Ascii String Arith NArith ZArith Lia List.
From Verif Require Import Prelude PreludeFacts DurModel DurProofs CtxModel CtxSpec CtxProofs ErrModel LogModel LogSpec.
Import ListNotations.

Section L.
  Context (short : bool) (uc : N -> option einfo) (um : N -> bytes) (st : Z -> bytes)
          (sp : bytes -> list arg -> bytes).

  Lemma loop_same args args' : Forall2 same_shape args args' -> forall t, format_loop t args = format_loop t args'.
  Proof.
    induction 1 as [|a b l l' Hab _ IH]; intros t; [reflexivity|].
    destruct a, b; cbn in Hab; try discriminate; try (inversion Hab; subst); cbn [format_loop LogAs]; try rewrite IH; try reflexivity.
    destruct (logas0 t). rewrite IH. reflexivity.
  Qed.

  Lemma format_same t f args args' : Forall2 same_shape args args' ->
    FormatMsg short uc um st sp t f args = FormatMsg short uc um st sp t f args'.
  Proof. intros H. unfold FormatMsg. rewrite (loop_same _ _ H). reflexivity. Qed.

  Lemma slog_same c f args args' : Forall2 same_shape args args' ->
    slog_call short uc um st sp c f args = slog_call short uc um st sp c f args'.
  Proof. intros H. unfold slog_call. rewrite (format_same _ _ _ _ H). reflexivity. Qed.

  Lemma loop_plain args : Forall plain args -> forall t, snd (fst (format_loop t args)) = args.
  Proof.
    induction 1 as [|a l Ha _ IH]; intros t; [reflexivity|].
    destruct a; cbn in Ha; try tauto; cbn [format_loop LogAs]; specialize (IH t);
      destruct (format_loop t l) as [[t' as'] es]; cbn in *; congruence.
  Qed.

  Lemma format_plain t f args : Forall plain args -> snd (FormatMsg short uc um st sp t f args) = args.
  Proof.
    intros H. unfold FormatMsg. pose proof (loop_plain args H t) as Hl.
    destruct (format_loop t args) as [[t' as'] es]. exact Hl.
  Qed.

  Lemma tag_redacted c k s s' k' : k' <> k ->
    mget beqb (ExtractTags (WithTag_redacted short c k s)) k' = mget beqb (ExtractTags (WithTag_redacted short c k s')) k'.
  Proof.
    intros H. rewrite !extract_closest. unfold closest_tag. cbn.
    destruct (beqb k k') eqn:E; [|reflexivity].
    apply beqb_eq in E. congruence.
  Qed.
End L.
