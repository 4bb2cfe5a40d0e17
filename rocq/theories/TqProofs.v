(* Proofs about test.Quote. *)
From Coq Require Import Bool Ascii String Arith NArith Lia List.
From Verif Require Import Prelude TqModel.
Import ListNotations.

(* a decoder of the part between the quotes *)
Fixpoint unq (l : bytes) : bytes :=
  match l with
  | [] => []
  | c :: t =>
      if (N_of_ascii c =? 92)%N then
        match t with
        | [] => []
        | d :: r => (if (N_of_ascii d =? 116)%N then ascii_of_N 9
                     else if (N_of_ascii d =? 114)%N then ascii_of_N 13
                     else if (N_of_ascii d =? 118)%N then ascii_of_N 10
                     else d) :: unq r
        end
      else c :: unq t
  end.

Lemma of_code c n : N_of_ascii c = n -> c = ascii_of_N n.
Proof. intros <-. symmetry. apply ascii_N_embedding. Qed.
(* the cases of the replacer *)
Lemma esc_cases c (P : bytes -> Prop) :
  (c = ascii_of_N 96 -> P [ascii_of_N 92; ascii_of_N 96]) -> (c = ascii_of_N 92 -> P [ascii_of_N 92; ascii_of_N 92]) ->
  (c = ascii_of_N 9 -> P (B "\t")) -> (c = ascii_of_N 13 -> P (B "\r")) -> (c = ascii_of_N 10 -> P (B "\v")) ->
  (~ In (N_of_ascii c) [96; 92; 9; 13; 10]%N -> P [c]) -> P (tq_esc c).
Proof.
  intros H1 H2 H3 H4 H5 H6. unfold tq_esc.
  destruct (N.eqb_spec (N_of_ascii c) 96) as [E|E1]; [exact (H1 (of_code _ _ E))|].
  destruct (N.eqb_spec (N_of_ascii c) 92) as [E|E2]; [exact (H2 (of_code _ _ E))|].
  destruct (N.eqb_spec (N_of_ascii c) 9) as [E|E3]; [exact (H3 (of_code _ _ E))|].
  destruct (N.eqb_spec (N_of_ascii c) 13) as [E|E4]; [exact (H4 (of_code _ _ E))|].
  destruct (N.eqb_spec (N_of_ascii c) 10) as [E|E5]; [exact (H5 (of_code _ _ E))|].
  apply H6. cbn [In]. intuition congruence.
Qed.
Lemma unq_esc c r : unq (tq_esc c ++ r) = c :: unq r.
Proof.
  apply (esc_cases c (fun l => unq (l ++ r) = c :: unq r)); try (intros ->; reflexivity).
  intros N. cbn [app unq]. destruct (N.eqb_spec (N_of_ascii c) 92) as [E|_]; [|reflexivity].
  exfalso. apply N. cbn. auto.
Qed.

Lemma unq_all s r : unq (flat_map tq_esc s ++ r) = s ++ unq r.
Proof.
  induction s as [|c s IH]; [reflexivity|]. cbn [flat_map]. rewrite <- app_assoc, unq_esc, IH. reflexivity.
Qed.

Lemma quote_inj s s' : Quote s = Quote s' -> s = s'.
Proof.
  unfold Quote. intros H. cbn [app] in H. injection H as H.
  apply app_inj_tail in H as [H _].
  pose proof (unq_all s []) as E1. pose proof (unq_all s' []) as E2. rewrite H, E2 in E1. cbn [unq] in E1.
  rewrite !app_nil_r in E1. congruence.
Qed.

Lemma esc_clean c x : In x (tq_esc c) -> ~ In (N_of_ascii x) [9; 10; 13]%N.
Proof.
  apply (esc_cases c (fun l => In x l -> ~ In (N_of_ascii x) [9; 10; 13]%N));
    try (intros _ [<-|[<-|[]]]; vm_compute; intuition discriminate).
  intros N [<-|[]] H. apply N. cbn [In] in *. tauto.
Qed.

Lemma quote_clean s x : In x (Quote s) -> ~ In (N_of_ascii x) [9; 10; 13]%N.
Proof.
  unfold Quote. intros H. cbn in H. destruct H as [<-|H]; [vm_compute; intuition discriminate|].
  apply in_app_or in H as [H|[<-|[]]]; [|vm_compute; intuition discriminate].
  apply in_flat_map in H as [c [_ H]]. eapply esc_clean; exact H.
Qed.

(* concatenations: a quoted form followed by other text ends where it ends *)
Lemma tick_free s a b : flat_map tq_esc s = a ++ ascii_of_N 96 :: b -> exists a', a = a' ++ [ascii_of_N 92].
Proof.
  revert a; induction s as [|c s IH]; intros a H; cbn in H; [destruct a; discriminate|].
  assert (Hc : (exists d, tq_esc c = [ascii_of_N 92; d]) \/ (tq_esc c = [c] /\ c <> ascii_of_N 96)).
  { clear. apply (esc_cases c (fun l => (exists d, l = [ascii_of_N 92; d]) \/ (l = [c] /\ c <> ascii_of_N 96)));
      try (intros _; left; eexists; reflexivity).
    intros N. right. split; [reflexivity|]. intros ->. apply N. left. reflexivity. }
  destruct Hc as [[d Hc]|[Hc Hn]]; rewrite Hc in H; cbn in H.
  - destruct a as [|x a]; [discriminate H|]. destruct a as [|y a].
    + cbn in H. inversion H; subst. exists []. reflexivity.
    + cbn in H. injection H as <- <- H. destruct (IH _ H) as [a' ->]. exists (ascii_of_N 92 :: d :: a'). reflexivity.
  - destruct a as [|x a]; cbn in H.
    + exfalso. apply Hn. injection H as Hx _. exact Hx.
    + injection H as <- H. destruct (IH _ H) as [a' ->]. exists (c :: a'). reflexivity.
Qed.
