(* Proofs about Pipe. *)
From Coq Require Import Bool Arith Lia List.
From Verif Require Import Prelude ReqModel PipeModel PipeSpec LockProofs.
Import ListNotations.

Section Proofs.
  Context {V : Type}.
  Notation st := (st V).

  Record inv (n : nat) (s : st) : Prop := {
    i_fifo : received (log s) ++ buf s = sent (log s);
    i_cap : cap s = n;
    i_len : length (buf s) <= n;
    i_closed : closed s = true <-> In EClose (log s);
    i_eof : forall r, In (EEof r) (log s) -> closed s = true /\ buf s = [];
    i_wr : forall w, writing s w = writes w (log s);
    i_match : matched (log s);
    i_after : forall l1 l2 w v, log s = l1 ++ EClose :: l2 -> ~ In (EOk w v) l1 }.

  Lemma no_close_after (s : st) e : e <> EClose -> (closed s = true <-> In EClose (log s)) ->
    (closed s = true <-> In EClose (e :: log s)).
  Proof. intros N H. cbn. intuition congruence. Qed.
  Lemma after_cons (l : list (event V)) e : e <> EClose -> (forall w v, e = EOk w v -> ~ In EClose l) ->
    (forall l1 l2 w v, l = l1 ++ EClose :: l2 -> ~ In (EOk w v) l1) ->
    forall l1 l2 w v, e :: l = l1 ++ EClose :: l2 -> ~ In (EOk w v) l1.
  Proof.
    intros N O H l1 l2 w v E Hi. destruct l1 as [|x l1]; [destruct Hi|]. injection E as <- E. destruct Hi as [->|Hi].
    - apply (O w v eq_refl). rewrite E. apply in_or_app. right. left. reflexivity.
    - exact (H l1 l2 w v E Hi).
  Qed.

  Ltac sw := repeat match goal with
    | |- context [fset ?f ?i ?x ?j] =>
        let H := fresh "n" in destruct (Nat.eq_dec j i) as [->|H];
        [rewrite ?fset_eq, ?Nat.eqb_refl|rewrite ?(fset_ne _ _ _ _ H);
         rewrite ?(proj2 (Nat.eqb_neq i j) (fun E => H (eq_sym E)))]
    end.

  Lemma inv_step n s l : inv n s -> inv n (step s l).
  Proof.
    intros I. pose proof I as [F C L Cl Eo W M A].
    destruct l; cbn [step].
    - destruct (writing s w) eqn:E; [exact I|]. constructor; cbn [log buf cap closed writing]; auto.
      + apply no_close_after; [discriminate|exact Cl].
      + intros r [Hi|Hi]; [discriminate|eauto].
      + intros u. cbn [writes]. sw; auto.
      + apply after_cons; auto; discriminate.
    - destruct (reading s r) eqn:E; [exact I|]. constructor; cbn [log buf cap closed writing]; auto.
      + apply no_close_after; [discriminate|exact Cl].
      + intros q [Hi|Hi]; [discriminate|eauto].
      + apply after_cons; auto; discriminate.
    - destruct (writing s w) as [v|] eqn:E; [|exact I]. unfold send_raw. destruct (closed s) eqn:Ec; [exact I|].
      destruct (Nat.ltb_spec (length (buf s)) (cap s)) as [Lt|]; [|exact I].
      constructor; cbn [w_done log buf cap closed writing received sent]; rewrite ?Ec; auto.
      + rewrite <- F. rewrite app_assoc. reflexivity.
      + rewrite app_length. cbn. lia.
      + cbn. intuition discriminate.
      + intros r [Hi|Hi]; [discriminate|]. destruct (Eo r Hi). discriminate.
      + intros u. cbn [writes]. sw; auto.
      + cbn [matched]. rewrite <- W. auto.
      + apply after_cons; auto; [discriminate|]. intros w' v' _. intros Hi. apply Cl in Hi. discriminate.
    - destruct (writing s w) as [v|] eqn:E; [|exact I]. destruct (reading s r); [|exact I].
      destruct (buf s) eqn:Eb; [|exact I]. unfold send_raw. destruct (closed s) eqn:Ec; [exact I|].
      constructor; cbn [w_done r_done log buf cap closed writing received sent]; rewrite ?Ec; auto.
      + rewrite <- F. rewrite !app_nil_r. reflexivity.
      + cbn. intuition discriminate.
      + intros q [Hi|[Hi|Hi]]; try discriminate. destruct (Eo q Hi). discriminate.
      + intros u. cbn [writes]. sw; auto.
      + cbn [matched]. rewrite <- W. auto.
      + apply after_cons; [discriminate|discriminate|]. apply after_cons; auto; [discriminate|].
        intros w' v' _. intros Hi. apply Cl in Hi. discriminate.
    - destruct (writing s w) as [v|] eqn:E; [|exact I]. unfold send_raw. destruct (closed s) eqn:Ec; [|exact I].
      constructor; cbn [w_done log buf cap closed writing received sent]; rewrite ?Ec; auto.
      + cbn. intuition discriminate.
      + intros r [Hi|Hi]; [discriminate|eauto].
      + intros u. cbn [writes]. sw; auto.
      + cbn [matched]. rewrite <- W. split; [congruence|auto].
      + apply after_cons; auto; discriminate.
    - destruct (reading s r); [|exact I]. destruct (buf s) as [|v b] eqn:Eb; [exact I|].
      constructor; cbn [r_done log buf cap closed writing received sent]; auto.
      + rewrite <- F. rewrite <- app_assoc. reflexivity.
      + cbn in L. lia.
      + apply no_close_after; [discriminate|exact Cl].
      + intros q [Hi|Hi]; [discriminate|]. destruct (Eo q Hi). discriminate.
      + apply after_cons; auto; discriminate.
    - destruct (reading s r); [|exact I]. destruct (buf s) as [|v b] eqn:Eb; [|exact I].
      destruct (closed s) eqn:Ec; [|exact I].
      constructor; cbn [r_done log buf cap closed writing received sent]; rewrite ?Ec; auto.
      + cbn. intuition discriminate.
      + apply after_cons; auto; discriminate.
    - destruct (writing s w) as [v|] eqn:E; [|exact I].
      constructor; cbn [w_done log buf cap closed writing received sent]; auto.
      + apply no_close_after; [discriminate|exact Cl].
      + intros r [Hi|Hi]; [discriminate|eauto].
      + intros u. cbn [writes]. sw; auto.
      + cbn [matched]. rewrite <- W. split; [congruence|auto].
      + apply after_cons; auto; discriminate.
    - destruct (reading s r); [|exact I].
      constructor; cbn [r_done log buf cap closed writing received sent]; auto.
      + apply no_close_after; [discriminate|exact Cl].
      + intros q [Hi|Hi]; [discriminate|eauto].
      + apply after_cons; auto; discriminate.
    - unfold close_raw. destruct (closed s) eqn:Ec; constructor; cbn [log buf cap closed writing received sent]; rewrite ?Ec; auto.
      + cbn. intuition discriminate.
      + intros q [Hi|Hi]; [discriminate|eauto].
      + apply after_cons; auto; discriminate.
      + cbn. intuition.
      + intros q [Hi|Hi]; [discriminate|]. destruct (Eo q Hi). discriminate.
      + intros l1 l2 w v E Hi. destruct l1 as [|x l1]; [destruct Hi|]. injection E as <- E.
        assert (Hc : In EClose (log s)) by (rewrite E; apply in_or_app; right; left; reflexivity).
        apply Cl in Hc. discriminate.
  Qed.
  Lemma inv_init n : inv n (init n).
  Proof. constructor; cbn; auto; try lia; try tauto; try (intuition discriminate). intros l1 l2 w v E. destruct l1; discriminate E. Qed.
  Lemma inv_exec n ls : forall s, inv n s -> inv n (exec s ls).
  Proof. induction ls as [|l ls IH]; intros s I; cbn; [exact I|]. apply IH, inv_step, I. Qed.
  Lemma reach n ls : inv n (exec (init n) ls).
  Proof. apply inv_exec, inv_init. Qed.

  Lemma exec_app (s : st) l1 l2 : exec s (l1 ++ l2) = exec (exec s l1) l2.
  Proof. revert s. induction l1; intros s; cbn; auto. Qed.

  Lemma eof_ok n (ls : list (label V)) r : In (EEof r) (log (exec (init n) ls)) ->
    In EClose (log (exec (init n) ls)) /\ received (log (exec (init n) ls)) = sent (log (exec (init n) ls)).
  Proof.
    intros H. destruct (reach n ls) as [F C L Cl Eo W M A]. destruct (Eo r H) as [H1 H2]. split; [apply Cl, H1|].
    rewrite H2, app_nil_r in F. exact F.
  Qed.

  (* a reader drains the buffer, then sees the end *)
  Lemma drain r : forall b (s : st), buf s = b -> reading s r = false ->
    let s' := exec s (flat_map (fun _ => [LRead r; LRecv r]) b) in
    received (log s') = received (log s) ++ b /\ buf s' = [] /\ closed s' = closed s /\ reading s' r = false
    /\ sent (log s') = sent (log s).
  Proof.
    induction b as [|v b IH]; intros s E R; cbn zeta; cbn [flat_map app exec].
    - rewrite app_nil_r. auto.
    - set (s1 := step (step s (LRead r)) (LRecv r)).
      assert (E1 : s1 = St b (cap s) (closed s) (writing s) (fset (fset (reading s) r true) r false)
                           (ERead r v :: EReading r :: log s)).
      { unfold s1. cbn [step]. rewrite R. cbn [reading buf]. rewrite fset_eq, E. reflexivity. }
      assert (R1 : reading s1 r = false) by (rewrite E1; cbn; apply fset_eq).
      assert (B1 : buf s1 = b) by (rewrite E1; reflexivity).
      fold s1. destruct (IH s1 B1 R1) as (H1 & H2 & H3 & H4 & H5).
      split; [rewrite H1, E1; cbn; rewrite <- app_assoc; reflexivity|]. split; [exact H2|].
      split; [rewrite H3, E1; reflexivity|]. split; [exact H4|]. rewrite H5, E1. reflexivity.
  Qed.
  Lemma drains n (ls : list (label V)) r : In EClose (log (exec (init (V := V) n) ls)) -> reading (exec (init n) ls) r = false ->
    exists ls', let s := exec (init n) (ls ++ ls') in
      received (log s) = sent (log (exec (init n) ls)) /\ hd_error (log s) = Some (EEof r).
  Proof.
    intros H R. destruct (reach n ls) as [F C L Cl Eo W M A]. set (s := exec (init n) ls) in *.
    destruct (drain r (buf s) s eq_refl R) as (H1 & H2 & H3 & H4 & H5).
    exists (flat_map (fun _ => [LRead r; LRecv r]) (buf s) ++ [LRead r; LEof r]). cbn zeta.
    rewrite exec_app. fold s. rewrite exec_app. set (s1 := exec s (flat_map (fun _ => [LRead r; LRecv r]) (buf s))) in *.
    cbn [exec step]. rewrite H4. cbn [reading buf closed]. rewrite fset_eq, H2, H3.
    apply Cl in H. rewrite H. cbn. rewrite H1, F. auto.
  Qed.

  (* nobody is left behind *)
  Lemma broken n ls w : In EClose (log (exec (init (V := V) n) ls)) -> writing (exec (init n) ls) w <> None ->
    log (step (exec (init n) ls) (LBroken w)) = EClosed w :: log (exec (init n) ls).
  Proof.
    intros H Hw. destruct (reach n ls) as [F C L Cl Eo W M A]. apply Cl in H. cbn [step]. unfold send_raw. rewrite H.
    destruct (writing (exec (init n) ls) w); [reflexivity|congruence].
  Qed.
  Lemma meet n ls w r v : writing (exec (init (V := V) n) ls) w = Some v -> reading (exec (init n) ls) r = true ->
    exists l x, (l = LXfer w r \/ l = LRecv r \/ l = LEof r) /\
      hd_error (log (step (exec (init n) ls) l)) = Some x /\ log (step (exec (init n) ls) l) <> log (exec (init n) ls)
      /\ (x = EEof r \/ exists u, x = ERead r u).
  Proof.
    intros Hw Hr. set (s := exec (init n) ls) in *. assert (NL : forall (e : event V) l, e :: l <> l).
    { intros e l E. apply (f_equal (@length _)) in E. cbn in E. lia. }
    destruct (buf s) as [|u b] eqn:Eb; [destruct (closed s) eqn:Ec|].
    - exists (LEof r), (EEof r). cbn [step]. rewrite Hr, Eb, Ec. cbn. auto 7.
    - exists (LXfer w r), (ERead r v). cbn [step]. rewrite Hw, Hr, Eb. unfold send_raw. rewrite Ec. cbn.
      split; [auto|]. split; [reflexivity|]. split; [|eauto]. intros E. apply (f_equal (@length _)) in E. cbn in E. lia.
    - exists (LRecv r), (ERead r u). cbn [step]. rewrite Hr, Eb. cbn. eauto 8.
  Qed.

  (* the two directions *)
  Lemma directions n (ls : list (bool * label V)) : pexec (NewPipe n) ls =
    (exec (init n) (map snd (filter fst ls)), exec (init n) (map snd (filter (fun l => negb (fst l)) ls))).
  Proof.
    unfold NewPipe. generalize (init (V := V) n) at 1 3. generalize (init (V := V) n).
    induction ls as [|[[|] l] ls IH]; intros a b; cbn; [reflexivity|rewrite IH; reflexivity|rewrite IH; reflexivity].
  Qed.
End Proofs.
