From Coq Require Import Bool Arith ZArith List Lia.
From Verif Require Import Prelude IsoModel IsoSpec.
Import ListNotations.

Definition wf (h : heap) : Prop := forall a b, In (Ref b) (cell h a) -> b < length h.
Lemma upd_len : forall {A} (l : list A) i x, length (upd l i x) = length l.
Proof. induction l as [|y l IH]; intros [|i] x; cbn; auto. Qed.
Lemma upd_nth : forall {A} (l : list A) i x j d, nth j (upd l i x) d = if Nat.eqb j i && Nat.ltb i (length l) then x else nth j l d.
Proof.
  induction l as [|y l IH]; intros [|i] x [|j] d; cbn; try reflexivity.
  - destruct (Nat.eqb j i); reflexivity.
  - rewrite IH. reflexivity.
Qed.
Lemma upd_in : forall {A} (l : list A) i x y, In y (upd l i x) -> y = x \/ In y l.
Proof. induction l as [|z l IH]; intros [|i] x y H; cbn in H; try contradiction; destruct H as [H|H]; cbn; auto. apply IH in H. tauto. Qed.
Lemma upd_nth_error : forall {A} (l : list A) i x j, nth_error (upd l i x) j = if Nat.eqb j i then (if Nat.ltb i (length l) then Some x else None) else nth_error l j.
Proof.
  induction l as [|y l IH]; intros [|i] x [|j]; cbn; try reflexivity.
  - destruct (Nat.eqb j i); reflexivity.
  - rewrite IH. reflexivity.
Qed.
Lemma cell_store : forall h a i w b, cell (store h a i w) b = if Nat.eqb b a && Nat.ltb a (length h) then upd (cell h a) i w else cell h b.
Proof. intros. unfold cell at 1, store. apply upd_nth. Qed.
Lemma cell_store_other : forall h a i w b, b <> a -> cell (store h a i w) b = cell h b.
Proof. intros h a i w b N. rewrite cell_store. apply Nat.eqb_neq in N. rewrite N. reflexivity. Qed.
Lemma cell_store_in : forall h a i w b x, In x (cell (store h a i w) b) -> In x (cell h b) \/ (b = a /\ x = w).
Proof.
  intros h a i w b x H. rewrite cell_store in H. destruct (Nat.eqb_spec b a) as [->|N]; [|auto]. cbn [andb] in H. destruct (a <? length h); [|auto].
  apply upd_in in H. tauto.
Qed.
Lemma store_len : forall h a i w, length (store h a i w) = length h.
Proof. intros. apply upd_len. Qed.
Lemma cell_ext : forall h ws a, a < length h -> cell (h ++ [ws]) a = cell h a.
Proof. intros. unfold cell. apply app_nth1. assumption. Qed.
Lemma cell_new : forall h ws, cell (h ++ [ws]) (length h) = ws.
Proof. intros. unfold cell. rewrite app_nth2, Nat.sub_diag by lia. reflexivity. Qed.
Lemma reach_lt : forall h r a, wf h -> r < length h -> reach h r a -> a < length h.
Proof. intros h r a W L H. induction H; [exact L|]. exact (W _ _ H0). Qed.
Lemma reach_trans : forall h r a b, reach h r a -> reach h a b -> reach h r b.
Proof. intros h r a b H1 H2. induction H2; [exact H1|]. econstructor; eauto. Qed.
Lemma reach_ext : forall h ws r a, wf h -> r < length h -> (reach (h ++ [ws]) r a <-> reach h r a).
Proof.
  intros h ws r a W L. split; intros H.
  - assert (Q : reach h r a /\ a < length h).
    { induction H as [|a b H IH I]; [split; [constructor|exact L]|]. destruct IH as [IH La]. rewrite (cell_ext h ws a La) in I. split; [econstructor; eauto|exact (W _ _ I)]. }
    tauto.
  - assert (Q : reach (h ++ [ws]) r a /\ a < length h); [|tauto].
    induction H as [|a b H IH I]; [split; [constructor|exact L]|]. destruct IH as [IH La]. split; [|exact (W _ _ I)]. econstructor; [exact IH|]. rewrite (cell_ext h ws a La). exact I.
Qed.
(* a write by someone who has both the place and the word reaches nothing new *)
Lemma reach_store_has : forall h rs a i w r b, reachable h rs a -> has h rs w -> reach (store h a i w) r b -> reach h r b \/ (reach h r a /\ reachable h rs b).
Proof.
  intros h rs a i w r b A W H. induction H as [|x y H IH I]; [left; constructor|].
  apply cell_store_in in I. destruct I as [I|[-> <-]].
  - destruct IH as [IH|[IH (q & Q & IH2)]]; [left; econstructor; eauto|right]. split; [exact IH|]. exists q. split; [exact Q|]. econstructor; eauto.
  - cbn in W. right. split; [|exact W]. destruct IH as [IH|[IH _]]; exact IH.
Qed.
(* and one who does not come by the place reaches what it did *)
Lemma reach_store_avoid : forall h a i w r b, ~ reach h r a -> reach (store h a i w) r b -> reach h r b.
Proof.
  intros h a i w r b N H. induction H as [|x y H IH I]; [constructor|]. apply cell_store_in in I. destruct I as [I|[-> _]]; [econstructor; eauto|]. destruct (N IH).
Qed.

(* the invariant, for any set P that contains what is public *)
Record inv (P : nat -> Prop) (s : st) : Prop := {
  i_wf : wf (mem s);
  i_reg : reg s < length (mem s);
  i_vars : forall k rs r, nth_error (vars s) k = Some rs -> In r rs -> r < length (mem s);
  i_preg : P (reg s);
  i_plt : forall a, P a -> a < length (mem s);
  i_closed : forall a b, P a -> In (Ref b) (cell (mem s) a) -> P b;
  i_one : forall j k a, sees s j a -> sees s k a -> j = k \/ P a }.
Lemma closed_reach : forall (P : nat -> Prop) h r a, (forall a b, P a -> In (Ref b) (cell h a) -> P b) -> P r -> reach h r a -> P a.
Proof. intros P h r a C R H. induction H; eauto. Qed.
Lemma wf_store : forall h a i w, wf h -> (forall b, w = Ref b -> b < length h) -> wf (store h a i w).
Proof. intros h a i w W B x y I. rewrite store_len. apply cell_store_in in I. destruct I as [I|[_ I]]; [exact (W _ _ I)|exact (B y (eq_sym I))]. Qed.
Lemma wf_ext : forall h ws, wf h -> (forall b, In (Ref b) ws -> b < length h) -> wf (h ++ [ws]).
Proof.
  intros h ws W B x y I. rewrite app_length. cbn. destruct (Nat.lt_trichotomy x (length h)) as [L|[->|L]].
  - rewrite (cell_ext h ws x L) in I. specialize (W _ _ I). lia.
  - rewrite cell_new in I. specialize (B _ I). lia.
  - unfold cell in I. rewrite nth_overflow in I; [destruct I|]. rewrite app_length. cbn. lia.
Qed.
Lemma fresh_in : forall ks ws b, In (Ref b) (fresh ks ws) -> In (Ref b) ws.
Proof.
  induction ks as [|k ks IH]; intros ws b H; [destruct H|]. cbn in H. destruct H as [H|H].
  - destruct k; [|discriminate]. destruct ws; cbn in *; [discriminate|auto].
  - apply IH in H. destruct ws; cbn in *; [destruct H|auto].
Qed.
Lemma ext_P : forall P h ws a b, wf h -> (forall a, P a -> a < length h) -> (forall a b, P a -> In (Ref b) (cell h a) -> P b) -> P a -> In (Ref b) (cell (h ++ [ws]) a) -> P b.
Proof. intros P h ws a b W L C PA I. rewrite (cell_ext h ws a (L a PA)) in I. eauto. Qed.

(* a step of anyone, with what it makes public *)
Definition made (l : label) (s : st) (P : nat -> Prop) (a : nat) : Prop :=
  P a \/ match l with Store k c i (Ref b) => P c /\ reach (mem s) b a | _ => False end.
Lemma inv_step : forall P s l s', inv P s -> step s l s' -> inv (made l s P) s'.
Proof.
  intros P s l s' V H. destruct H as [h r ks vs|h r ks vs k rs ws K F|h r ks vs k rs a i w K A W|h r ks vs a i w A W].
  - (* Recv *)
    destruct V as [V1 V2 V3 V4 V5 V6 V7]. cbn in V1, V2, V3, V4, V5, V6.
    assert (FW : forall b, In (Ref b) (fresh ks (cell h r)) -> P b) by (intros b B; apply fresh_in in B; exact (V6 _ _ V4 B)).
    assert (SEE : forall j x, sees (St (h ++ [fresh ks (cell h r)]) r ks (vs ++ [[length h]])) j x -> P x \/ sees (St h r ks vs) j x \/ (j = length vs /\ x = length h)).
    { intros j x (rs & J & q & Q & R). cbn in J, R. destruct (Nat.lt_ge_cases j (length vs)) as [L|L].
      - rewrite nth_error_app1 in J by exact L. right. left. exists rs. split; [exact J|]. exists q. split; [exact Q|]. cbn. apply (reach_ext h (fresh ks (cell h r)) q x V1 (V3 _ _ _ J Q)). exact R.
      - rewrite nth_error_app2 in J by exact L. destruct (j - length vs) as [|m] eqn:D; cbn in J; [|destruct m; discriminate]. injection J as <-. destruct Q as [<-|[]].
        assert (Z : x = length h \/ P x); [|destruct Z; [right; right; split; [lia|assumption]|auto]]. induction R as [|y z R IH I]; [auto|]. right. destruct IH as [->|IH].
        + rewrite cell_new in I. auto.
        + rewrite (cell_ext h _ y (V5 _ IH)) in I. eauto. }
    constructor; cbn.
    + apply wf_ext; [exact V1|]. intros b B. apply V5. auto.
    + rewrite app_length. cbn. lia.
    + intros j rs q J Q. rewrite app_length. cbn. destruct (Nat.lt_ge_cases j (length vs)) as [L|L].
      * rewrite nth_error_app1 in J by exact L. specialize (V3 _ _ _ J Q). lia.
      * rewrite nth_error_app2 in J by exact L. destruct (j - length vs) as [|m]; cbn in J; [|destruct m; discriminate]. injection J as <-. destruct Q as [<-|[]]. lia.
    + left. exact V4.
    + intros x [X|[]]. rewrite app_length. cbn. specialize (V5 _ X). lia.
    + intros x y [X|[]] I. left. exact (ext_P P h _ x y V1 V5 V6 X I).
    + intros j k x J K. destruct (SEE j x J) as [PX|[J1|[-> ->]]]; [right; left; exact PX| |]; destruct (SEE k _ K) as [PX|[K1|[-> E]]].
      * right; left; exact PX.
      * destruct (V7 j k x J1 K1); [auto|right; left; assumption].
      * exfalso. subst x. destruct J1 as (rs & J2 & q & Q & R). cbn in *. pose proof (reach_lt h q _ V1 (V3 _ _ _ J2 Q) R). lia.
      * right; left; exact PX.
      * exfalso. destruct K1 as (rs & J2 & q & Q & R). cbn in *. pose proof (reach_lt h q _ V1 (V3 _ _ _ J2 Q) R). lia.
      * auto.
  - (* New *)
    destruct V as [V1 V2 V3 V4 V5 V6 V7]. cbn in V1, V2, V3, V4, V5, V6.
    assert (KL : k < length vs) by (apply nth_error_Some; rewrite K; discriminate).
    assert (FR : forall b, In (Ref b) ws -> reachable h rs b) by (intros b B; rewrite Forall_forall in F; exact (F _ B)).
    assert (RL : forall b, reachable h rs b -> b < length h) by (intros b (q & Q & R); exact (reach_lt h q b V1 (V3 _ _ _ K Q) R)).
    assert (VN : forall j rs', nth_error (upd vs k (length h :: rs)) j = Some rs' -> (j = k /\ rs' = length h :: rs) \/ (j <> k /\ nth_error vs j = Some rs')).
    { intros j rs' J. rewrite upd_nth_error in J. destruct (Nat.eqb_spec j k) as [->|N]; [|auto]. destruct (k <? length vs); [|discriminate]. injection J as <-. auto. }
    assert (SEE : forall j x, sees (St (h ++ [ws]) r ks (upd vs k (length h :: rs))) j x -> sees (St h r ks vs) j x \/ (j = k /\ x = length h)).
    { intros j x (rs' & J & q & Q & R). cbn in J, R. apply VN in J. destruct J as [[-> ->]|[N J]].
      - destruct Q as [<-|Q].
        + assert (Z : x = length h \/ reachable h rs x).
          { induction R as [|y z R IH I]; [auto|]. right. destruct IH as [->|IH].
            - rewrite cell_new in I. auto.
            - rewrite (cell_ext h ws y (RL _ IH)) in I. destruct IH as (q & Q & R'). exists q. split; [exact Q|]. econstructor; eauto. }
          destruct Z as [Z|Z]; [auto|left]. exists rs. auto.
        + left. exists rs. split; [exact K|]. exists q. split; [exact Q|]. cbn. apply (reach_ext h ws q x V1 (V3 _ _ _ K Q)). exact R.
      - left. exists rs'. split; [exact J|]. exists q. split; [exact Q|]. cbn. apply (reach_ext h ws q x V1 (V3 _ _ _ J Q)). exact R. }
    constructor; cbn.
    + apply wf_ext; [exact V1|]. auto.
    + rewrite app_length. cbn. lia.
    + intros j rs' q J Q. rewrite app_length. cbn. apply VN in J. destruct J as [[-> ->]|[N J]].
      * destruct Q as [<-|Q]; [lia|]. specialize (V3 _ _ _ K Q). lia.
      * specialize (V3 _ _ _ J Q). lia.
    + left. exact V4.
    + intros x [X|[]]. rewrite app_length. cbn. specialize (V5 _ X). lia.
    + intros x y [X|[]] I. left. exact (ext_P P h _ x y V1 V5 V6 X I).
    + intros j j' x J K'. destruct (SEE j x J) as [J1|[-> ->]]; destruct (SEE j' _ K') as [K1|[-> E]].
      * destruct (V7 j j' x J1 K1); [auto|right; left; assumption].
      * exfalso. subst x. destruct J1 as (rs' & J2 & q & Q & R). cbn in *. pose proof (reach_lt h q _ V1 (V3 _ _ _ J2 Q) R). lia.
      * exfalso. destruct K1 as (rs' & J2 & q & Q & R). cbn in *. pose proof (reach_lt h q _ V1 (V3 _ _ _ J2 Q) R). lia.
      * auto.
  - (* Store *)
    destruct V as [V1 V2 V3 V4 V5 V6 V7]. cbn in V1, V2, V3, V4, V5, V6.
    assert (RL : forall b, reachable h rs b -> b < length h) by (intros b (q & Q & R); exact (reach_lt h q b V1 (V3 _ _ _ K Q) R)).
    set (P' := made (Store k a i w) (St h r ks vs) P).
    assert (CL : forall x y, P' x -> In (Ref y) (cell (store h a i w) x) -> P' y).
    { intros x y X I. apply cell_store_in in I. destruct I as [I|[-> <-]].
      - destruct X as [X|X]; [left; eauto|]. right. destruct w as [|b]; [destruct X|]. destruct X as [X1 X2]. split; [exact X1|]. cbn in *. econstructor; eauto.
      - assert (PA : P a). { destruct X as [X|[X _]]; exact X. } right. split; [exact PA|]. cbn. constructor. }
    assert (SEE : forall j x, sees (St (store h a i w) r ks vs) j x -> sees (St h r ks vs) j x \/ P' x).
    { intros j x (rs' & J & q & Q & R). cbn in J, R. destruct (Nat.eq_dec j k) as [->|D].
      - rewrite K in J. injection J as <-. left. exists rs. split; [exact K|]. destruct (reach_store_has h rs a i w q x A W R) as [R'|[_ R']]; [exists q; auto|exact R'].
      - assert (Z : reach h q x \/ P' x).
        { induction R as [|y z R IH I]; [left; constructor|]. destruct IH as [IH|IH]; [|right; eauto].
          apply cell_store_in in I. destruct I as [I|[-> <-]]; [left; econstructor; eauto|]. right.
          destruct (V7 j k a) as [E|PA].
          - exists rs'. split; [exact J|]. exists q. auto.
          - exists rs. auto.
          - destruct (D E).
          - right. split; [exact PA|]. constructor. }
        destruct Z as [Z|Z]; [left|auto]. exists rs'. split; [exact J|]. exists q. auto. }
    constructor.
    + cbn. apply wf_store; [exact V1|]. intros b ->. apply RL. exact W.
    + cbn. rewrite store_len. exact V2.
    + cbn. intros j rs' q J Q. rewrite store_len. exact (V3 _ _ _ J Q).
    + left. exact V4.
    + cbn. rewrite store_len. intros x [X|X]; [exact (V5 _ X)|]. destruct w as [|b]; [destruct X|]. destruct X as [_ X]. cbn in X. exact (reach_lt h b x V1 (RL _ W) X).
    + exact CL.
    + intros j j' x J K'. destruct (SEE j x J) as [J1|PX]; [|auto]. destruct (SEE j' x K') as [K1|PX]; [|auto]. destruct (V7 j j' x J1 K1); [auto|right; left; assumption].
  - (* Own *)
    destruct V as [V1 V2 V3 V4 V5 V6 V7]. cbn in V1, V2, V3, V4, V5, V6.
    assert (PA : P a) by exact (closed_reach P h r a V6 V4 A).
    assert (PW : forall b, w = Ref b -> P b). { intros b ->. destruct W as (q & [<-|[]] & R). exact (closed_reach P h r b V6 V4 R). }
    assert (CL : forall x y, P x -> In (Ref y) (cell (store h a i w) x) -> P y).
    { intros x y X I. apply cell_store_in in I. destruct I as [I|[_ I]]; [eauto|exact (PW y (eq_sym I))]. }
    assert (SEE : forall j x, sees (St (store h a i w) r ks vs) j x -> sees (St h r ks vs) j x \/ P x).
    { intros j x (rs' & J & q & Q & R). cbn in J, R. 
      assert (Z : reach h q x \/ P x).
      { induction R as [|y z R IH I]; [left; constructor|]. destruct IH as [IH|IH]; [|right; eauto].
        apply cell_store_in in I. destruct I as [I|[-> E]]; [left; econstructor; eauto|]. right. exact (PW z (eq_sym E)). }
      destruct Z as [Z|Z]; [left|auto]. exists rs'. split; [exact J|]. exists q. auto. }
    constructor.
    + cbn. apply wf_store; [exact V1|]. intros b E. apply V5. exact (PW b E).
    + cbn. rewrite store_len. exact V2.
    + cbn. intros j rs' q J Q. rewrite store_len. exact (V3 _ _ _ J Q).
    + left. exact V4.
    + cbn. rewrite store_len. intros x [X|[]]. exact (V5 _ X).
    + cbn [mem]. intros x y [X|[]] I. left. exact (CL x y X I).
    + intros j j' x J K'. destruct (SEE j x J) as [J1|PX]; [|right; left; exact PX]. destruct (SEE j' x K') as [K1|PX]; [|right; left; exact PX]. destruct (V7 j j' x J1 K1); [auto|right; left; assumption].
Qed.

Lemma steps_app_inv : forall s ls l s', steps s (ls ++ [l]) s' -> exists s1, steps s ls s1 /\ step s1 l s'.
Proof.
  intros s ls l s' H. inversion H as [E|ls0 s1 l0 s2 H1 H2 E]; [destruct ls; discriminate|]. apply app_inj_tail in E. destruct E as [-> ->]. eauto.
Qed.
Lemma steps_reg : forall s ls s', steps s ls s' -> reg s' = reg s /\ kinds s' = kinds s.
Proof. intros s ls s' H. induction H as [|ls s1 l s2 H IH S1]; [auto|]. destruct S1; cbn in *; exact IH. Qed.
Lemma inv_steps : forall s0 ls s, starts s0 -> steps s0 ls s -> exists P, inv P s /\ forall a, P a -> public s0 ls a.
Proof.
  intros s0 ls s (N & L & _ & W) H. induction H as [|ls s1 l s2 H IH T].
  - exists (fun a => reach (mem s0) (reg s0) a). split.
    + constructor; try assumption.
      * intros k rs r K. rewrite N in K. destruct k; discriminate K.
      * constructor.
      * intros a A. exact (reach_lt _ _ a W L A).
      * intros a b A I. econstructor; eauto.
      * intros j k a (rs & J & _). rewrite N in J. destruct j; discriminate J.
    + intros a A. apply pub_reg with (s := s0); [constructor|exact A].
  - destruct IH as (P & V & Q). exists (made l s1 P). split; [exact (inv_step P s1 l s2 V T)|].
    intros a [A|A]; [apply pub_old; exact (Q a A)|]. destruct l as [|k ws|k c i [z|b]|c i w]; try contradiction. destruct A as [A1 A2].
    apply pub_write with (s := s1) (a := c); [exact H|exact (Q c A1)|exact A2].
Qed.
