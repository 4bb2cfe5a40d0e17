From Coq Require Import Bool Arith ZArith Lia List.
From Verif Require Import Prelude ReqModel ShutModel ShutSpec.
Import ListNotations.

Lemma fset_eq {A} (f : nat -> A) i x : fset f i x i = x.
Proof. unfold fset. rewrite Nat.eqb_refl. reflexivity. Qed.
Lemma fset_ne {A} (f : nat -> A) i x j : j <> i -> fset f i x j = f j.
Proof. intros H. unfold fset. destruct (Nat.eqb_spec j i); congruence. Qed.

Ltac fcase := unfold fset in *;
  repeat match goal with
  | H : context [if ?a =? ?b then _ else _] |- _ => let Hq := fresh "Hq" in destruct (Nat.eqb_spec a b) as [Hq|?]; [first [subst a | subst b | clear Hq]|]
  | |- context [if ?a =? ?b then _ else _] => let Hq := fresh "Hq" in destruct (Nat.eqb_spec a b) as [Hq|?]; [first [subst a | subst b | clear Hq]|]
  end.

Ltac inv_step H :=
  unfold step in H; cbv zeta in H;
  repeat match type of H with
  | context [match ?x with _ => _ end] => destruct x eqn:?; try discriminate
  end;
  match type of H with Ok ?a = Ok ?b => let E := fresh in assert (E : b = a) by congruence; clear H; subst b end;
  cbn in *; auto.

Opaque five.
Lemma holds_cons e l : holds (e :: l) = match e with EHold h => h :: holds l | _ => holds l end.
Proof. destruct e; reflexivity. Qed.
Lemma releases_cons e l : releases (e :: l) = match e with ERelease h => h :: releases l | _ => releases l end.
Proof. destruct e; reflexivity. Qed.
Lemma closes_cons e l : closes (e :: l) = match e with EClosed h => h :: closes l | _ => closes l end.
Proof. destruct e; reflexivity. Qed.
Lemma closes5_cons e l : closes5 (e :: l) = match e with EClosed5 h => h :: closes5 l | _ => closes5 l end.
Proof. destruct e; reflexivity. Qed.
Arguments holds : simpl never.
Arguments releases : simpl never.
Arguments closes : simpl never.
Arguments closes5 : simpl never.

(* ---- counters ---- *)
Record invA (s : st) : Prop := {
  a_cnt : (cnt s = Z.of_nat (length (holds (log s))) - Z.of_nat (length (releases (log s))))%Z;
  a_pos : (0 <= cnt s)%Z;
  a_nodup : NoDup (holds (log s));
  a_incl : incl (releases (log s)) (holds (log s));
  a_held : forall h, In h (holds (log s)) <-> pcs s h = PHeld \/ pcs s h = PHoldWait }.

Lemma invA_init : invA init.
Proof. constructor; cbn; try constructor; try lia; try easy. intros [H|H]; discriminate. Qed.

(* a step that neither holds nor releases, and does not move any process to or from holding *)
Lemma invA_same s s' : invA s -> cnt s' = cnt s -> holds (log s') = holds (log s) ->
  releases (log s') = releases (log s) ->
  (forall h, (pcs s' h = PHeld \/ pcs s' h = PHoldWait) <-> (pcs s h = PHeld \/ pcs s h = PHoldWait)) -> invA s'.
Proof.
  intros [H1 H2 H3 H4 H5] Hc Hh Hr Hp. constructor; rewrite ?Hc, ?Hh, ?Hr; auto.
  intros h. rewrite H5. symmetry. apply Hp.
Qed.

Lemma held_fset f r p p' : f r = p -> p <> PHeld -> p <> PHoldWait -> p' <> PHeld -> p' <> PHoldWait ->
  forall h, (fset f r p' h = PHeld \/ fset f r p' h = PHoldWait) <-> (f h = PHeld \/ f h = PHoldWait).
Proof. intros Hf H1 H2 H3 H4 h. fcase; [|tauto]. split; intros [H|H]; congruence. Qed.

Lemma invA_step s l s' : invA s -> step s l = Ok s' -> invA s'.
Proof.
  intros I H. inv_step H; try (apply (invA_same s); cbn; auto; try reflexivity;
    try (eapply held_fset; [eassumption|congruence|congruence|try congruence|try congruence]); tauto).
  all: try (apply (invA_same s); cbn; auto; intros h; fcase; unfold after_begin in *;
       try match goal with |- context [if ?b then PLoop 1 else PEnd] => destruct b end;
       repeat match goal with H : pcs _ _ = _ |- _ => rewrite H in * end;
       split; intros [?|?]; try discriminate; auto; congruence).
  - (* LHold wait *) destruct I as [H1 H2 H3 H4 H5]. constructor; cbn [cnt log pcs emit set_wg set_pc]; rewrite ?holds_cons, ?releases_cons; cbn [length]; try lia.
    + constructor; [|exact H3]. rewrite H5. rewrite Heqp. intros [?|?]; discriminate.
    + intros x Hx. right. apply H4. exact Hx.
    + intros x. cbn [In]. rewrite H5. fcase; [tauto|]. split; [intros [?|?]; [congruence|auto]|auto].
  - destruct I as [H1 H2 H3 H4 H5]. constructor; cbn [cnt log pcs emit set_wg set_pc]; rewrite ?holds_cons, ?releases_cons; cbn [length]; try lia.
    + constructor; [|exact H3]. rewrite H5. rewrite Heqp. intros [?|?]; discriminate.
    + intros x Hx. right. apply H4. exact Hx.
    + intros x. cbn [In]. rewrite H5. fcase; [tauto|]. split; [intros [?|?]; [congruence|auto]|auto].
  - apply (invA_same s); cbn; auto. intros x. fcase; [rewrite Heqp|]; split; intros [?|?]; auto; discriminate.
  - destruct I as [H1 H2 H3 H4 H5]. constructor; cbn [cnt log pcs emit set_wg set_pc]; rewrite ?holds_cons, ?releases_cons; cbn [length]; repeat match goal with H : (_ <? _)%Z = false |- _ => apply Z.ltb_ge in H end; try lia; auto.
    + intros x [<-|Hx]; [|apply H4; exact Hx]. apply H5. auto.
    + intros x. rewrite H5. fcase; [rewrite Heqp|tauto]; split; intros [Hx|Hx]; discriminate || destruct (_ || _); discriminate.
  - destruct I as [H1 H2 H3 H4 H5]. constructor; cbn [cnt log pcs emit set_wg set_pc]; rewrite ?holds_cons, ?releases_cons; cbn [length]; repeat match goal with H : (_ <? _)%Z = false |- _ => apply Z.ltb_ge in H end; try lia; auto.
    + intros x [<-|Hx]; [|apply H4; exact Hx]. apply H5. auto.
    + intros x. rewrite H5. fcase; [rewrite Heqp|tauto]; split; intros [Hx|Hx]; discriminate || destruct (_ || _); discriminate.
  - apply andb_true_iff in Heqb0 as [Hc _]. apply Z.eqb_eq in Hc.
    apply (invA_same s); cbn; auto. eapply held_fset; [eassumption|congruence..].
Qed.


Lemma exec_inv (P : st -> Prop) : (forall s l s', P s -> step s l = Ok s' -> P s') ->
  forall ls s s', P s -> exec s ls = Ok s' -> P s'.
Proof.
  intros Hs. induction ls as [|l ls IH]; intros s s' HP H; cbn in H.
  - inversion H; subst; exact HP.
  - destruct (step s l) as [s1|] eqn:E; cbn in H; [|discriminate]. eapply IH; [|exact H]. eapply Hs; eauto.
Qed.

(* ---- begin and timers ---- *)
Definition fired (s : st) : Prop :=
  exists t, closes (log s) = [t] /\ (t <= now s)%Z /\
   ((exists f, timers s = [f] /\ ch5 s = false /\ (t + five <= f)%Z /\ closes5 (log s) = []) \/
     (timers s = [] /\ ch5 s = true /\ exists u, closes5 (log s) = [u])).
Definition quiet (s : st) : Prop :=
  ch s = false /\ ch5 s = false /\ timers s = [] /\ closes (log s) = [] /\ closes5 (log s) = [].
Definition others_enter (s : st) (P : nat -> Prop) : Prop :=
  forall r b sig, pcs s r = PBegin b sig -> P r -> b = BEnter.

Record invB (s : st) : Prop := {
  b_once : match once s with
           | ONew => quiet s /\ others_enter s (fun _ => True)
           | ORun q => others_enter s (fun r => r <> q) /\
              exists b sig, pcs s q = PBegin b sig /\
                match b with
                 | BEnter => False
                 | BIn => quiet s
                 | BClosed => ch s = true /\ ch5 s = false /\ timers s = [] /\ closes5 (log s) = [] /\
                             exists t, closes (log s) = [t] /\ (t <= now s)%Z
                 | BSpawned => ch s = true /\ fired s
                 end
           | ODone => ch s = true /\ fired s /\ others_enter s (fun _ => True)
           end;
  b_begun : forall r b sig, pcs s r = PBegin b sig -> In (EBegin r) (log s) }.

Lemma invB_init : invB init.
Proof. constructor; cbn; [|discriminate]. repeat split; discriminate. Qed.

Lemma invB_same s s' : invB s -> once s' = once s -> ch s' = ch s -> ch5 s' = ch5 s -> timers s' = timers s ->
  (now s <= now s')%Z ->
  closes (log s') = closes (log s) -> closes5 (log s') = closes5 (log s) -> incl (log s) (log s') ->
  (forall r b sig, pcs s' r = PBegin b sig -> pcs s r = PBegin b sig \/ (b = BEnter /\ In (EBegin r) (log s') /\
     forall b0 sig0, pcs s r = PBegin b0 sig0 -> b0 = BEnter)) ->
  (forall r b sig, pcs s r = PBegin b sig -> b <> BEnter -> pcs s' r = PBegin b sig) -> invB s'.
Proof.
  intros [H1 H2] Eo Ec E5 Et En Ecl Ecl5 Hincl Hp Hq. constructor.
  - rewrite Eo. unfold quiet, fired in *. rewrite Ec, E5, Et, Ecl, Ecl5.
    destruct (once s).
    + destruct H1 as [Hqu Ho]. split; [exact Hqu|]. intros r b sig Hr _.
      destruct (Hp _ _ _ Hr) as [Hr'|[Hr' _]]; [eapply Ho; eauto|exact Hr'].
    + destruct H1 as [Ho (b & sig & Hb & Hm)]. split.
      * intros r' b' sig' Hr Hne. destruct (Hp _ _ _ Hr) as [Hr'|[Hr' _]]; [eapply Ho; eauto|exact Hr'].
      * exists b, sig. split; [apply Hq; [exact Hb|]; intros ->; exact Hm|].
        destruct b; auto.
        -- destruct Hm as (? & ? & ? & ? & t & ? & ?). repeat split; auto. exists t. split; auto. lia.
        -- destruct Hm as (? & t & ? & ? & ?). split; auto. exists t. repeat split; auto. lia.
    + destruct H1 as (Hc & (t & ? & ? & ?) & Ho). repeat split; auto.
      * exists t. repeat split; auto. lia.
      * intros r b sig Hr _. destruct (Hp _ _ _ Hr) as [Hr'|[Hr' _]]; [eapply Ho; eauto|exact Hr'].
  - intros r b sig Hr. destruct (Hp _ _ _ Hr) as [Hr'|(_ & Hr' & _)]; [apply Hincl; eapply H2; eauto|exact Hr'].
Qed.

Lemma invB_step s l s' : invB s -> step s l = Ok s' -> invB s'.
Proof.
  intros I H. inv_step H.
  all: try (apply (invB_same s); cbn; auto; try lia; try (intros x Hx; cbn; auto; fail);
    [intros q b0 sig0 Hq; fcase; repeat match goal with H : (if ?b then _ else _) = PBegin _ _ |- _ => destruct b end;
       try discriminate; auto; try (right; inversion Hq; subst; split; [reflexivity|split; [auto|congruence]])
    |intros q b0 sig0 Hq Hne; fcase; congruence]).
  - (* LTick *) apply Z.leb_le in Heqb0. apply (invB_same s); cbn; auto; try lia.
    + intros x Hx; exact Hx.
  - (* enter the once *)
    destruct I as [H1 H2]. rewrite Heqo in H1. destruct H1 as [Hq Ho]. constructor; cbn.
    + split.
      * intros q b0 sig0 Hb Hne. cbn in Hb. rewrite fset_ne in Hb by exact Hne. eapply Ho; eauto.
      * exists BIn, sig. rewrite fset_eq. split; [reflexivity|]. exact Hq.
    + intros q b0 sig0 Hb. fcase; [eapply H2; eauto|eapply H2; eauto].
  - (* after_begin *) destruct sig; cbn in Hq; discriminate.
  - (* close ch *)
    destruct I as [H1 H2].
    assert (Hrun : once s = ORun r).
    { destruct (once s) as [|q|]; [destruct H1 as [_ Ho]| destruct H1 as [Ho _]|destruct H1 as (_ & _ & Ho)].
      - specialize (Ho r _ _ Heqp I). discriminate.
      - destruct (Nat.eq_dec r q); [subst; reflexivity|]. specialize (Ho r _ _ Heqp n). discriminate.
      - specialize (Ho r _ _ Heqp I). discriminate. }
    rewrite Hrun in H1. destruct H1 as [Ho (bb & sg & Hb & Hm)]. rewrite Heqp in Hb. inversion Hb; subst bb sg.
    destruct Hm as (Hc & H5 & Ht & Hcl & Hcl5). constructor; cbn.
    + rewrite Hrun. split.
      * intros q b0 sig0 Hq Hne. cbn in Hq. rewrite fset_ne in Hq by exact Hne. eapply Ho; eauto.
      * exists BClosed, sig. rewrite fset_eq. split; [reflexivity|]. rewrite closes_cons, closes5_cons. cbn.
        repeat split; auto. exists (now s). rewrite Hcl. split; [reflexivity|lia].
    + intros q b0 sig0 Hq. right. fcase; [eapply H2; eauto|eapply H2; eauto].
  - (* spawn *)
    destruct I as [H1 H2].
    assert (Hrun : once s = ORun r).
    { destruct (once s) as [|q|]; [destruct H1 as [_ Ho]| destruct H1 as [Ho _]|destruct H1 as (_ & _ & Ho)].
      - specialize (Ho r _ _ Heqp I). discriminate.
      - destruct (Nat.eq_dec r q); [subst; reflexivity|]. specialize (Ho r _ _ Heqp n). discriminate.
      - specialize (Ho r _ _ Heqp I). discriminate. }
    rewrite Hrun in H1. destruct H1 as [Ho (bb & sg & Hb & Hm)]. rewrite Heqp in Hb. inversion Hb; subst bb sg.
    destruct Hm as (Hc & H5 & Ht & Hcl5 & t & Hcl & Hle). constructor; cbn.
    + rewrite Hrun. split.
      * intros q b0 sig0 Hq Hne. cbn in Hq. rewrite fset_ne in Hq by exact Hne. eapply Ho; eauto.
      * exists BSpawned, sig. rewrite fset_eq. split; [reflexivity|]. split; [exact Hc|].
        exists t. cbn. repeat split; auto. left. exists (now s + five)%Z. rewrite Ht. repeat split; auto. lia.
    + intros q b0 sig0 Hq. fcase; [eapply H2; eauto|eapply H2; eauto].
  - (* once done *)
    destruct I as [H1 H2].
    assert (Hrun : once s = ORun r).
    { destruct (once s) as [|q|]; [destruct H1 as [_ Ho]| destruct H1 as [Ho _]|destruct H1 as (_ & _ & Ho)].
      - specialize (Ho r _ _ Heqp I). discriminate.
      - destruct (Nat.eq_dec r q); [subst; reflexivity|]. specialize (Ho r _ _ Heqp n). discriminate.
      - specialize (Ho r _ _ Heqp I). discriminate. }
    rewrite Hrun in H1. destruct H1 as [Ho (bb & sg & Hb & Hm)]. rewrite Heqp in Hb. inversion Hb; subst bb sg.
    destruct Hm as (Hc & Hf). constructor; cbn.
    + split; [exact Hc|]. split; [exact Hf|].
      intros q b0 sig0 Hq _. cbn in Hq. fcase; [destruct sig; discriminate|]. eapply Ho; eauto.
    + intros q b0 sig0 Hq. right. fcase; [destruct sig; discriminate|]. eapply H2; eauto.
  - (* timer *)
    destruct I as [H1 H2].
    assert (Hf : fired s -> exists t, closes (log s) = [t] /\ (t <= now s)%Z /\
              (drop_nth i (timers s) = [] /\ true = true /\ exists u, closes5 (EClosed5 (now s) :: log s) = [u])).
    { intros (t & Hcl & Hle & [(f & Ht & _ & Hf & Hcl5)|(Ht & H5 & _)]); [|congruence].
      exists t. repeat split; auto; rewrite Ht in *.
      - destruct i as [|i]; cbn in Heqo |- *; [reflexivity|destruct i; discriminate].
      - rewrite closes5_cons, Hcl5. eauto. }
    assert (Hnf : timers s = [] -> False).
    { intros Ht. rewrite Ht in Heqo. destruct i; discriminate. }
    constructor; cbn.
    + destruct (once s) as [|q|].
      * destruct H1 as [(_ & _ & Ht & _) _]. tauto.
      * destruct H1 as [Ho (b & sg & Hb & Hm)]. split; [exact Ho|]. exists b, sg. split; [exact Hb|].
        destruct b; auto.
        -- destruct Hm as (_ & _ & Ht & _). tauto.
        -- destruct Hm as (_ & _ & Ht & _). tauto.
        -- destruct Hm as (Hc & Hm). split; [exact Hc|]. destruct (Hf Hm) as (t & Ha & Hb' & Hc'). exists t.
           repeat split; auto.
      * destruct H1 as (Hc & Hm & Ho). split; [exact Hc|]. split; [|exact Ho].
        destruct (Hf Hm) as (t & Ha & Hb' & Hc'). exists t. repeat split; auto.
    + intros q b0 sig0 Hq. right. eapply H2; eauto.
  - (* signal *) apply (invB_same s); cbn; auto; try lia. intros x Hx; exact Hx.
Qed.

(* ---- wait group ---- *)
Record invW (s : st) : Prop := {
  w_rel : forall r w, pcs s r = PRel w -> cnt s = 0%Z /\ waiters s = w /\ w <> 0;
  w_uniq : forall r w r' w', pcs s r = PRel w -> pcs s r' = PRel w' -> r = r';
  w_zero : cnt s = 0%Z -> waiters s = 0 \/ exists r, pcs s r = PRel (waiters s);
  w_nodup : NoDup (asleep s);
  w_in : forall d, In d (asleep s) <-> pcs s d = PSleep;
  w_len : length (asleep s) = waiters s + sema s }.

Lemma invW_init : invW init.
Proof. constructor; cbn; try discriminate; auto. constructor. intros d. split; [tauto|discriminate]. Qed.

Definition neutral (p : pc) : Prop := match p with PRel _ | PSleep => False | _ => True end.

Lemma invW_pc s s' : invW s -> cnt s' = cnt s -> waiters s' = waiters s -> sema s' = sema s -> asleep s' = asleep s ->
  (forall r, pcs s' r = pcs s r \/ (neutral (pcs s' r) /\ neutral (pcs s r))) -> invW s'.
Proof.
  intros [H1 H2 H3 H4 H5 H6] Hc Hw Hs Ha Hp.
  assert (Hr : forall r w, pcs s' r = PRel w <-> pcs s r = PRel w).
  { intros r w. destruct (Hp r) as [->|[Ha' Hb]]; [tauto|]. split; intros E; rewrite E in *; contradiction. }
  assert (Hsl : forall r, pcs s' r = PSleep <-> pcs s r = PSleep).
  { intros r. destruct (Hp r) as [->|[Ha' Hb]]; [tauto|]. split; intros E; rewrite E in *; contradiction. }
  constructor; rewrite ?Hc, ?Hw, ?Hs, ?Ha; auto.
  - intros r w E. apply Hr in E. eauto.
  - intros r w r' w' E E'. apply Hr in E, E'. eauto.
  - intros E. destruct (H3 E) as [?|[r E']]; auto. right. exists r. apply Hr. exact E'.
  - intros d. rewrite H5, Hsl. tauto.
Qed.

Lemma neutral_fset f r p p' : f r = p -> neutral p -> neutral p' ->
  forall q, fset f r p' q = f q \/ (neutral (fset f r p' q) /\ neutral (f q)).
Proof. intros <- H1 H2 q. fcase; auto. Qed.

Lemma neutral_after sig : neutral (after_begin sig).
Proof. destruct sig; exact I. Qed.

Lemma remove_len d l : NoDup l -> In d l -> S (length (remove Nat.eq_dec d l)) = length l.
Proof.
  induction l as [|x l IH]; intros Hn Hi; [destruct Hi|]. inversion Hn; subst. cbn.
  destruct (Nat.eq_dec d x).
  - subst. rewrite notin_remove by assumption. reflexivity.
  - destruct Hi as [->|Hi]; [congruence|]. cbn. rewrite IH; auto.
Qed.

Lemma remove_nodup d l : NoDup l -> NoDup (remove Nat.eq_dec d l).
Proof.
  induction l as [|x l IH]; intros Hn; [constructor|]. inversion Hn; subst. cbn.
  destruct (Nat.eq_dec d x); auto. constructor; auto. intros Hx. apply in_remove in Hx. tauto.
Qed.

Lemma invW_step s l s' : invA s -> invW s -> step s l = Ok s' -> invW s'.
Proof.
  intros IA IW H. inv_step H.
  all: try (apply (invW_pc s); cbn; auto; try (eapply neutral_fset; [eassumption|exact I|try exact I; apply neutral_after]); fail).
  - (* LHold wait *) destruct IW as [H1 H2 H3 H4 H5 H6]. pose proof (a_pos s IA) as Hpos.
    assert (Hc : cnt s = 0%Z -> waiters s = 0).
    { intros E. rewrite E in Heqb0. cbn in Heqb0. destruct (Nat.eqb_spec (waiters s) 0); [assumption|discriminate]. }
    assert (Hnr : forall r w, pcs s r <> PRel w).
    { intros r w E. destruct (H1 _ _ E) as (E0 & Ew & Hw). specialize (Hc E0). congruence. }
    constructor; cbn; auto.
    + intros r w E. fcase; try discriminate. exfalso; eapply Hnr; eauto.
    + intros r w r' w' E E'. fcase; try discriminate. exfalso; eapply Hnr; eauto.
    + intros E. lia.
    + intros d. rewrite H5. fcase; [rewrite Heqp; split; discriminate|tauto].
  - destruct IW as [H1 H2 H3 H4 H5 H6]. pose proof (a_pos s IA) as Hpos.
    assert (Hc : cnt s = 0%Z -> waiters s = 0).
    { intros E. rewrite E in Heqb0. cbn in Heqb0. destruct (Nat.eqb_spec (waiters s) 0); [assumption|discriminate]. }
    assert (Hnr : forall r w, pcs s r <> PRel w).
    { intros r w E. destruct (H1 _ _ E) as (E0 & Ew & Hw). specialize (Hc E0). congruence. }
    constructor; cbn; auto.
    + intros r w E. fcase; try discriminate. exfalso; eapply Hnr; eauto.
    + intros r w r' w' E E'. fcase; try discriminate. exfalso; eapply Hnr; eauto.
    + intros E. lia.
    + intros d. rewrite H5. fcase; [rewrite Heqp; split; discriminate|tauto].
  - (* LRelease, not last or nobody waits *)
    destruct IW as [H1 H2 H3 H4 H5 H6]. apply Z.ltb_ge in Heqb0.
    assert (Hnr : forall r w, pcs s r <> PRel w).
    { intros q w E. destruct (H1 _ _ E) as (E0 & _). lia. }
    constructor; cbn; auto.
    + intros q w E. fcase; try discriminate. exfalso; eapply Hnr; eauto.
    + intros q w q' w' E E'. fcase; try discriminate. exfalso; eapply Hnr; eauto.
    + intros E. left. apply orb_true_iff in Heqb1 as [Hb|Hb]; [apply Z.ltb_lt in Hb; lia|apply Nat.eqb_eq in Hb; exact Hb].
    + intros d. rewrite H5. fcase; [rewrite Heqp; split; discriminate|tauto].
  - (* LRelease, last while some wait *)
    destruct IW as [H1 H2 H3 H4 H5 H6]. apply Z.ltb_ge in Heqb0. apply orb_false_iff in Heqb1 as [Hb1 Hb2].
    apply Z.ltb_ge in Hb1. apply Nat.eqb_neq in Hb2.
    assert (Hnr : forall r w, pcs s r <> PRel w).
    { intros q w E. destruct (H1 _ _ E) as (E0 & _). lia. }
    constructor; cbn; auto.
    + intros q w E. fcase; [inversion E; subst|exfalso; eapply Hnr; eauto]. repeat split; auto. lia.
    + intros q w q' w' E E'. fcase; auto; exfalso; eapply Hnr; eauto.
    + intros E. right. exists r. rewrite fset_eq. reflexivity.
    + intros d. rewrite H5. fcase; [rewrite Heqp; split; discriminate|tauto].
  - (* LRelEnd *)
    destruct IW as [H1 H2 H3 H4 H5 H6]. apply andb_true_iff in Heqb0 as [Hc Hw]. apply Z.eqb_eq in Hc. apply Nat.eqb_eq in Hw.
    assert (Hnr : forall q w', q <> r -> pcs s q <> PRel w').
    { intros q w' Hne E. apply Hne. eapply H2; eauto. }
    constructor; cbn; auto.
    + intros q w' E. fcase; [discriminate|]. exfalso. eapply Hnr; eauto.
    + intros q w1 q' w2 E E'. fcase; try discriminate. exfalso. eapply Hnr; eauto.
    + intros d. rewrite H5. fcase; [rewrite Heqp; split; discriminate|tauto].
    + rewrite H6, Hw. lia.
  - (* LWait, sleeps *)
    destruct IW as [H1 H2 H3 H4 H5 H6]. apply Z.eqb_neq in Heqb0.
    assert (Hnr : forall r w, pcs s r <> PRel w).
    { intros q w E. destruct (H1 _ _ E) as (E0 & _). congruence. }
    constructor; cbn; auto.
    + intros q w E. fcase; try discriminate. exfalso; eapply Hnr; eauto.
    + intros q w q' w' E E'. fcase; try discriminate. exfalso; eapply Hnr; eauto.
    + intros E. congruence.
    + constructor; [|exact H4]. rewrite H5. congruence.
    + intros x. rewrite H5. fcase; [tauto|]. split; [intros [?|?]; [congruence|assumption]|auto].
  - (* LAcquire *)
    destruct IW as [H1 H2 H3 H4 H5 H6]. apply andb_true_iff in Heqb0 as [Hc Hw]. apply Z.eqb_eq in Hc. apply Nat.eqb_eq in Hw.
    constructor; cbn; auto.
    + intros q w E. fcase; try discriminate. eauto.
    + intros q w q' w' E E'. fcase; try discriminate. eauto.
    + apply remove_nodup. exact H4.
    + intros x. fcase.
      * split; [intros Hx; apply in_remove in Hx; tauto|discriminate].
      * rewrite <- H5. split; [intros Hx; apply in_remove in Hx; tauto|intros Hx; apply in_in_remove; auto].
    + assert (Hd : In d (asleep s)) by (apply H5; exact Heqp). pose proof (remove_len d _ H4 Hd). lia.
  - (* LSigLoop *)
    apply (invW_pc s); cbn; auto. intros q. fcase; auto; right; rewrite ?Heqp, ?Heqp0; auto; split; exact I.
Qed.

(* ---- histories ---- *)
Definition balanced (l : list event) : Prop := length (holds l) = length (releases l).
Definition momentD (d : nat) (l : list event) : Prop := exists p1 p2, l = p1 ++ p2 /\ In (EDone d) p2 /\ balanced p2.
Definition momentW (w : nat) (l : list event) : Prop := exists p1 p2, l = p1 ++ p2 /\ In (EWait w) p2 /\ balanced p2.

Fixpoint sfx (P : event -> list event -> Prop) (l : list event) : Prop :=
  match l with [] => True | e :: t => P e t /\ sfx P t end.
Lemma sfx_app P a e b : sfx P (a ++ e :: b) -> P e b.
Proof. induction a as [|x a IH]; cbn; intros [H1 H2]; auto. Qed.

Lemma momentD_cons d e l : momentD d l -> momentD d (e :: l).
Proof. intros (p1 & p2 & -> & H). exists (e :: p1), p2. auto. Qed.
Lemma momentW_cons d e l : momentW d l -> momentW d (e :: l).
Proof. intros (p1 & p2 & -> & H). exists (e :: p1), p2. auto. Qed.

Definition in_done (p : pc) : Prop := match p with PDone1 | PSleep | PReady | PClosed => True | _ => False end.
Definition is_ready (p : pc) : Prop := match p with PReady | PClosed => True | _ => False end.

Record invD (s : st) : Prop := {
  d_in : forall d, In (EDone d) (log s) <-> in_done (pcs s d);
  d_mom : forall d, is_ready (pcs s d) -> momentD d (log s);
  d_sel : forall w i d, pcs s w = PSelect i d ->
            In (EWait w) (log s) /\ in_done (pcs s d) /\ (is_ready (pcs s d) -> momentW w (log s));
  d_loop : forall w, listening (pcs s w) = true -> In (EWait w) (log s);
  d_closed : forall d, In (EDoneClosed d) (log s) <-> pcs s d = PClosed }.

Lemma invD_init : invD init.
Proof. constructor; cbn; try easy. Qed.

(* a step of a process that is not a done() goroutine, with an event that is not about Done *)
Lemma invD_other s s' r p' : invD s -> pcs s' = fset (pcs s) r p' ->
  ~ in_done (pcs s r) -> ~ in_done p' ->
  (exists ev, log s' = ev ++ log s /\ (forall d, ~ In (EDone d) ev) /\ (forall d, ~ In (EDoneClosed d) ev)) ->
  (listening p' = true -> In (EWait r) (log s')) ->
  (forall i d, p' <> PSelect i d) -> invD s'.
Proof.
  intros [H1 H2 H3 H4 H5] Hp Hn Hn' (ev & Hl & He1 & He2) Hw Hs.
  assert (Hm : forall d, momentD d (log s) -> momentD d (log s')).
  { intros d Hd. rewrite Hl. clear -Hd. induction ev; [exact Hd|]. cbn. apply momentD_cons. exact IHev. }
  assert (Hm' : forall d, momentW d (log s) -> momentW d (log s')).
  { intros d Hd. rewrite Hl. clear -Hd. induction ev; [exact Hd|]. cbn. apply momentW_cons. exact IHev. }
  constructor; rewrite Hp.
  - intros d. rewrite Hl, in_app_iff, H1. specialize (He1 d). fcase; tauto.
  - intros d Hd. fcase; [destruct p'; contradiction|]. auto.
  - intros w i d E. fcase; try (exfalso; eapply Hs; eassumption).
    + destruct (H3 _ _ _ E) as (_ & Hx & _). contradiction.
    + destruct (H3 _ _ _ E) as (Ha & Hb & Hc). repeat split; auto. rewrite Hl. apply in_or_app. auto.
  - intros w E. fcase; [auto|]. rewrite Hl. apply in_or_app. auto.
  - intros d. rewrite Hl, in_app_iff, H5. specialize (He2 d). fcase; [|tauto].
    split; [intros [?|E]; [tauto|rewrite E in Hn; cbn in Hn; tauto]|intros ->; cbn in Hn'; tauto].
Qed.

(* a step of a done() goroutine *)
Lemma invD_done s s' d p' : invD s -> pcs s' = fset (pcs s) d p' ->
  in_done (pcs s d) -> in_done p' -> ~ is_ready (pcs s d) -> log s' = log s ->
  (is_ready p' -> balanced (log s)) -> p' <> PClosed -> invD s'.
Proof.
  intros [H1 H2 H3 H4 H5] Hp Hi Hi' Hnr Hl Hb Hnc.
  constructor; rewrite Hp, Hl.
  - intros x. rewrite H1. fcase; tauto.
  - intros x Hx. fcase; auto. exists [], (log s). split; [reflexivity|]. split; [apply H1; exact Hi|auto].
  - intros w i x E. fcase; try (destruct p'; try contradiction; discriminate).
    + destruct (H3 _ _ _ E) as (Ha & _ & Hc). repeat split; auto. intros Hr.
      exists [], (log s). auto.
    + eapply H3; eauto.
  - intros w E. fcase; [destruct p'; try contradiction; discriminate|auto].
  - intros x. rewrite H5. fcase; [|tauto]. split; [intros E; rewrite E in Hnr; cbn in Hnr; tauto|tauto].
Qed.

Lemma balanced_zero s : invA s -> cnt s = 0%Z -> balanced (log s).
Proof. intros IA H. pose proof (a_cnt s IA). unfold balanced. lia. Qed.

Ltac other Hq := match goal with ID : invD ?s |- _ => eapply (invD_other s); [exact ID|cbn; reflexivity| | | | |] end;
  cbn; rewrite ?Hq; try (cbn; tauto); try discriminate;
  try (exists []; repeat split; auto; fail);
  try (eexists [_]; cbn; repeat split; auto; intros d0 [E|[]]; discriminate).

Lemma invD_step s l s'  : invA s -> invD s -> step s l = Ok s' -> invD s'.
Proof.
  intros IA ID H. inv_step H.
  all: try (eapply (invD_other s); [exact ID|cbn; reflexivity| | | | |];
    cbn; try match goal with H : pcs ?s ?r = _ |- context [pcs ?s ?r] => rewrite H end; try tauto; try discriminate;
    try (exists []; repeat split; auto; fail);
    try (eexists [_]; cbn; repeat split; auto; intros d0 [E|[]]; discriminate);
    try (eexists [_; _]; cbn; repeat split; auto; intros d0 [E|[E|[]]]; discriminate); fail).
  - destruct ID as [H1 H2 H3 H4 H5]. constructor; cbn; auto.
  - other Heqp. intros E. apply (d_loop s ID). rewrite Heqp. exact E.
  - other Heqp. 1: destruct sig; cbn; tauto.
    + intros E. right. apply (d_loop s ID). rewrite Heqp. destruct sig; [reflexivity|discriminate].
    + intros i d. destruct sig; discriminate.
  - other Heqp. intros E. right. apply (d_loop s ID). rewrite Heqp. exact E.
  - other Heqp. intros E. apply (d_loop s ID). rewrite Heqp. exact E.
  - other Heqp. 1: destruct sig; cbn; tauto.
    + intros E. right. apply (d_loop s ID). rewrite Heqp. destruct sig; [reflexivity|discriminate].
    + intros i d. destruct sig; discriminate.
  - destruct ID as [H1 H2 H3 H4 H5]. constructor; cbn; auto.
    + intros d. rewrite <- H1. split; [intros [E|E]; [discriminate|exact E]|auto].
    + intros d Hd. apply momentD_cons. auto.
    + intros w j d E. destruct (H3 _ _ _ E) as (? & ? & ?). repeat split; auto. intros Hr. apply momentW_cons. auto.
    + intros d. rewrite <- H5. split; [intros [E|E]; [discriminate|exact E]|auto].
  - (* LDone *) destruct ID as [H1 H2 H3 H4 H5]. constructor; cbn.
    + intros x. rewrite H1. fcase; [split; auto; intros; exact I|]. split; [intros [E|E]; [congruence|exact E]|auto].
    + intros x Hx. fcase; [destruct Hx|]. apply momentD_cons. auto.
    + intros w i x E. fcase; try discriminate; destruct (H3 _ _ _ E) as (Ha & Hb & Hc).
      * rewrite Heqp in Hb. destruct Hb.
      * repeat split; auto. intros Hr. apply momentW_cons. auto.
    + intros w E. fcase; [discriminate|]. auto.
    + intros x. rewrite H5. fcase; [rewrite Heqp|]; split; try discriminate; auto; intros [E|E]; congruence.
  - eapply (invD_done s); [exact ID|cbn; reflexivity|rewrite Heqp; exact I|exact I|rewrite Heqp; cbn; tauto|reflexivity| |discriminate].
    intros _. apply balanced_zero; [exact IA|]. apply Z.eqb_eq. exact Heqb0.
  - eapply (invD_done s); [exact ID|cbn; reflexivity|rewrite Heqp; exact I|exact I|rewrite Heqp; cbn; tauto|reflexivity| |discriminate].
    intros [].
  - eapply (invD_done s); [exact ID|cbn; reflexivity|rewrite Heqp; exact I|exact I|rewrite Heqp; cbn; tauto|reflexivity| |discriminate].
    intros _. apply balanced_zero; [exact IA|]. apply andb_true_iff in Heqb0 as [E _]. apply Z.eqb_eq. exact E.
  - (* LCloseD *) destruct ID as [H1 H2 H3 H4 H5]. constructor; cbn.
    + intros x. rewrite H1. fcase; [rewrite Heqp; cbn; tauto|]. split; [intros [E|E]; [congruence|exact E]|auto].
    + intros x Hx. apply momentD_cons. fcase; apply H2; [rewrite Heqp; exact I|exact Hx].
    + intros w i x E. fcase; try discriminate; destruct (H3 _ _ _ E) as (Ha & Hb & Hc).
      * repeat split; auto. intros _. apply momentW_cons. apply Hc. rewrite Heqp. exact I.
      * repeat split; auto. intros Hr. apply momentW_cons. auto.
    + intros w E. fcase; [discriminate|]. auto.
    + intros x. rewrite H5. fcase; [tauto|]. split; auto; intros [E|E]; congruence.
  - (* LSigLoop *) destruct ID as [H1 H2 H3 H4 H5].
    assert (Hdw : d <> w) by congruence.
    set (f := fset (fset (pcs s) d PDone1) w (PSelect i d)).
    assert (Fw : f w = PSelect i d) by apply fset_eq.
    assert (Fd : f d = PDone1) by (unfold f; rewrite fset_ne by exact Hdw; apply fset_eq).
    assert (Fo : forall q, q <> w -> q <> d -> f q = pcs s q).
    { intros q H H'. unfold f. rewrite fset_ne by exact H. apply fset_ne. exact H'. }
    assert (Hc3 : forall q, q = w \/ q = d \/ (q <> w /\ q <> d)) by (intros q; lia).
    constructor; cbn; fold f.
    + intros x. destruct (Hc3 x) as [->|[->|[Hx Hx']]].
      * rewrite Fw, H1, Heqp. cbn. split; [intros [E|E]; [congruence|exact E]|tauto].
      * rewrite Fd. cbn. tauto.
      * rewrite (Fo x Hx Hx'), <- H1. split; [intros [E|E]; [congruence|exact E]|auto].
    + intros x Hx. apply momentD_cons. destruct (Hc3 x) as [->|[->|[Hx1 Hx2]]].
      * rewrite Fw in Hx. destruct Hx.
      * rewrite Fd in Hx. destruct Hx.
      * rewrite (Fo x Hx1 Hx2) in Hx. auto.
    + intros q j x E. destruct (Hc3 q) as [->|[->|[Hx1 Hx2]]].
      * rewrite Fw in E. inversion E; subst. rewrite Fd. split; [right; apply H4; rewrite Heqp; reflexivity|]. split; [exact I|intros []].
      * rewrite Fd in E. discriminate.
      * rewrite (Fo q Hx1 Hx2) in E. destruct (H3 _ _ _ E) as (Ha & Hb & Hc).
        destruct (Hc3 x) as [->|[->|[Hy1 Hy2]]].
        -- rewrite Heqp in Hb. destruct Hb.
        -- rewrite Heqp0 in Hb. destruct Hb.
        -- rewrite (Fo x Hy1 Hy2). repeat split; auto. intros Hr. apply momentW_cons. auto.
    + intros q E. right. destruct (Hc3 q) as [->|[->|[Hx1 Hx2]]].
      * apply H4. rewrite Heqp. reflexivity.
      * rewrite Fd in E. discriminate.
      * rewrite (Fo q Hx1 Hx2) in E. auto.
    + intros x. destruct (Hc3 x) as [->|[->|[Hx1 Hx2]]].
      * rewrite Fw, H5, Heqp. split; [intros [E|E]; discriminate|discriminate].
      * rewrite Fd, H5, Heqp0. split; [intros [E|E]; discriminate|discriminate].
      * rewrite (Fo x Hx1 Hx2), <- H5. split; [intros [E|E]; [discriminate|exact E]|auto].
  - other Heqp.
    + eexists [_; _]; cbn; repeat split; auto; intros d0 [E|[E|[]]]; discriminate.
    + intros _. do 2 right. apply (d_loop s ID). rewrite Heqp. reflexivity.
  - other Heqp.
    + eexists [_; _]; cbn; repeat split; auto; intros d0 [E|[E|[]]]; discriminate.
    + intros _. do 2 right. apply (d_loop s ID). rewrite Heqp. reflexivity.
  - destruct ID as [H1 H2 H3 H4 H5]. constructor; cbn; auto.
Qed.

(* ---- the story of a waitForSignal ---- *)
Lemma story_cons w e l : story w (e :: l) = story w l ++ (if mine w e then [e] else []).
Proof. unfold story. cbn [rev]. rewrite filter_app. cbn. destruct (mine w e); reflexivity. Qed.
Arguments story : simpl never.

Definition nsig (i : nat) : nat := match i with 0 => 0 | 1 => 3 | _ => 5 end.

Definition told (s : st) (w : nat) : Prop :=
  match pcs s w with
  | PIdle => story w (log s) = [] /\ ~ In (EWait w) (log s)
  | PLoop i | PSelect i _ => i <= 2 /\ story w (log s) = firstn (nsig i) (script w)
  | PBegin _ true => story w (log s) = firstn 2 (script w)
  | PEnd => In (EWait w) (log s) ->
      (exists i, i <= 2 /\ story w (log s) = firstn (nsig i) (script w) ++ [EReturn w]) \/
      story w (log s) = script w
  | _ => ~ In (EWait w) (log s)
  end.

Lemma told_init w : told init w.
Proof. cbn. split; [reflexivity|tauto]. Qed.

Lemma told_same s s' w : told s w -> pcs s' w = pcs s w -> story w (log s') = story w (log s) ->
  (In (EWait w) (log s') <-> In (EWait w) (log s)) -> told s' w.
Proof. unfold told. intros H -> -> Hi. destruct (pcs s w); auto; try (destruct sig); try tauto. Qed.

Lemma told_step s l s' w : told s w -> step s l = Ok s' -> told s' w.
Proof.
  intros T H. inv_step H.
  all: unfold told in *; cbn; rewrite ?story_cons; cbn [mine].
  all: try match goal with
       | Hp : pcs ?s ?r = _ |- context [fset (pcs ?s) ?r _ ?q] =>
           destruct (Nat.eq_dec q r) as [->|Hne];
           [rewrite ?fset_eq, ?Hp, ?Nat.eqb_refl in *|
            rewrite ?(fset_ne _ _ _ _ Hne); rewrite ?(proj2 (Nat.eqb_neq r q) (not_eq_sym Hne))]
       end.
  all: rewrite ?app_nil_r in *.
  all: try (destruct (pcs s w) eqn:Hw; try (destruct sig0); intuition congruence).
  all: try (destruct (pcs s w) eqn:Hw; try (destruct sig); intuition congruence).
  all: try (destruct (pcs s w) eqn:Hw; intuition congruence).
  all: try (intuition (try discriminate); fail).
  all: try (destruct sig; cbn in *; intuition (try discriminate); fail).
  - destruct sig; cbn in *; [rewrite T; split; [lia|reflexivity]|intuition (try discriminate)].
  - destruct sig; cbn in *; [rewrite T; split; [lia|reflexivity]|intuition (try discriminate)].
  - split; [lia|]. exact (proj1 T).
  - assert (Hdw : d <> w0) by congruence. destruct (Nat.eq_dec w w0) as [->|Hw].
    + rewrite fset_eq. rewrite Heqp in T. exact T.
    + rewrite (fset_ne _ w0) by exact Hw. destruct (Nat.eq_dec w d) as [->|Hd].
      * rewrite fset_eq. rewrite Heqp0 in T. intuition discriminate.
      * rewrite fset_ne by exact Hd. destruct (pcs s w) as [|? []| | | | | | | | | |]; intuition (try discriminate).
  - intros _. left. exists i. destruct T as [Hi ->]. auto.
  - destruct T as [_ ->]. reflexivity.
  - destruct T as [_ ->]. auto.
  - intros _. right. destruct T as [Hi ->]. destruct n1; [|lia]. reflexivity.
Qed.

(* ---- what each event says about the ones before it ---- *)
Definition lawful (e : event) (pre : list event) : Prop :=
  (forall w, ~ In (EExit w) pre) /\
  match e with
  | EClosed t => closes pre = [] /\ exists r, In (EBegin r) pre
  | EClosed5 t => closes5 pre = [] /\ exists t0, In (EClosed t0) pre /\ (t0 + five <= t)%Z
  | EBeginRet r => exists t, In (EClosed t) pre
  | EDoneClosed d => momentD d pre
  | EReturn w => momentW w pre
  | _ => True
  end.

Record invL (s : st) : Prop := {
  l_sfx : sfx lawful (log s);
  l_exit : forall w, In (EExit w) (log s) -> exited s = true }.

Lemma invL_init : invL init.
Proof. constructor; cbn; tauto. Qed.

Lemma closes_in l t : closes l = [t] -> In (EClosed t) l.
Proof.
  intros H. assert (Hi : In t (closes l)) by (rewrite H; left; reflexivity).
  unfold closes in Hi. apply in_flat_map in Hi as [e [He Hx]]. destruct e; cbn in Hx; try tauto.
  destruct Hx as [->|[]]. exact He.
Qed.

Lemma run_once s r b sig : invB s -> pcs s r = PBegin b sig -> b <> BEnter -> once s = ORun r.
Proof.
  intros [H1 H2] Hp Hb. destruct (once s) as [|q|].
  - destruct H1 as [_ Ho]. exfalso. apply Hb. eapply Ho; eauto.
  - destruct H1 as [Ho _]. destruct (Nat.eq_dec r q) as [->|n]; [reflexivity|]. exfalso. apply Hb. eapply Ho; eauto.
  - destruct H1 as (_ & _ & Ho). exfalso. apply Hb. eapply Ho; eauto.
Qed.

Lemma run_stage s r b sig : invB s -> pcs s r = PBegin b sig -> b <> BEnter ->
  match b with
  | BEnter => False
  | BIn => quiet s
  | BClosed => ch s = true /\ ch5 s = false /\ timers s = [] /\ closes5 (log s) = [] /\
                exists t, closes (log s) = [t] /\ (t <= now s)%Z
  | BSpawned => ch s = true /\ fired s
  end.
Proof.
  intros IB Hp Hb. pose proof (run_once s r b sig IB Hp Hb) as Ho. destruct IB as [H1 _].
  rewrite Ho in H1. destruct H1 as [_ (b' & sig' & Hp' & Hm)]. rewrite Hp in Hp'. inversion Hp'; subst. exact Hm.
Qed.

Lemma timers_fired s : invB s -> timers s <> [] -> fired s.
Proof.
  intros [H1 _] Ht. destruct (once s) as [|q|].
  - destruct H1 as [(_ & _ & E & _) _]. congruence.
  - destruct H1 as [_ (b & sg & _ & Hm)]. destruct b.
    + destruct Hm.
    + destruct Hm as (_ & _ & E & _). congruence.
    + destruct Hm as (_ & _ & E & _). congruence.
    + tauto.
  - tauto.
Qed.

Lemma invL_step s l s' : invB s -> invD s -> invL s -> step s l = Ok s' -> invL s'.
Proof.
  intros IB ID [L1 L2] H.
  assert (Hne : exited s = false -> forall w, ~ In (EExit w) (log s)).
  { intros He w Hw. rewrite (L2 w Hw) in He. discriminate. }
  inv_step H.
  { constructor; [exact L1|intros q Hq; exact Heqb]. }
  all: try (constructor; cbn; [exact L1|intros q Hq; first [exact (L2 q Hq)|destruct (Hne eq_refl _ Hq)]]; fail).
  all: specialize (Hne eq_refl).
  all: try (constructor; cbn; [repeat split; auto|
    intros q; repeat match goal with |- _ \/ _ -> _ => intros [E|E]; [try discriminate|revert E] end;
      auto; intros Hq; destruct (Hne _ Hq)]; fail).
  all: constructor; cbn.
  all: try (intros q; repeat match goal with |- _ \/ _ -> _ => intros [E|E]; [try discriminate|revert E] end;
            auto; intros Hq; destruct (Hne _ Hq)).
  all: try (repeat split; auto; intros q [E|E]; [discriminate|exact (Hne q E)]; fail).
  - split; [split; [exact Hne|]|exact L1]. destruct IB as [H1 _]. rewrite Heqo in H1.
    destruct H1 as (_ & (t & Ht & _) & _). exists t. apply closes_in. exact Ht.
  - split; [split; [exact Hne|]|exact L1]. pose proof (run_stage _ _ _ _ IB Heqp ltac:(discriminate)) as (_ & _ & _ & Hc & _).
    split; [exact Hc|]. exists r. eapply b_begun; eauto.
  - split; [split; [exact Hne|]|exact L1].
    pose proof (run_stage _ _ _ _ IB Heqp ltac:(discriminate)) as (_ & t & Ht & _). exists t. apply closes_in. exact Ht.
  - split; [split; [exact Hne|]|exact L1]. destruct (timers_fired s IB) as (t0 & Ht & _ & Hf).
    { intros E. rewrite E in Heqo. destruct i; discriminate. }
    destruct Hf as [(f & Hf & _ & Hle & Hc)|(Hf & _)].
    + split; [exact Hc|]. exists t0. split; [apply closes_in; exact Ht|]. rewrite Hf in Heqo.
      destruct i as [|i]; [|destruct i; discriminate]. cbn in Heqo. inversion Heqo; subst. apply Z.leb_le in Heqb0. lia.
    + rewrite Hf in Heqo. destruct i; discriminate.
  - split; [split; [exact Hne|]|exact L1]. apply (d_mom s ID). rewrite Heqp. exact I.
  - split; [split; [exact Hne|]|exact L1]. destruct (d_sel s ID _ _ _ Heqp) as (_ & _ & Hm). apply Hm. rewrite Heqp0. exact I.
Qed.

(* ---- all together ---- *)
Record inv (s : st) : Prop := {
  iA : invA s; iB : invB s; iW : invW s; iD : invD s; iL : invL s; iT : forall w, told s w }.
Lemma inv_init : inv init.
Proof. constructor; [apply invA_init|apply invB_init|apply invW_init|apply invD_init|apply invL_init|apply told_init]. Qed.
Lemma inv_step s l s' : inv s -> step s l = Ok s' -> inv s'.
Proof.
  intros [A Bb W D L T] H. constructor.
  - eapply invA_step; eauto.
  - eapply invB_step; eauto.
  - eapply (invW_step s); eauto.
  - eapply (invD_step s); eauto.
  - eapply (invL_step s); eauto.
  - intros w. eapply told_step; eauto.
Qed.
Lemma inv_exec ls s s' : inv s -> exec s ls = Ok s' -> inv s'.
Proof. apply exec_inv. exact inv_step. Qed.
Lemma inv_run ls s : exec init ls = Ok s -> inv s.
Proof. apply inv_exec. exact inv_init. Qed.

Lemma exec_app a b s : exec s (a ++ b) = rbind (exec s a) (fun s1 => exec s1 b).
Proof.
  revert s; induction a as [|l a IH]; intros s; cbn; [reflexivity|].
  destruct (step s l); cbn; [apply IH|reflexivity].
Qed.

Lemma in_holds h l : In h (holds l) <-> In (EHold h) l.
Proof.
  unfold holds. rewrite in_flat_map. split.
  - intros [e [He Hx]]. destruct e; cbn in Hx; try tauto. destruct Hx as [->|[]]. exact He.
  - intros H. exists (EHold h). split; [exact H|left; reflexivity].
Qed.
Lemma in_releases h l : In h (releases l) <-> In (ERelease h) l.
Proof.
  unfold releases. rewrite in_flat_map. split.
  - intros [e [He Hx]]. destruct e; cbn in Hx; try tauto. destruct Hx as [->|[]]. exact He.
  - intros H. exists (ERelease h). split; [exact H|left; reflexivity].
Qed.

(* the log only grows *)
Lemma log_step s l s' : step s l = Ok s' -> exists ev, log s' = ev ++ log s.
Proof.
  intros H. inv_step H.
  all: first [exists []; reflexivity|eexists [_]; reflexivity|eexists [_; _]; reflexivity].
Qed.
Lemma log_exec ls s s' : exec s ls = Ok s' -> exists ev, log s' = ev ++ log s.
Proof.
  revert s; induction ls as [|l ls IH]; intros s H; cbn in H.
  - exists []. inversion H. reflexivity.
  - destruct (step s l) as [s1|] eqn:E; cbn in H; [|discriminate].
    destruct (log_step _ _ _ E) as [e1 H1]. destruct (IH _ H) as [e2 H2]. exists (e2 ++ e1).
    rewrite H2, H1, app_assoc. reflexivity.
Qed.

(* every suffix of the log is the log of an earlier state of the run, or is between the two events of one step *)
Lemma holds_app a b : holds (a ++ b) = holds a ++ holds b.
Proof. apply flat_map_app. Qed.
Lemma releases_app a b : releases (a ++ b) = releases a ++ releases b.
Proof. apply flat_map_app. Qed.

Definition sound (l : list event) : Prop := NoDup (holds l) /\ incl (releases l) (holds l).
Lemma sound_init : sound [].
Proof. split; [constructor|intros x []]. Qed.

(* at every moment the holds taken are distinct and the releases are of holds taken *)
Definition always_sound (l : list event) : Prop := forall a b, l = a ++ b -> sound b.
Lemma always_step s l s' : invA s -> invA s' -> always_sound (log s) -> step s l = Ok s' -> always_sound (log s').
Proof.
  intros IA IA' HS H a b E.
  destruct a as [|e a]; [cbn in E; subst b; split; apply IA'|].
  assert (Hl : exists ev, log s' = ev ++ log s /\ (length ev <= 1 \/ exists x y, ev = [x; y] /\ holds [y] = [] /\ releases [y] = [])).
  { clear -H. inv_step H.
    all: first [exists []; split; [reflexivity|left; cbn; lia]|eexists [_]; split; [reflexivity|left; cbn; lia]
               |eexists [_; _]; split; [reflexivity|right; eexists; eexists; repeat split; reflexivity]]. }
  destruct Hl as (ev & Hl & Hc). rewrite Hl in E.
  destruct Hc as [Hc|(x & y & -> & Hy1 & Hy2)].
  - destruct ev as [|x [|]]; [apply (HS (e :: a)); exact E| |cbn in Hc; lia].
    cbn in E. inversion E; subst. apply (HS a). assumption.
  - cbn in E. inversion E; subst. destruct a as [|z a].
    + cbn in H2. subst b. unfold sound. rewrite holds_cons, releases_cons in *. destruct y; try discriminate; exact (HS [] _ eq_refl).
    + cbn in H2. inversion H2; subst. apply (HS a). assumption.
Qed.
Lemma always_run ls s : exec init ls = Ok s -> always_sound (log s).
Proof.
  intros H.
  assert (Hi : invA s /\ always_sound (log s)).
  { apply (exec_inv (fun s => invA s /\ always_sound (log s))) with (ls := ls) (s := init); [| |exact H].
    - intros s0 l s1 [HA HS] Hs. pose proof (invA_step _ _ _ HA Hs) as HA'. exact (conj HA' (always_step _ _ _ HA HA' HS Hs)).
    - split; [apply invA_init|]. intros [|] b E; cbn in E; [subst; apply sound_init|discriminate]. }
  apply Hi.
Qed.

Lemma balanced_idle l : sound l -> released_once l -> balanced l -> idle l.
Proof.
  intros [H1 H2] H3 H4 h Hh. apply in_releases. apply in_holds in Hh.
  apply (NoDup_length_incl (l' := holds l) H3); [unfold balanced in H4; lia|exact H2|exact Hh].
Qed.

Lemma released_once_app a b : released_once (a ++ b) -> released_once b.
Proof.
  unfold released_once. rewrite releases_app. induction (releases a); cbn; [auto|].
  intros H. inversion H; subst. auto.
Qed.

Lemma idle_zero s : invA s -> released_once (log s) -> idle (log s) -> cnt s = 0%Z.
Proof.
  intros IA Hr Hi. pose proof (a_cnt s IA). pose proof (a_pos s IA).
  assert (length (holds (log s)) <= length (releases (log s))).
  { apply NoDup_incl_length; [apply IA|]. intros h Hh. apply in_releases, Hi, in_holds, Hh. }
  lia.
Qed.

Lemma busy_pos s : invA s -> released_once (log s) -> busy (log s) -> (0 < cnt s)%Z.
Proof.
  intros IA Hr [h [Hh Hn]]. pose proof (a_cnt s IA) as Hc.
  assert (length (h :: releases (log s)) <= length (holds (log s))).
  { apply NoDup_incl_length.
    - constructor; [|exact Hr]. intros Hx. apply Hn, in_releases, Hx.
    - intros x [<-|Hx]; [apply in_holds; exact Hh|]. apply (a_incl s IA). exact Hx. }
  cbn [length] in H. lia.
Qed.

(* ---- C17 ---- *)
Lemma at_most s : inv s -> length (closes (log s)) <= 1 /\ length (closes5 (log s)) <= 1 /\
  (ch s = true <-> closes (log s) <> []) /\ (ch5 s = true <-> closes5 (log s) <> []).
Proof.
  intros [_ Bb _ _ _ _]. destruct Bb as [H1 _].
  assert (Hq : quiet s -> length (closes (log s)) <= 1 /\ length (closes5 (log s)) <= 1 /\
    (ch s = true <-> closes (log s) <> []) /\ (ch5 s = true <-> closes5 (log s) <> [])).
  { intros (-> & -> & _ & -> & ->). cbn. intuition (try lia; try discriminate; try congruence). }
  assert (Hf : ch s = true -> fired s -> length (closes (log s)) <= 1 /\ length (closes5 (log s)) <= 1 /\
    (ch s = true <-> closes (log s) <> []) /\ (ch5 s = true <-> closes5 (log s) <> [])).
  { intros -> (t & -> & _ & [(f & _ & -> & _ & ->)|(_ & -> & u & ->)]); cbn;
      intuition (try lia; try discriminate; try congruence). }
  destruct (once s).
  - tauto.
  - destruct H1 as [_ (b & sig & _ & Hm)]. destruct b; [destruct Hm|tauto| |tauto].
    destruct Hm as (-> & -> & _ & -> & t & -> & _). cbn. intuition (try lia; try discriminate; try congruence).
  - tauto.
Qed.

Lemma begin_safe s l : inv s -> match l with LBegin _ | LBeginStep _ | LTimer _ => True | _ => False end -> step s l <> Panic.
Proof.
  intros I Hl H. destruct I as [_ Bb _ _ _ _]. unfold step in H. destruct (exited s); [discriminate|].
  destruct l; try contradiction.
  - destruct (pcs s r); discriminate.
  - destruct (pcs s r) eqn:Hp; try discriminate. destruct b; try discriminate.
    + destruct (once s); discriminate.
    + pose proof (run_stage _ _ _ _ Bb Hp ltac:(discriminate)) as (Hc & _). rewrite Hc in H. discriminate.
  - destruct (nth_error (timers s) i) eqn:Ht; [|discriminate]. destruct (z <=? now s)%Z; [|discriminate].
    destruct (timers_fired s Bb) as (t0 & _ & _ & Hf).
    { intros E. rewrite E in Ht. destruct i; discriminate. }
    destruct Hf as [(f & _ & Hf & _)|(Hf & _)]; [rewrite Hf in H; discriminate|].
    rewrite Hf in Ht. destruct i; discriminate.
Qed.

Lemma laws s a e b : inv s -> log s = a ++ e :: b -> lawful e b.
Proof. intros I E. destruct (iL s I) as [L _]. rewrite E in L. eapply sfx_app; exact L. Qed.

(* single steps, as equations *)
Lemma step_in s q sg : exited s = false -> pcs s q = PBegin BIn sg -> ch s = false ->
  step s (LBeginStep q) = Ok (emit (set_begin (set_pc s q (PBegin BClosed sg)) true (once s) (timers s)) (EClosed (now s))).
Proof. intros He Hq Hc. unfold step. rewrite He, Hq, Hc. reflexivity. Qed.
Lemma step_enter s q sg : exited s = false -> pcs s q = PBegin BEnter sg -> once s = ONew ->
  step s (LBeginStep q) = Ok (set_begin (set_pc s q (PBegin BIn sg)) (ch s) (ORun q) (timers s)).
Proof. intros He Hq Hc. unfold step. rewrite He, Hq, Hc. reflexivity. Qed.

(* once begun, the steps of the runtime close the Started channel *)
Definition can_close (s : st) : Prop :=
  exists ls s', Forall internal ls /\ exec s ls = Ok s' /\ exists t, In (EClosed t) (log s').

Lemma can_close_in s q sg : exited s = false -> pcs s q = PBegin BIn sg -> ch s = false -> can_close s.
Proof.
  intros He Hq Hc. exists [LBeginStep q]. eexists. split; [repeat constructor|]. split.
  - cbn [exec]. rewrite (step_in s q sg He Hq Hc). reflexivity.
  - exists (now s). left. reflexivity.
Qed.

Lemma can_close_now s t : closes (log s) = [t] -> can_close s.
Proof.
  intros Ht. exists [], s. split; [constructor|]. split; [reflexivity|]. exists t. apply closes_in, Ht.
Qed.

Lemma begin_live s r b sig : inv s -> exited s = false -> pcs s r = PBegin b sig -> can_close s.
Proof.
  intros I He Hp. destruct (iB s I) as [H1 _]. destruct (once s) as [|q|] eqn:Ho.
  - destruct H1 as [(Hc & _) Hoth]. assert (b = BEnter) as -> by (eapply Hoth; eauto).
    pose proof (step_enter s r sig He Hp Ho) as E1.
    set (s1 := set_begin (set_pc s r (PBegin BIn sig)) (ch s) (ORun r) (timers s)) in *.
    destruct (can_close_in s1 r sig) as (ls & s' & F & E & G); [exact He|cbn; apply fset_eq|exact Hc|].
    exists (LBeginStep r :: ls), s'. split; [constructor; [exact Logic.I|exact F]|]. split; [|exact G].
    cbn [exec]. rewrite E1. exact E.
  - destruct H1 as [_ (b' & sg & Hq & Hm)]. destruct b'.
    + destruct Hm.
    + eapply can_close_in; eauto. apply Hm.
    + destruct Hm as (_ & _ & _ & _ & t & Ht & _). eapply can_close_now; eauto.
    + destruct Hm as (_ & t & Ht & _). eapply can_close_now; eauto.
  - destruct H1 as (_ & (t & Ht & _) & _). eapply can_close_now; eauto.
Qed.

(* a process that called begin is still in it, or it returned *)
Definition begun_ok (s : st) : Prop :=
  forall r, In (EBegin r) (log s) -> (exists b sig, pcs s r = PBegin b sig) \/ In (EBeginRet r) (log s).
Lemma begun_step s l s' : begun_ok s -> step s l = Ok s' -> begun_ok s'.
Proof.
  intros Hb H. inv_step H; intros q Hq; cbn in *.
  all: try (specialize (Hb q)).
  all: repeat match goal with H : _ \/ _ |- _ => destruct H as [Hq|Hq]; [try discriminate; try (injection Hq as ->)|] end.
  all: try (left; rewrite ?fset_eq; eauto; fail).
  all: destruct (Hb Hq) as [(b1 & s1 & Hp)|Hr]; [|auto].
  all: try (left; eauto; fail).
  all: fcase; try congruence; try (left; eauto; fail); try (right; left; reflexivity).
  all: try (fcase; try congruence; left; eauto).
Qed.
Lemma begun_run ls s : exec init ls = Ok s -> begun_ok s.
Proof. apply exec_inv; [exact begun_step|]. intros r []. Qed.

Lemma started_live ls s r : exec init ls = Ok s -> exited s = false -> In (EBegin r) (log s) -> can_close s.
Proof.
  intros H He Hr. pose proof (inv_run _ _ H) as I. destruct (begun_run _ _ H r Hr) as [(b & sig & Hp)|Hx].
  - eapply begin_live; eauto.
  - apply in_split in Hx as (p & q & Hx). destruct (laws _ _ _ _ I Hx) as [_ [t Ht]].
    exists [], s. split; [constructor|]. split; [reflexivity|]. exists t. rewrite Hx. apply in_or_app. right. right. exact Ht.
Qed.

(* ---- C18 ---- *)
Lemma done_waits ls s a d b : exec init ls = Ok s -> released_once (log s) -> log s = a ++ EDoneClosed d :: b ->
  exists p q, b = p ++ q /\ In (EDone d) q /\ idle q.
Proof.
  intros H Hr E. destruct (laws _ _ _ _ (inv_run _ _ H) E) as [_ (p & q & Hb & Hd & Hq)].
  exists p, q. split; [exact Hb|]. split; [exact Hd|]. rewrite Hb in E.
  assert (E' : log s = (a ++ EDoneClosed d :: p) ++ q) by (rewrite E, <- app_assoc; reflexivity).
  apply balanced_idle; [exact (always_run _ _ H _ _ E')| |exact Hq].
  rewrite E' in Hr. eapply released_once_app; exact Hr.
Qed.

(* Done gives each channel once *)
Definition dones (l : list event) : list nat := flat_map (fun e => match e with EDone d => [d] | _ => [] end) l.
Lemma dones_cons e l : dones (e :: l) = match e with EDone h => h :: dones l | _ => dones l end.
Proof. destruct e; reflexivity. Qed.
Lemma in_dones h l : In h (dones l) <-> In (EDone h) l.
Proof.
  unfold dones. rewrite in_flat_map. split.
  - intros [e [He Hx]]. destruct e; cbn in Hx; try tauto. destruct Hx as [->|[]]. exact He.
  - intros H. exists (EDone h). split; [exact H|left; reflexivity].
Qed.
Lemma dones_step s l s' : inv s -> NoDup (dones (log s)) -> step s l = Ok s' -> NoDup (dones (log s')).
Proof.
  intros I Hn H. pose proof (d_in s (iD s I)) as Hd. inv_step H; cbn [log emit set_pc set_wg set_begin];
    rewrite ?dones_cons; auto.
  - constructor; [|exact Hn]. rewrite in_dones, Hd, Heqp. tauto.
  - constructor; [|exact Hn]. rewrite in_dones, Hd, Heqp0. tauto.
Qed.
Lemma dones_run ls s : exec init ls = Ok s -> NoDup (dones (log s)).
Proof.
  intros H. assert (Hi : inv s /\ NoDup (dones (log s))); [|apply Hi].
  apply (exec_inv (fun s => inv s /\ NoDup (dones (log s)))) with (ls := ls) (s := init); [| |exact H].
  - intros s0 l s1 [HA HS] Hs. split; [eapply inv_step; eauto|exact (dones_step _ _ _ HA HS Hs)].
  - split; [apply inv_init|constructor].
Qed.

Lemma unique_split d a b p q : NoDup (dones (a ++ EDone d :: b)) -> a ++ EDone d :: b = p ++ q -> In (EDone d) q -> incl b q.
Proof.
  revert p; induction a as [|y a IH]; intros p Hn E Hx; cbn [app] in E.
  - destruct p as [|z p]; cbn [app] in E.
    + subst q. intros w Hw. right. exact Hw.
    + inversion E; subst. cbn [app] in Hn. rewrite dones_cons in Hn. inversion Hn; subst. exfalso. apply H1.
      apply in_dones. apply in_or_app. auto.
  - destruct p as [|z p]; cbn [app] in E.
    + subst q. intros w Hw. right. apply in_or_app. right. right. exact Hw.
    + inversion E; subst. cbn [app] in Hn. rewrite dones_cons in Hn. eapply (IH p); eauto.
      destruct z; auto. inversion Hn; auto.
Qed.

Lemma done_blocked ls s a d b h : exec init ls = Ok s -> released_once (log s) ->
  log s = a ++ EDone d :: b -> In (EHold h) b -> ~ In (ERelease h) (log s) -> ~ In (EDoneClosed d) (log s).
Proof.
  intros H Hr E Hh Hn Hc. apply in_split in Hc as (x & y & Ec).
  destruct (done_waits _ _ _ _ _ H Hr Ec) as (p & q & Ey & Hd & Hi). subst y.
  pose proof (dones_run _ _ H) as Hnd.
  assert (E' : a ++ EDone d :: b = (x ++ EDoneClosed d :: p) ++ q) by (rewrite <- E, Ec, <- app_assoc; reflexivity).
  rewrite E in Hnd. pose proof (unique_split _ _ _ _ _ Hnd E' Hd) as Hincl.
  apply Hn. rewrite Ec. apply in_or_app. right. right. apply in_or_app. right. apply Hi, Hincl, Hh.
Qed.

(* with no hold outstanding the runtime closes the channel *)
Definition can_done (s : st) (d : nat) : Prop :=
  exists ls s', Forall internal ls /\ exec s ls = Ok s' /\ In (EDoneClosed d) (log s').

Lemma can_done_cons s l s1 d : internal l -> step s l = Ok s1 -> can_done s1 d -> can_done s d.
Proof.
  intros Hl H (ls & s' & F & E & G). exists (l :: ls), s'. split; [constructor; assumption|]. split; [|exact G].
  cbn [exec]. rewrite H. exact E.
Qed.
Lemma can_done_ready s d : exited s = false -> pcs s d = PReady -> can_done s d.
Proof.
  intros He Hp. eapply (can_done_cons s (LCloseD d)); [exact Logic.I| |].
  - unfold step. rewrite He, Hp. reflexivity.
  - exists []. eexists. split; [constructor|]. split; [reflexivity|]. left. reflexivity.
Qed.

Lemma can_done_clear s d : inv s -> exited s = false -> cnt s = 0%Z -> waiters s = 0 -> In (EDone d) (log s) -> can_done s d.
Proof.
  intros I He Hc Hw Hd. apply (d_in s (iD s I)) in Hd. destruct (pcs s d) eqn:Hp; try destruct Hd.
  - eapply (can_done_cons s (LWait d)); [exact Logic.I| |].
    + unfold step. rewrite He, Hp, Hc. reflexivity.
    + apply can_done_ready; [exact He|cbn; apply fset_eq].
  - pose proof (w_len s (iW s I)) as Hl. apply (w_in s (iW s I)) in Hp as Ha.
    destruct (sema s) as [|m] eqn:Hs.
    { destruct (asleep s); [destruct Ha|cbn in Hl; lia]. }
    eapply (can_done_cons s (LAcquire d)); [exact Logic.I| |].
    + unfold step. rewrite He, Hp, Hs, Hc, Hw. reflexivity.
    + apply can_done_ready; [exact He|cbn; apply fset_eq].
  - apply can_done_ready; assumption.
  - exists [], s. split; [constructor|]. split; [reflexivity|]. apply (d_closed s (iD s I)). exact Hp.
Qed.

Lemma done_live ls s d : exec init ls = Ok s -> released_once (log s) -> idle (log s) -> exited s = false ->
  In (EDone d) (log s) -> can_done s d.
Proof.
  intros H Hr Hi He Hd. pose proof (inv_run _ _ H) as I. pose proof (idle_zero s (iA s I) Hr Hi) as Hc.
  destruct (w_zero s (iW s I) Hc) as [Hw|[r Hp]].
  - apply can_done_clear; auto.
  - assert (E : step s (LRelEnd r) = Ok (set_wg (set_pc s r PEnd) 0 0 (sema s + waiters s) (asleep s))).
    { unfold step. rewrite He, Hp, Hc, Nat.eqb_refl. reflexivity. }
    apply (can_done_cons s (LRelEnd r) _ d Logic.I E). apply can_done_clear; auto.
    exact (inv_step _ _ _ I E).
Qed.

(* ---- C19 ---- *)
Lemma wait_return ls s a w b : exec init ls = Ok s -> released_once (log s) -> log s = a ++ EReturn w :: b ->
  exists p q, b = p ++ q /\ In (EWait w) q /\ idle q.
Proof.
  intros H Hr E. destruct (laws _ _ _ _ (inv_run _ _ H) E) as [_ (p & q & Hb & Hd & Hq)].
  exists p, q. split; [exact Hb|]. split; [exact Hd|]. rewrite Hb in E.
  assert (E' : log s = (a ++ EReturn w :: p) ++ q) by (rewrite E, <- app_assoc; reflexivity).
  apply balanced_idle; [exact (always_run _ _ H _ _ E')| |exact Hq].
  rewrite E' in Hr. eapply released_once_app; exact Hr.
Qed.

Lemma wait_story ls s w : exec init ls = Ok s -> In (EWait w) (log s) ->
  (exists n, story w (log s) = firstn n (script w)) \/
  (exists n, (n = 0 \/ n = 3 \/ n = 5) /\ story w (log s) = firstn n (script w) ++ [EReturn w]).
Proof.
  intros H Hw. pose proof (iT s (inv_run _ _ H) w) as T. unfold told in T.
  destruct (pcs s w) as [|b sig| | | | | | | | | |] eqn:Hp; try tauto.
  - destruct sig; [left; eexists; exact T|tauto].
  - destruct T as [_ T]. left. eexists. exact T.
  - destruct T as [_ T]. left. eexists. exact T.
  - destruct (T Hw) as [(i & Hi & E)|E].
    + right. exists (nsig i). split; [|exact E]. destruct i as [|[|[|]]]; cbn; lia.
    + left. exists 7. exact E.
Qed.

Lemma exit_last ls s a w b : exec init ls = Ok s -> log s = a ++ EExit w :: b -> a = [].
Proof.
  intros H E. destruct a as [|e a] using rev_ind; [reflexivity|]. exfalso.
  clear IHa. rewrite <- app_assoc in E. cbn in E.
  destruct (laws _ _ _ _ (inv_run _ _ H) E) as [Hx _]. apply (Hx w). left. reflexivity.
Qed.

(* a waiting WaitForSignal with a pending signal takes it, and what it does next *)
Lemma take_enabled s w i d n : exited s = false -> pcs s w = PSelect i d -> sigs s w = S n ->
  exists s', step s (LSigTake w) = Ok s' /\ sigs s' w = n /\
    log s' = (match i with 0 => EBegin w | 1 => ECancel w | _ => EExit w end) :: ESig w :: log s.
Proof.
  intros He Hp Hs. unfold step. rewrite He, Hp, Hs. destruct i as [|[|i]]; eexists; split; try reflexivity; cbn;
    rewrite fset_eq; auto.
Qed.

(* ---- C71 ---- *)
Definition after_start (e : event) (pre : list event) : Prop :=
  match e with ERelease h => In (EHoldWait h) pre -> exists t, In (EClosed t) pre | _ => True end.
Record waits_ok (s : st) : Prop := {
  wo_held : forall h, pcs s h = PHeld -> In (EHoldWait h) (log s) -> exists t, In (EClosed t) (log s);
  wo_idle : forall h, pcs s h = PIdle -> ~ In (EHoldWait h) (log s);
  wo_rel : sfx after_start (log s) }.
Lemma in_closes l t c : closes l = t :: c -> In (EClosed t) l.
Proof.
  intros H. assert (Hi : In t (closes l)) by (rewrite H; left; reflexivity).
  unfold closes in Hi. apply in_flat_map in Hi as [e [He Hx]]. destruct e; cbn in Hx; try tauto.
  destruct Hx as [->|[]]. exact He.
Qed.
Lemma waits_step s l s' : inv s -> waits_ok s -> step s l = Ok s' -> waits_ok s'.
Proof.
  intros I [H1 H2 H3] H.
  assert (Hc : ch s = true -> exists t, In (EClosed t) (log s)).
  { intros Hc. destruct (at_most s I) as (_ & _ & Ha & _). destruct (closes (log s)) as [|t c] eqn:E.
    - apply Ha in Hc. congruence.
    - exists t. eapply in_closes; exact E. }
  inv_step H.
  all: try (constructor; assumption).
  all: constructor; cbn [log pcs emit set_pc set_wg set_begin] in *.
  all: try (cbn [sfx after_start]; repeat split; auto; fail).
  all: try (intros q Hp [E|Hw]; [discriminate|]; try (destruct (H1 q Hp Hw) as [t Ht]; exists t; right; exact Ht); exact (H2 q Hp Hw)).
  all: try (intros q Hp; fcase; try discriminate; cbn; intros Hw; repeat (destruct Hw as [Hw|Hw]; try discriminate);
            try (destruct (H1 _ Hp Hw) as [t Ht]; exists t; cbn; auto; fail); try (eapply H2; eauto; fail)).
  all: try (destruct sig; discriminate).
  - congruence.
  - congruence.
  - destruct (H2 _ Heqp Hw).
  - cbn. split; [|exact H3]. intros Hw. eapply H1; eauto.
  - cbn. split; [|exact H3]. intros Hw. eapply H1; eauto.
Qed.
Lemma waits_run ls s : exec init ls = Ok s -> waits_ok s.
Proof.
  intros H. assert (Hi : inv s /\ waits_ok s); [|apply Hi].
  apply (exec_inv (fun s => inv s /\ waits_ok s)) with (ls := ls) (s := init); [| |exact H].
  - intros s0 l s1 [HA HS] Hs. split; [eapply inv_step; eauto|exact (waits_step _ _ _ HA HS Hs)].
  - split; [apply inv_init|]. constructor; cbn; try tauto; try discriminate.
Qed.
Lemma hold_and_wait ls s a h b : exec init ls = Ok s -> log s = a ++ ERelease h :: b -> In (EHoldWait h) b ->
  exists t, In (EClosed t) b.
Proof.
  intros H E. pose proof (wo_rel s (waits_run _ _ H)) as L. rewrite E in L. exact (sfx_app _ _ _ _ L).
Qed.
Record held_ok (s : st) : Prop := {
  ho_wait : forall h, In (EHoldWait h) (log s) -> pcs s h = PHoldWait \/ pcs s h = PHeld;
  ho_rel : forall h, In (ERelease h) (log s) -> pcs s h = PHeld }.
Lemma held_step s l s' : held_ok s -> step s l = Ok s' -> held_ok s'.
Proof.
  intros [H1 H2] H. inv_step H.
  all: try (constructor; assumption).
  all: constructor; cbn [log pcs emit set_pc set_wg set_begin] in *; intros q Hq; cbn [In] in Hq.
  all: repeat match goal with H : _ \/ _ |- _ => destruct H as [Hq|Hq]; [try discriminate; try (injection Hq as ->)|] end.
  all: try (specialize (H1 q Hq)); try (specialize (H2 q Hq)).
  all: try assumption.
  all: try (fcase; try (fcase; intuition congruence); intuition congruence).
Qed.
Lemma held_run ls s : exec init ls = Ok s -> held_ok s.
Proof. apply exec_inv; [exact held_step|]. constructor; cbn; tauto. Qed.

Lemma holdwait_blocks ls s a d b h : exec init ls = Ok s -> released_once (log s) ->
  log s = a ++ EDone d :: b -> In (EHold h) b -> In (EHoldWait h) (log s) -> closes (log s) = [] ->
  ~ In (EDoneClosed d) (log s).
Proof.
  intros H Hr E Hh Hw Hc. eapply done_blocked; eauto. intros Hx.
  pose proof (ho_rel _ (held_run _ _ H) _ Hx) as Hp.
  destruct (wo_held s (waits_run _ _ H) h Hp Hw) as [t Ht].
  assert (Hi : In t (closes (log s))).
  { unfold closes. apply in_flat_map. exists (EClosed t). split; [exact Ht|left; reflexivity]. }
  rewrite Hc in Hi. exact Hi.
Qed.

(* ---- C69 ---- *)
Record safe (s : st) : Prop := {
  s_once : released_once (log s);
  s_sema : sema s <> 0 -> cnt s = 0%Z /\ waiters s = 0 }.

Lemma none_pending_clear s : inv s -> none_pending (log s) -> waiters s = 0 /\ sema s = 0.
Proof.
  intros I Hn. pose proof (w_len s (iW s I)) as Hl. destruct (asleep s) as [|d t] eqn:E; [cbn in Hl; lia|].
  exfalso. assert (Hp : pcs s d = PSleep) by (apply (w_in s (iW s I)); rewrite E; left; reflexivity).
  assert (Hd : In (EDone d) (log s)) by (apply (d_in s (iD s I)); rewrite Hp; exact Logic.I).
  apply Hn in Hd. apply (d_closed s (iD s I)) in Hd. congruence.
Qed.

Lemma busy_clear s : inv s -> safe s -> careful (log s) (LHold 0 true) ->
  sema s = 0 /\ (waiters s = 0 \/ (0 < cnt s)%Z).
Proof.
  intros I [S1 S2] [Hb|Hn].
  - pose proof (busy_pos s (iA s I) S1 Hb). split; [|auto]. destruct (sema s); [reflexivity|].
    destruct S2 as [E _]; [lia|lia].
  - destruct (none_pending_clear s I Hn). auto.
Qed.

Lemma release_pos s h : inv s -> released_once (log s) -> In (EHold h) (log s) -> ~ In (ERelease h) (log s) -> (0 < cnt s)%Z.
Proof. intros I Hr Hh Hn. apply busy_pos; [apply I|exact Hr|]. exists h. auto. Qed.

Lemma safe_hold s h wait : inv s -> safe s -> careful (log s) (LHold h wait) -> step s (LHold h wait) <> Panic.
Proof.
  intros I S Hc H. destruct (busy_clear s I S Hc) as [_ Hw]. unfold step in H. destruct (exited s); [discriminate|].
  destruct (pcs s h); try discriminate. destruct (negb (waiters s =? 0) && (cnt s =? 0)%Z) eqn:E; [|discriminate].
  apply andb_prop in E as [E1 E2]. apply Z.eqb_eq in E2. destruct Hw as [Hw|Hw]; [|lia]. rewrite Hw in E1. discriminate.
Qed.

Lemma held_in s h : inv s -> pcs s h = PHeld -> In (EHold h) (log s).
Proof. intros I H. apply in_holds. apply (a_held s (iA s I)). auto. Qed.

Lemma safe_nopanic s l : inv s -> safe s -> careful (log s) l -> step s l <> Panic.
Proof.
  intros I S Hc. destruct l; try (apply safe_hold; assumption); try (apply begin_safe; [assumption|exact Logic.I]).
  all: unfold step; destruct (exited s); [discriminate|].
  all: intros H.
  all: try (repeat match type of H with context [match ?x with _ => _ end] => destruct x end; discriminate).
  - destruct (pcs s r) eqn:Hp; try discriminate. destruct (pcs s h) eqn:Hh; try discriminate.
    pose proof (release_pos s h I (s_once s S) (held_in _ _ I Hh) Hc).
    destruct (cnt s - 1 <? 0)%Z eqn:E; [|discriminate]. apply Z.ltb_lt in E. lia.
  - destruct (pcs s r) eqn:Hp; try discriminate. destruct (w_rel s (iW s I) _ _ Hp) as (E1 & E2 & _).
    rewrite E1, E2, Nat.eqb_refl in H. discriminate.
  - destruct (pcs s d); try discriminate. destruct (sema s) eqn:Hs; [discriminate|].
    destruct (s_sema s S) as [E1 E2]; [lia|]. rewrite E1, E2 in H. discriminate.
Qed.

Lemma safe_step s l s' : inv s -> safe s -> careful (log s) l -> step s l = Ok s' -> safe s'.
Proof.
  intros I S Hc H. destruct S as [S1 S2] eqn:ES. clear ES.
  pose proof (iW s I) as W. pose proof (iA s I) as IA.
  assert (Hb := fun c => busy_clear s I S c).
  inv_step H; try (constructor; assumption).
  all: try (constructor; cbn in *; [unfold released_once in *; rewrite ?releases_cons; assumption|assumption]; fail).
  - destruct (Hb Hc) as [E _]. constructor; cbn; [exact S1|rewrite E; lia].
  - destruct (Hb Hc) as [E _]. constructor; cbn; [exact S1|rewrite E; lia].
  - pose proof (release_pos s h I S1 (held_in _ _ I Heqp0) Hc). constructor; cbn.
    + unfold released_once. rewrite releases_cons. constructor; [|exact S1]. rewrite in_releases. exact Hc.
    + intros Hs. destruct (S2 Hs). lia.
  - pose proof (release_pos s h I S1 (held_in _ _ I Heqp0) Hc). constructor; cbn.
    + unfold released_once. rewrite releases_cons. constructor; [|exact S1]. rewrite in_releases. exact Hc.
    + intros Hs. destruct (S2 Hs). lia.
  - constructor; cbn; auto.
  - apply Z.eqb_neq in Heqb0. constructor; cbn; [exact S1|]. intros Hs. destruct (S2 Hs). lia.
  - apply andb_prop in Heqb0 as [E1 E2]. apply Z.eqb_eq in E1. apply Nat.eqb_eq in E2. constructor; cbn; auto.
Qed.

Lemma careful_safe ls s : inv s -> safe s -> careful_run s ls -> exec s ls <> Panic.
Proof.
  revert s; induction ls as [|l ls IH]; intros s I S H; cbn; [discriminate|]. destruct H as [Hc Hn].
  destruct (step s l) as [s1|] eqn:E; cbn.
  - apply IH; [eapply inv_step; eauto|eapply safe_step; eauto|auto].
  - exfalso. eapply safe_nopanic; eauto.
Qed.

Lemma careful_init ls : careful_run init ls -> exec init ls <> Panic.
Proof. apply careful_safe; [apply inv_init|]. constructor; cbn; [constructor|lia]. Qed.

(* ---- C70 ---- *)
Lemma first_release ls s r h : exec init ls = Ok s -> released_once (log s) -> ~ In (ERelease h) (log s) ->
  exists s', step s (LRelease r h) = Ok s' /\ released_once (log s') /\
    forall h', h' <> h -> In (EHold h') (log s) -> ~ In (ERelease h') (log s) -> (0 < cnt s')%Z.
Proof.
  intros H Hr Hn. pose proof (inv_run _ _ H) as I.
  destruct (step s (LRelease r h)) as [s'|] eqn:E.
  - exists s'. split; [reflexivity|]. pose proof (inv_step _ _ _ I E) as I'.
    assert (Hl : log s' = log s \/ log s' = ERelease h :: log s).
    { unfold step in E. destruct (exited s); [inversion E; auto|]. destruct (pcs s r); try (inversion E; auto; fail).
      destruct (pcs s h); try (inversion E; auto; fail). cbv zeta in E. destruct (cnt s - 1 <? 0)%Z; inversion E. auto. }
    assert (Hr' : released_once (log s')).
    { destruct Hl as [->| ->]; [exact Hr|]. unfold released_once. rewrite releases_cons. constructor; [|exact Hr].
      rewrite in_releases. exact Hn. }
    split; [exact Hr'|]. intros h' Hd Hh Hu. apply busy_pos; [apply I'|exact Hr'|]. exists h'.
    destruct Hl as [->| ->]; cbn; intuition congruence.
  - exfalso. unfold step in E. destruct (exited s); [discriminate|]. destruct (pcs s r); try discriminate.
    destruct (pcs s h) eqn:Hh; try discriminate. cbv zeta in E.
    pose proof (release_pos s h I Hr (held_in _ _ I Hh) Hn).
    destruct (cnt s - 1 <? 0)%Z eqn:E1; [|discriminate]. apply Z.ltb_lt in E1. lia.
Qed.
