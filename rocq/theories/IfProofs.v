From Coq Require Import Bool Arith List Lia.
From Verif Require Import Prelude IfModel IfSpec.
Import ListNotations.

Lemma msg_eqb_eq : forall a b, msg_eqb a b = true <-> a = b.
Proof.
  intros [|x] [|y]; cbn; split; intros H; try discriminate; try reflexivity.
  - destruct (list_eq_dec Ascii.ascii_dec x y) as [->|]; [reflexivity|discriminate].
  - injection H as ->. destruct (list_eq_dec Ascii.ascii_dec y y); [reflexivity|congruence].
Qed.
Lemma mem_in : forall m l, mem m l = true <-> In m l.
Proof.
  intros m l. unfold mem. rewrite existsb_exists. split.
  - intros (x & H & E). apply msg_eqb_eq in E. subst x. exact H.
  - intros H. exists m. split; [exact H|]. apply msg_eqb_eq. reflexivity.
Qed.
Lemma warning_iff : forall v m, In m (warning v) <-> warned_about v m.
Proof.
  intros v m. unfold warned_about. split.
  - destruct v; cbn; intros H; try contradiction; destruct H as [<-|[]]; [left; auto|right; eauto].
  - intros [[-> ->]|(n & -> & ->)]; cbn; auto.
Qed.
Lemma warning_one : forall v m r, warning v = m :: r -> warning v = [m].
Proof. intros [] m r H; cbn in *; try discriminate; injection H as <- <-; reflexivity. Qed.

Lemma nth_put : forall l i p x j, nth_error l i = Some x -> nth_error (put i p l) j = if Nat.eqb j i then Some p else nth_error l j.
Proof.
  induction l as [|a l IH]; intros [|i] p x j H; cbn in H; try discriminate.
  - destruct j; reflexivity.
  - destruct j; [reflexivity|]. cbn. apply (IH i p x j H).
Qed.
Lemma len_put : forall l i p x, nth_error l i = Some x -> length (put i p l) = length l.
Proof. induction l as [|a l IH]; intros [|i] p x H; cbn in H; try discriminate; cbn; [reflexivity|]. f_equal. apply (IH i p x H). Qed.
Lemma nth_snoc : forall {A} (l : list A) a i x, nth_error (l ++ [a]) i = Some x -> nth_error l i = Some x \/ (i = length l /\ x = a).
Proof.
  intros A l a i x H. destruct (Nat.lt_ge_cases i (length l)) as [L|L].
  - rewrite nth_error_app1 in H by exact L. auto.
  - rewrite nth_error_app2 in H by exact L. destruct (i - length l) as [|k] eqn:D; cbn in H; [|destruct k; discriminate].
    injection H as <-. right. split; [lia|reflexivity].
Qed.
Lemma exec_app : forall ls s ls', exec s (ls ++ ls') = match exec s ls with Some s' => exec s' ls' | None => None end.
Proof. induction ls as [|l ls IH]; intros s ls'; [reflexivity|]. cbn. destruct (step s l); [apply IH|reflexivity]. Qed.
Lemma variables_app : forall a b, variables (a ++ b) = variables a ++ variables b.
Proof. intros. unfold variables. apply flat_map_app. Qed.

(* what a goroutine has still to warn about, or may have to *)
Definition ahead (p : pc) : list msg :=
  match p with Going r => flat_map warning r | Absent m r => m :: flat_map warning r | Writing m r => m :: flat_map warning r | Warn _ r => flat_map warning r end.
Definition rest (p : pc) : list leaf := match p with Going r | Absent _ r | Writing _ r | Warn _ r => r end.
Definition at_msg (p : pc) : list msg := match p with Going _ => [] | Absent m _ | Writing m _ | Warn m _ => [m] end.

(* every variable is accounted for *)
Definition covered (vs : list leaf) (s : st) : Prop :=
  forall v m, In v vs -> warned_about v m -> In m (known s) \/ exists i p, nth_error (gos s) i = Some p /\ In m (ahead p).
(* nothing else is *)
Definition from (vs : list leaf) (s : st) : Prop :=
  (forall m, In m (known s) \/ In m (logged s) -> exists v, In v vs /\ warned_about v m) /\
  (forall i p, nth_error (gos s) i = Some p -> (forall v, In v (rest p) -> In v vs) /\ (forall m, In m (at_msg p) -> exists v, In v vs /\ warned_about v m)).

Lemma covered_put : forall vs s i x p ks lg, covered vs s -> nth_error (gos s) i = Some x ->
  (forall m, In m (ahead x) -> In m ks \/ In m (ahead p)) -> (forall m, In m (known s) -> In m ks) -> covered vs (St ks (put i p (gos s)) lg false).
Proof.
  intros vs s i x p ks lg C X A K v m V W. cbn. destruct (C v m V W) as [H|(j & q & J & H)]; [left; auto|].
  destruct (Nat.eq_dec j i) as [->|D].
  - rewrite X in J. injection J as <-. destruct (A m H) as [Q|Q]; [auto|]. right. exists i, p. rewrite (nth_put _ _ _ _ _ X), Nat.eqb_refl. auto.
  - right. exists j, q. rewrite (nth_put _ _ _ _ _ X). apply Nat.eqb_neq in D. rewrite D. auto.
Qed.
Lemma from_put : forall vs s i x p ks lg, from vs s -> nth_error (gos s) i = Some x ->
  (forall v, In v (rest p) -> In v vs) -> (forall m, In m (at_msg p) -> exists v, In v vs /\ warned_about v m) ->
  (forall m, In m ks \/ In m lg -> exists v, In v vs /\ warned_about v m) -> from vs (St ks (put i p (gos s)) lg false).
Proof.
  intros vs s i x p ks lg [F1 F2] X R A K. split; [exact K|]. cbn. intros j q J. rewrite (nth_put _ _ _ _ _ X) in J.
  destruct (Nat.eqb j i); [injection J as <-; auto|]. apply F2 in J. exact J.
Qed.
Lemma base_step : forall vs s l s', covered vs s -> from vs s -> step s l = Some s' ->
  covered (vs ++ variables [l]) s' /\ from (vs ++ variables [l]) s'.
Proof.
  intros vs s l s' C F H. unfold step in H. destruct (fatal s) eqn:FT; [discriminate|]. destruct l as [ws|i].
  - injection H as <-. cbn. rewrite app_nil_r. split.
    + intros v m V W. apply in_app_iff in V. cbn. destruct V as [V|V].
      * destruct (C v m V W) as [Q|(j & q & J & Q)]; [auto|]. right. exists j, q. split; [|exact Q]. rewrite nth_error_app1; [exact J|]. apply nth_error_Some. rewrite J. discriminate.
      * right. exists (length (gos s)), (Going ws). rewrite nth_error_app2, Nat.sub_diag by lia. split; [reflexivity|]. cbn. apply in_flat_map. exists v. split; [exact V|]. apply warning_iff. exact W.
    + destruct F as [F1 F2]. split; cbn.
      * intros m M. destruct (F1 m M) as (v & V & W). exists v. rewrite in_app_iff. auto.
      * intros j q J. apply nth_snoc in J. destruct J as [J|[_ ->]].
        -- apply F2 in J. destruct J as [J1 J2]. split; [intros v V; rewrite in_app_iff; auto|]. intros m M. destruct (J2 m M) as (v & V & W). exists v. rewrite in_app_iff. auto.
        -- cbn. split; [intros v V; rewrite in_app_iff; auto|intros m []].
  - cbn. rewrite app_nil_r. destruct F as [F1 F2]. destruct (nth_error (gos s) i) as [x|] eqn:X; [|discriminate].
    pose proof (F2 i x X) as [R A]. destruct x as [[|v r]|m r|m r|m r]; try discriminate.
    + destruct (warning v) as [|m w] eqn:W.
      * injection H as <-. split.
        -- eapply covered_put; [exact C|exact X| |auto]. cbn. rewrite W. cbn. auto.
        -- eapply from_put; [exact (conj F1 F2)|exact X| | |exact F1]; cbn; [intros u U; apply R; right; exact U|intros m []].
      * pose proof (warning_one v m w W) as W1.
        assert (VM : exists v, In v vs /\ warned_about v m) by (exists v; split; [apply R; left; reflexivity|]; apply warning_iff; rewrite W; left; reflexivity).
        destruct (writing s).
        { injection H as <-. split; [exact C|exact (conj F1 F2)]. }
        injection H as <-. destruct (mem m (known s)) eqn:M; split.
        -- eapply covered_put; [exact C|exact X| |auto]. cbn. rewrite W1. cbn. intros m' [<-|Q]; [left; apply mem_in; exact M|auto].
        -- eapply from_put; [exact (conj F1 F2)|exact X| | |exact F1]; cbn; [intros u U; apply R; right; exact U|intros m' []].
        -- eapply covered_put; [exact C|exact X| |auto]. cbn. rewrite W1. cbn. auto.
        -- eapply from_put; [exact (conj F1 F2)|exact X| | |exact F1]; cbn; [intros u U; apply R; right; exact U|intros m' [<-|[]]; exact VM].
    + destruct (writing s).
      { injection H as <-. split; [exact C|exact (conj F1 F2)]. }
      injection H as <-. split.
      * eapply covered_put; [exact C|exact X| |auto]. cbn. auto.
      * eapply from_put; [exact (conj F1 F2)|exact X|exact R|exact A|exact F1].
    + injection H as <-. split.
      * eapply covered_put; [exact C|exact X| |]; cbn; [intros m' [<-|Q]; auto|auto].
      * eapply from_put; [exact (conj F1 F2)|exact X|exact R|exact A|]. cbn. intros m' [[<-|Q]|Q]; [apply A; left; reflexivity|apply F1; auto|apply F1; auto].
    + injection H as <-. split.
      * eapply covered_put; [exact C|exact X| |]; cbn; auto.
      * eapply from_put; [exact (conj F1 F2)|exact X|exact R|intros m' []|]. cbn. intros m' [Q|[<-|Q]]; [apply F1; auto|apply A; left; reflexivity|apply F1; auto].
Qed.
Lemma base_exec : forall ls s, exec init ls = Some s -> covered (variables ls) s /\ from (variables ls) s.
Proof.
  induction ls as [|l ls IH] using rev_ind; intros s H.
  - injection H as <-. split.
    + intros v m [].
    + split; [intros m [[]|[]]|]. intros [|i] p J; discriminate J.
  - rewrite exec_app in H. destruct (exec init ls) as [s0|] eqn:E; [|discriminate]. cbn in H. destruct (step s0 l) as [s1|] eqn:F; [|discriminate]. injection H as <-.
    rewrite variables_app. destruct (IH s0 eq_refl) as [C G]. exact (base_step _ _ _ _ C G F).
Qed.
Lemma all_known : forall ls s, exec init ls = Some s -> (forall i, i < length (gos s) -> finished s i) -> forall v m, In v (variables ls) -> warned_about v m -> In m (known s).
Proof.
  intros ls s E D v m V W. destruct (base_exec ls s E) as [C _]. destruct (C v m V W) as [H|(i & p & P & H)]; [exact H|].
  assert (L : i < length (gos s)) by (apply nth_error_Some; rewrite P; discriminate). specialize (D i L). unfold finished in D. rewrite P in D. injection D as ->. destruct H.
Qed.

(* with everything known, nobody writes *)
Definition calm (s : st) : Prop := fatal s = false /\ forall i p, nth_error (gos s) i = Some p -> exists r, p = Going r /\ forall m, In m (flat_map warning r) -> In m (known s).
Lemma calm_writing : forall s, calm s -> writing s = false.
Proof.
  intros s [_ C]. unfold writing. destruct (existsb writes (gos s)) eqn:E; [|reflexivity]. apply existsb_exists in E. destruct E as (p & P & W).
  apply In_nth_error in P. destruct P as (i & P). destruct (C i p P) as (r & -> & _). discriminate W.
Qed.
Lemma calm_step : forall s l s', calm s -> (forall v m, In v (variables [l]) -> warned_about v m -> In m (known s)) -> step s l = Some s' -> calm s' /\ known s' = known s /\ logged s' = logged s.
Proof.
  intros s l s' C K H. pose proof (calm_writing s C) as NW. destruct C as [FT C]. unfold step in H. rewrite FT in H. destruct l as [ws|i].
  - injection H as <-. split; [|auto]. split; [reflexivity|]. cbn. intros i p P. apply nth_snoc in P. destruct P as [P|[_ ->]]; [exact (C i p P)|].
    exists ws. split; [reflexivity|]. intros m M. apply in_flat_map in M. destruct M as (v & V & M). apply (K v m); [cbn; rewrite app_nil_r; exact V|]. apply warning_iff. exact M.
  - destruct (nth_error (gos s) i) as [x|] eqn:X; [|discriminate]. destruct (C i x X) as (r0 & -> & A). destruct r0 as [|v r]; [discriminate|].
    assert (G : forall lg, calm (St (known s) (put i (Going r) (gos s)) lg false)).
    { intros lg. split; [reflexivity|]. cbn. intros j p P. rewrite (nth_put _ _ _ _ _ X) in P. destruct (Nat.eqb j i); [injection P as <-|exact (C j p P)].
      exists r. split; [reflexivity|]. intros m M. apply A. cbn. apply in_app_iff. auto. }
    destruct (warning v) as [|m w] eqn:W; [injection H as <-; auto|]. rewrite NW in H.
    assert (M : mem m (known s) = true) by (apply mem_in; apply A; cbn; rewrite W; left; reflexivity). rewrite M in H. injection H as <-. auto.
Qed.
Lemma calm_exec : forall ls s s', calm s -> (forall v m, In v (variables ls) -> warned_about v m -> In m (known s)) -> exec s ls = Some s' -> calm s' /\ logged s' = logged s.
Proof.
  induction ls as [|l ls IH]; intros s s' C K H; [injection H as <-; auto|]. cbn in H. destruct (step s l) as [s1|] eqn:E; [|discriminate].
  assert (K1 : forall v m, In v (variables [l]) -> warned_about v m -> In m (known s)).
  { intros v m V. apply K. change (l :: ls) with ([l] ++ ls). rewrite variables_app, in_app_iff. auto. }
  destruct (calm_step _ _ _ C K1 E) as (C1 & KE & LE). destruct (IH s1 s' C1) with (2 := H) as [C2 L2].
  - intros v m V W. rewrite KE. apply (K v m); [|exact W]. change (l :: ls) with ([l] ++ ls). rewrite variables_app, in_app_iff. auto.
  - split; [exact C2|congruence].
Qed.

(* one call at a time *)
Record single (s : st) : Prop := {
  g_fatal : fatal s = false;
  g_alone : alone s;
  g_known : NoDup (known s);
  g_logged : NoDup (logged s);
  g_sub : forall m, In m (logged s) -> In m (known s);
  g_new : forall i m r, nth_error (gos s) i = Some (Absent m r) \/ nth_error (gos s) i = Some (Writing m r) -> ~ In m (known s);
  g_warn : forall i m r, nth_error (gos s) i = Some (Warn m r) -> In m (known s) /\ ~ In m (logged s);
  g_all : forall m, In m (known s) -> In m (logged s) \/ exists i r, nth_error (gos s) i = Some (Warn m r) }.
Lemma single_writing : forall s i p, single s -> nth_error (gos s) i = Some p -> p <> Going [] -> writes p = false -> writing s = false.
Proof.
  intros s i p G P N W. unfold writing. destruct (existsb writes (gos s)) eqn:E; [|reflexivity]. apply existsb_exists in E. destruct E as (q & Q & WQ).
  apply In_nth_error in Q. destruct Q as (j & Q). assert (NQ : q <> Going []) by (intros ->; discriminate WQ).
  assert (i = j) by exact (g_alone _ G i j p q P Q N NQ). subst j. rewrite P in Q. injection Q as <-. congruence.
Qed.
Lemma alone_put : forall s i x p ks lg, alone s -> nth_error (gos s) i = Some x -> x <> Going [] -> alone (St ks (put i p (gos s)) lg false).
Proof.
  intros s i x p ks lg A X N j k q q' J K NJ NK. cbn in J, K. rewrite (nth_put _ _ _ _ _ X) in J. rewrite (nth_put _ _ _ _ _ X) in K.
  destruct (Nat.eqb_spec j i) as [->|D], (Nat.eqb_spec k i) as [->|D']; [reflexivity| | |exact (A j k q q' J K NJ NK)].
  - exact (A i k x q' X K N NK).
  - exact (A j i q x J X NJ N).
Qed.
(* the others are finished *)
Lemma single_others : forall s i x j q, single s -> nth_error (gos s) i = Some x -> x <> Going [] -> nth_error (gos s) j = Some q -> j <> i -> q = Going [].
Proof.
  intros s i x j q G X N J D. destruct q as [[|v r]|m r|m r|m r]; [reflexivity| | | |]; exfalso; apply D; exact (g_alone _ G j i _ x J X ltac:(discriminate) N).
Qed.
Ltac others G X N :=
  match goal with H : nth_error (put ?i _ _) ?j = Some _ |- _ => rewrite (nth_put _ _ _ _ _ X) in H; destruct (Nat.eqb_spec j i) as [?|?D];
    [try discriminate H|match goal with D : j <> i |- _ => let Q := fresh in pose proof (single_others _ _ _ _ _ G X N H D) as Q; discriminate Q end] end.
Lemma single_step : forall s l s', single s -> (forall v, l = Begin v -> forall i, i < length (gos s) -> finished s i) -> step s l = Some s' -> single s'.
Proof.
  intros s l s' G B H. unfold step in H. rewrite (g_fatal _ G) in H. destruct l as [ws|i].
  - injection H as <-. specialize (B ws eq_refl). assert (FI : forall i p, nth_error (gos s) i = Some p -> p = Going []).
    { intros i p P. assert (L : i < length (gos s)) by (apply nth_error_Some; rewrite P; discriminate). specialize (B i L). unfold finished in B. congruence. }
    constructor; cbn.
    + reflexivity.
    + intros i j p q P Q NP NQ. cbn in P, Q. apply nth_snoc in P. apply nth_snoc in Q. destruct P as [P|[-> _]]; [destruct (NP (FI i p P))|]. destruct Q as [Q|[-> _]]; [destruct (NQ (FI j q Q))|]. reflexivity.
    + exact (g_known _ G).
    + exact (g_logged _ G).
    + exact (g_sub _ G).
    + intros i m r [P|P]; apply nth_snoc in P; destruct P as [P|[_ P]]; try discriminate P; apply FI in P; discriminate P.
    + intros i m r P; apply nth_snoc in P; destruct P as [P|[_ P]]; try discriminate P; apply FI in P; discriminate P.
    + intros m M. destruct (g_all _ G m M) as [Q|(i & r & P)]; [auto|]. apply FI in P. discriminate P.
  - destruct (nth_error (gos s) i) as [x|] eqn:X; [|discriminate]. destruct x as [[|v r]|m r|m r|m r]; try discriminate.
    + assert (N : Going (v :: r) <> Going []) by discriminate.
      assert (NW : forall m r, ~ nth_error (gos s) i = Some (Warn m r)) by (intros m' r' Q; rewrite X in Q; discriminate Q).
      assert (GO : forall m', In m' (known s) -> In m' (logged s)).
      { intros m' M'. destruct (g_all _ G m' M') as [Q|(j & r' & Q)]; [exact Q|]. destruct (Nat.eq_dec j i) as [->|D]; [destruct (NW _ _ Q)|]. pose proof (single_others _ _ _ _ _ G X N Q D) as Z. discriminate Z. }
      assert (P1 : single (St (known s) (put i (Going r) (gos s)) (logged s) false)).
      { constructor; cbn [known gos logged fatal]; [reflexivity|exact (alone_put _ _ _ _ _ _ (g_alone _ G) X N)|exact (g_known _ G)|exact (g_logged _ G)|exact (g_sub _ G)| | |].
        - intros j m' r' [P|P]; others G X N.
        - intros j m' r' P; others G X N.
        - intros m' M'. left. auto. }
      destruct (warning v) as [|m w] eqn:W; [injection H as <-; exact P1|].
      rewrite (single_writing s i _ G X N eq_refl) in H. injection H as <-. destruct (mem m (known s)) eqn:M; [exact P1|].
      assert (MN : ~ In m (known s)) by (intros Q; apply mem_in in Q; congruence).
      constructor; cbn [known gos logged fatal]; [reflexivity|exact (alone_put _ _ _ _ _ _ (g_alone _ G) X N)|exact (g_known _ G)|exact (g_logged _ G)|exact (g_sub _ G)| | |].
      * intros j m' r' [P|P]; others G X N. injection P as <- <-. exact MN.
      * intros j m' r' P; others G X N.
      * intros m' M'. left. auto.
    + assert (N : Absent m r <> Going []) by discriminate. rewrite (single_writing s i _ G X N eq_refl) in H. injection H as <-.
      pose proof (g_new _ G i m r (or_introl X)) as MN.
      constructor; cbn [known gos logged fatal]; [reflexivity|exact (alone_put _ _ _ _ _ _ (g_alone _ G) X N)|exact (g_known _ G)|exact (g_logged _ G)|exact (g_sub _ G)| | |].
      * intros j m' r' [P|P]; others G X N. injection P as <- <-. exact MN.
      * intros j m' r' P; others G X N.
      * intros m' M'. left. destruct (g_all _ G m' M') as [Q|(j & r' & Q)]; [exact Q|]. destruct (Nat.eq_dec j i) as [->|D]; [rewrite X in Q; discriminate Q|]. pose proof (single_others _ _ _ _ _ G X N Q D) as Z. discriminate Z.
    + assert (N : Writing m r <> Going []) by discriminate. injection H as <-. pose proof (g_new _ G i m r (or_intror X)) as MN.
      constructor; cbn [known gos logged fatal]; [reflexivity|exact (alone_put _ _ _ _ _ _ (g_alone _ G) X N)|constructor; [exact MN|exact (g_known _ G)]|exact (g_logged _ G)|intros m' Q; right; exact (g_sub _ G m' Q)| | |].
      * intros j m' r' [P|P]; others G X N.
      * intros j m' r' P; others G X N. injection P as <- <-. split; [left; reflexivity|]. intros Q. apply MN. exact (g_sub _ G m Q).
      * intros m' [<-|M'].
        -- right. exists i, r. rewrite (nth_put _ _ _ _ _ X), Nat.eqb_refl. reflexivity.
        -- left. destruct (g_all _ G m' M') as [Q|(j & r' & Q)]; [exact Q|]. destruct (Nat.eq_dec j i) as [->|D]; [rewrite X in Q; discriminate Q|]. pose proof (single_others _ _ _ _ _ G X N Q D) as Z. discriminate Z.
    + assert (N : Warn m r <> Going []) by discriminate. injection H as <-. destruct (g_warn _ G i m r X) as [MK ML].
      constructor; cbn [known gos logged fatal]; [reflexivity|exact (alone_put _ _ _ _ _ _ (g_alone _ G) X N)|exact (g_known _ G)|constructor; [exact ML|exact (g_logged _ G)]|intros m' [<-|Q]; [exact MK|exact (g_sub _ G m' Q)]| | |].
      * intros j m' r' [P|P]; others G X N.
      * intros j m' r' P; others G X N.
      * intros m' M'. left. destruct (g_all _ G m' M') as [Q|(j & r' & Q)]; [right; exact Q|]. destruct (Nat.eq_dec j i) as [->|D].
        -- rewrite X in Q. injection Q as -> ->. left; reflexivity.
        -- pose proof (single_others _ _ _ _ _ G X N Q D) as Z. discriminate Z.
Qed.
Lemma single_init : single init.
Proof.
  constructor; cbn [known gos logged fatal]; try (constructor; fail); try reflexivity.
  - intros [|i] j p q P; discriminate P.
  - intros m [].
  - intros [|i] m r [P|P]; discriminate P.
  - intros [|i] m r P; discriminate P.
  - intros m [].
Qed.
Lemma single_exec : forall ls s s', single s -> one_by_one s ls -> exec s ls = Some s' -> single s'.
Proof.
  induction ls as [|l ls IH]; intros s s' G O H; [injection H as <-; exact G|]. cbn in H, O. destruct O as [O1 O2]. destruct (step s l) as [s1|] eqn:E; [|discriminate].
  apply (IH s1 s'); [|exact O2|exact H]. apply (single_step s l s1 G); [|exact E]. intros v ->. exact O1.
Qed.
(* a goroutine that goes on alone comes to the end *)
Lemma alone_ends : forall r s i, fatal s = false -> (forall j p, nth_error (gos s) j = Some p -> writes p = true -> j = i) -> nth_error (gos s) i = Some (Going r) ->
  exists ls s', exec s ls = Some s' /\ variables ls = [] /\ fatal s' = false /\ finished s' i.
Proof.
  induction r as [|v r IH]; intros s i FT W X.
  - exists [], s. auto.
  - assert (NW : writing s = false).
    { unfold writing. destruct (existsb writes (gos s)) eqn:E; [|reflexivity]. apply existsb_exists in E. destruct E as (q & Q & WQ). apply In_nth_error in Q. destruct Q as (j & Q).
      rewrite (W j q Q WQ) in Q. rewrite X in Q. injection Q as <-. discriminate WQ. }
    assert (PUT : forall ks g lg p, nth_error g i = Some p -> (forall j q, nth_error g j = Some q -> writes q = true -> j = i) ->
              forall j q, nth_error (gos (St ks (put i (Going r) g) lg false)) j = Some q -> writes q = true -> j = i).
    { intros ks g lg p P WG j q J WQ. cbn [gos] in J. rewrite (nth_put _ _ _ _ _ P) in J. destruct (Nat.eqb_spec j i); [assumption|exact (WG j q J WQ)]. }
    assert (PX : forall ks g lg p, nth_error g i = Some p -> nth_error (gos (St ks (put i (Going r) g) lg false)) i = Some (Going r)).
    { intros ks g lg p P. cbn [gos]. rewrite (nth_put _ _ _ _ _ P), Nat.eqb_refl. reflexivity. }
    destruct (warning v) as [|m w] eqn:WV; [|destruct (mem m (known s)) eqn:M].
    + destruct (IH (St (known s) (put i (Going r) (gos s)) (logged s) false) i eq_refl (PUT _ _ _ _ X W) (PX _ _ _ _ X)) as (ls & s' & E & V & F & D).
      exists (Run i :: ls), s'. split; [|auto]. cbn [exec step]. unfold step. rewrite FT, X, WV. exact E.
    + destruct (IH (St (known s) (put i (Going r) (gos s)) (logged s) false) i eq_refl (PUT _ _ _ _ X W) (PX _ _ _ _ X)) as (ls & s' & E & V & F & D).
      exists (Run i :: ls), s'. split; [|auto]. cbn [exec]. unfold step. rewrite FT, X, WV, NW, M. exact E.
    + set (g1 := put i (Absent m r) (gos s)). set (g2 := put i (Writing m r) g1). set (g3 := put i (Warn m r) g2). set (g4 := put i (Going r) g3).
      assert (X1 : nth_error g1 i = Some (Absent m r)) by (unfold g1; rewrite (nth_put _ _ _ _ _ X), Nat.eqb_refl; reflexivity).
      assert (X2 : nth_error g2 i = Some (Writing m r)) by (unfold g2; rewrite (nth_put _ _ _ _ _ X1), Nat.eqb_refl; reflexivity).
      assert (X3 : nth_error g3 i = Some (Warn m r)) by (unfold g3; rewrite (nth_put _ _ _ _ _ X2), Nat.eqb_refl; reflexivity).
      assert (W3 : forall j q, nth_error g3 j = Some q -> writes q = true -> j = i).
      { intros j q J WQ. unfold g3 in J. rewrite (nth_put _ _ _ _ _ X2) in J. destruct (Nat.eqb_spec j i); [assumption|]. unfold g2 in J. rewrite (nth_put _ _ _ _ _ X1) in J.
        destruct (Nat.eqb_spec j i); [assumption|]. unfold g1 in J. rewrite (nth_put _ _ _ _ _ X) in J. destruct (Nat.eqb_spec j i); [assumption|]. exact (W j q J WQ). }
      assert (NW1 : existsb writes g1 = false).
      { destruct (existsb writes g1) eqn:E; [|reflexivity]. apply existsb_exists in E. destruct E as (q & Q & WQ). apply In_nth_error in Q. destruct Q as (j & Q). unfold g1 in Q.
        rewrite (nth_put _ _ _ _ _ X) in Q. destruct (Nat.eqb_spec j i) as [Dj|D]; [injection Q as <-; discriminate WQ|]. destruct (D (W j q Q WQ)). }
      destruct (IH (St (m :: known s) g4 (m :: logged s) false) i eq_refl (PUT _ _ _ _ X3 W3) (PX _ _ _ _ X3)) as (ls & s' & E & V & F & D).
      exists (Run i :: Run i :: Run i :: Run i :: ls), s'. split; [|auto].
      cbn [exec]. unfold step at 1. rewrite FT, X, WV, NW, M. fold g1.
      cbn [exec]. unfold step at 1. cbn [fatal gos]. rewrite X1. unfold writing. cbn [gos known logged]. rewrite NW1. fold g2.
      cbn [exec]. unfold step at 1. cbn [fatal gos]. rewrite X2. cbn [known logged]. fold g3.
      cbn [exec]. unfold step at 1. cbn [fatal gos]. rewrite X3. cbn [known logged]. fold g4. exact E.
Qed.
