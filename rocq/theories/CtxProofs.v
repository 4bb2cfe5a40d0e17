(* Proofs about contexts. *)
From Coq Require Import Bool Ascii String Arith NArith ZArith Lia List.
From Verif Require Import Prelude PreludeFacts Utf8Model QuoteModel DurModel DurProofs KvProofs JsonModel CtxModel CtxSpec.
Import ListNotations.
Local Open Scope nat_scope.

(* ---- tags ---- *)
Lemma each_app {St E} (fn : St -> bytes -> bytes -> St * option E) a b s :
  each fn (a ++ b) s = let '(s', r) := each fn a s in match r with Some e => (s', Some e) | None => each fn b s' end.
Proof.
  revert s. induction a as [|[k j] a IH]; intros s; cbn [app each]; auto.
  destruct (fn s k j) as [s' [e|]]; auto.
Qed.
Lemma tags_cons c : tags c = match c with
  | Root => []
  | Val p _ _ | Cancel p _ _ | Track p _ _ | Detach p => tags p
  | Tag p k j => tags p ++ [(k, j)]
  end.
Proof.
  unfold tags. destruct c; cbn [ancestry rev]; rewrite ?flat_map_app; cbn [flat_map]; rewrite ?app_nil_r; reflexivity.
Qed.
Lemma range_each {St E} (fn : St -> bytes -> bytes -> St * option E) c s : RangeTag fn c s = each fn (tags c) s.
Proof.
  unfold RangeTag. revert s. induction c as [|p IH k v|p IH i d|p IH k j|p IH t l|p IH]; intros s; rewrite tags_cons; cbn [range_val]; auto.
  rewrite each_app, IH. destruct (each fn (tags p) s) as [s' [e|]]; auto. cbn [each].
  destruct (fn s' k j) as [s2 [e|]]; auto.
Qed.

Lemma extract_closest c t : mget beqb (ExtractTags c) t = closest_tag c t.
Proof.
  unfold ExtractTags, RangeTag, closest_tag.
  induction c as [|p IH k v|p IH i d|p IH k j|p IH i l|p IH]; cbn [range_val ancestry find]; auto.
  set (fn := fun (m : list (bytes * bytes)) k j => (mset beqb m k j, @None unit)) in *.
  assert (Hn : forall c s, snd (range_val fn c s) = None).
  { clear. induction c as [|p IH k v|p IH i d|p IH k j|p IH i l|p IH]; intros s; cbn [range_val]; auto.
    specialize (IH s). destruct (range_val fn p s) as [s' r]. cbn in IH. subst. reflexivity. }
  specialize (Hn p []). destruct (range_val fn p []) as [s' r]. cbn in Hn. subst. cbn [fn fst snd] in *. unfold fn. cbn [fst].
  destruct (beqb k t) eqn:E.
  - apply beqb_eq in E. subst. rewrite (mget_mset_eq beqb beqb_ok). reflexivity.
  - rewrite (mget_mset_ne beqb beqb_ok); [exact IH|]. intros ->. now rewrite beqb_refl in E.
Qed.

(* ---- values ---- *)
Lemma detach_value c k : Value (Detach c) k = Value c k. Proof. reflexivity. Qed.

Lemma track_closest c : (forall p k v, In (Val p k v) (ancestry c) -> k <> KTrackGet) ->
  GetTracking c = match closest_track c with Some t => t | None => [] end.
Proof.
  unfold GetTracking, closest_track. induction c as [|p IH k v|p IH i d|p IH k j|p IH t l|p IH]; cbn [ancestry find Value key_eqb]; intros Hk; auto.
  all: try (apply IH; intros; eapply Hk; cbn [ancestry]; right; eauto).
  assert (k <> KTrackGet) by (eapply Hk; left; reflexivity).
  replace (key_eqb k KTrackGet) with false by (destruct k; try reflexivity; contradiction).
  apply IH. intros p0 k0 v0 H0. eapply Hk. right. eauto.
Qed.

(* ---- cancellation ---- *)
Lemma nth_upd {A} (l : list A) i j x : nth_error (upd l i x) j = if Nat.eqb i j then (if Nat.ltb j (length l) then Some x else None) else nth_error l j.
Proof.
  revert i j. induction l as [|a l IH]; intros i j; cbn.
  - destruct i; cbn; destruct j; cbn; auto; destruct (Nat.eqb i j); auto.
  - destruct i; cbn.
    + destruct j; cbn; auto.
    + destruct j; cbn; auto. rewrite IH. destruct (Nat.eqb i j); auto.
Qed.
Lemma upd_length {A} (l : list A) i x : length (upd l i x) = length l.
Proof. revert i. induction l as [|a l IH]; intros [|i]; cbn; auto. Qed.

Definition kids_of (cs : list cell) (i : nat) : list nat := match nth_error cs i with Some c => kids c | None => [] end.
Definition par_of (cs : list cell) (i : nat) : option context := option_map cpar (nth_error cs i).

(* reachable from i through children, all not yet cancelled *)
Inductive U (cs : list cell) (i : nat) : nat -> Prop :=
| U_self : i < length cs -> err_of cs i = None -> U cs i i
| U_step j k : U cs i j -> In k (kids_of cs j) -> k < length cs -> err_of cs k = None -> U cs i k.

Lemma U_trans cs i j k : U cs i j -> U cs j k -> U cs i k.
Proof. intros H1 H2. induction H2; auto. eapply U_step; eauto. Qed.
Lemma U_err cs i k : U cs i k -> err_of cs k = None /\ err_of cs i = None /\ k < length cs /\ i < length cs.
Proof. induction 1; tauto. Qed.

Lemma U_first cs i k : U cs i k -> k = i \/ exists q, In q (kids_of cs i) /\ U cs q k.
Proof.
  induction 1 as [|j k Hu IH Hin Hl He]; auto. right. destruct IH as [->|(q & Hq & Hu')].
  - exists k. split; auto. now apply U_self.
  - exists q. split; auto. eapply U_step; eauto.
Qed.
Definition ke_dec (a b : option (kind * cause)) : {a = b} + {a <> b}.
Proof. repeat decide equality. Defined.

(* kids come after their parent *)
Definition ordered (cs : list cell) : Prop := forall i k, In k (kids_of cs i) -> i < k < length cs.

(* only errors differ *)
Definition same_shape (a b : list cell) : Prop := length a = length b /\ forall i, kids_of a i = kids_of b i /\ par_of a i = par_of b i.
Lemma same_shape_refl a : same_shape a a. Proof. split; auto. Qed.
Lemma same_shape_trans a b c : same_shape a b -> same_shape b c -> same_shape a c.
Proof. intros [H1 H2] [H3 H4]. split; [congruence|]. intros i. destruct (H2 i), (H4 i). split; congruence. Qed.

Lemma err_lt cs i : err_of cs i <> None -> i < length cs.
Proof. unfold err_of. destruct (nth_error cs i) eqn:E; [|congruence]. intros _. apply nth_error_Some. congruence. Qed.

Lemma cancel_spec f : forall cs i e, ordered cs -> length cs - i <= f ->
  same_shape cs (cancel f cs i e) /\
  (forall k, U cs i k -> err_of (cancel f cs i e) k = Some e) /\
  (forall k, err_of (cancel f cs i e) k <> err_of cs k -> U cs i k).
Proof.
  induction f as [|f IH]; intros cs i e Ho Hf.
  - cbn. split; [apply same_shape_refl|]. split; [|congruence]. intros k Hk. apply U_err in Hk. lia.
  - cbn [cancel]. destruct (nth_error cs i) as [c|] eqn:Ei.
    2: { split; [apply same_shape_refl|]. split; [|congruence]. intros k Hk. apply U_err in Hk as (_ & _ & _ & Hk). apply nth_error_Some in Hk. congruence. }
    destruct (cerr c) as [e0|] eqn:Ec.
    { split; [apply same_shape_refl|]. split; [|congruence]. intros k Hk. apply U_err in Hk as (_ & Hk & _). unfold err_of in Hk. rewrite Ei in Hk. congruence. }
    assert (Hi : i < length cs) by (apply nth_error_Some; congruence).
    set (cs1 := upd cs i (Cell (cpar c) (kids c) (Some e))).
    assert (Hs1 : same_shape cs cs1).
    { split; [unfold cs1; now rewrite upd_length|]. intros j. unfold kids_of, par_of, cs1. rewrite nth_upd.
      destruct (Nat.eqb_spec i j) as [<-|]; auto. apply Nat.ltb_lt in Hi. rewrite Hi, Ei. auto. }
    assert (He1 : forall k, err_of cs1 k = if Nat.eqb i k then Some e else err_of cs k).
    { intros k. unfold err_of, cs1. rewrite nth_upd. destruct (Nat.eqb_spec i k) as [<-|]; auto. apply Nat.ltb_lt in Hi. now rewrite Hi. }
    assert (Hki : kids_of cs i = kids c) by (unfold kids_of; now rewrite Ei).
    assert (Hei : err_of cs i = None) by (unfold err_of; now rewrite Ei).
    (* loop over the children *)
    assert (HL : forall todo done cs2, kids c = done ++ todo -> same_shape cs cs2 ->
       (forall k, err_of cs2 k <> err_of cs k -> err_of cs2 k = Some e /\ (k = i \/ exists q, In q done /\ U cs q k)) ->
       err_of cs2 i = Some e ->
       (forall q k, In q done -> U cs q k -> err_of cs2 k = Some e) ->
       let cs3 := fold_left (fun cs k => cancel f cs k e) todo cs2 in
       same_shape cs cs3 /\
       (forall k, err_of cs3 k <> err_of cs k -> err_of cs3 k = Some e /\ (k = i \/ exists q, In q (kids c) /\ U cs q k)) /\
       err_of cs3 i = Some e /\
       (forall q k, In q (kids c) -> U cs q k -> err_of cs3 k = Some e)).
    { induction todo as [|q todo IHt]; intros dn cs2 Hk Hs Hch Hci Hd.
      - cbn. rewrite app_nil_r in Hk. subst dn. auto.
      - cbn [fold_left]. assert (Hq : i < q < length cs).
        { apply Ho. rewrite Hki, Hk. apply in_or_app. right. left. reflexivity. }
        assert (Ho2 : ordered cs2).
        { intros a b Hab. destruct Hs as [Hl Hs]. destruct (Hs a) as [Hs' _]. rewrite <- Hs' in Hab. apply Ho in Hab. lia. }
        destruct (IH cs2 q e Ho2) as (Hs3 & HU & HnU). { destruct Hs as [Hl _]. lia. }
        assert (Hnone : forall k, err_of cs2 k = None -> err_of cs k = None).
        { intros k H2. destruct (err_of cs k) eqn:E; auto. specialize (Hch k). rewrite H2, E in Hch. destruct Hch; congruence. }
        assert (HUU : forall k, U cs2 q k -> U cs q k).
        { intros k Hu. induction Hu as [H1 H2|a b Hu IHu Hin Hlt He].
          - apply U_self; [lia|auto].
          - destruct Hs as [Hl Hs]. apply (U_step cs q a b); auto; [|lia]. destruct (Hs a) as [-> _]. exact Hin. }
        assert (Hset : forall k, U cs q k -> U cs2 q k \/ err_of cs2 k = Some e).
        { intros k Hu. induction Hu as [H1 H2|a b Hu IHu Hin Hlt He].
          - destruct (err_of cs2 q) eqn:E; [|left; apply U_self; auto; destruct Hs; lia].
            right. rewrite <- E. apply Hch. congruence.
          - destruct (err_of cs2 b) eqn:E.
            { right. rewrite <- E. apply Hch. congruence. }
            destruct IHu as [IHu|IHu].
            + left. destruct Hs as [Hl Hs]. apply (U_step cs2 q a b); auto; [|lia]. destruct (Hs a) as [<- _]. exact Hin.
            + exfalso. assert (Hna : err_of cs a = None) by (apply U_err in Hu; tauto).
              destruct (Hch a) as [_ [->|(q' & Hq' & Hu')]]; [congruence| |].
              * assert (Hlt2 : forall x, U cs q x -> q <= x). { clear -Ho. induction 1; auto. apply Ho in H0. lia. }
                apply Hlt2 in Hu. lia.
              * assert (err_of cs2 b = Some e); [|congruence]. apply (Hd q'); auto. apply (U_step cs q' a b); auto. }
        apply (IHt (dn ++ [q])).
        + rewrite <- app_assoc. exact Hk.
        + eapply same_shape_trans; eauto.
        + intros k Hne. destruct (ke_dec (err_of (cancel f cs2 q e) k) (err_of cs2 k)) as [Heq|Hneq].
          * rewrite Heq in *. destruct (Hch k Hne) as [H1 [H2|(q' & H2 & H3)]]; split; auto. right. exists q'. split; auto. apply in_or_app; auto.
          * apply HnU in Hneq. split; auto. right. exists q. split; auto. apply in_or_app; right; left; auto.
        + destruct (ke_dec (err_of (cancel f cs2 q e) i) (err_of cs2 i)) as [Heq|Hneq]; [congruence|]. apply HU. now apply HnU.
        + intros q' k Hin Hu. assert (Hkeep : forall k, err_of cs2 k = Some e -> err_of (cancel f cs2 q e) k = Some e).
          { intros k0 Hk0. destruct (ke_dec (err_of (cancel f cs2 q e) k0) (err_of cs2 k0)) as [Heq|Hneq]; [congruence|]. apply HU. now apply HnU. }
          apply in_app_or in Hin as [Hin|[<-|[]]].
          * apply Hkeep. eauto.
          * destruct (Hset k Hu) as [H|H]; auto. }
    destruct (HL (kids c) [] cs1) as (R1 & R2 & R3 & R4); auto.
    { intros k Hne. rewrite He1 in *. destruct (Nat.eqb_spec i k); [auto|congruence]. }
    { rewrite He1, Nat.eqb_refl. reflexivity. }
    { intros q k []. }
    split; [exact R1|]. split.
    + intros k Hu. destruct (U_first _ _ _ Hu) as [->|(q & Hq & Hu')]; auto. apply (R4 q); auto. now rewrite <- Hki.
    + intros k Hne. destruct (R2 k Hne) as [_ [->|(q & Hq & Hu)]]; [now apply U_self|].
      eapply U_trans; [|exact Hu]. destruct (U_err _ _ _ Hu) as (_ & H2 & _ & H4).
      eapply U_step; [apply U_self; auto| | |]; auto. now rewrite Hki.
Qed.

(* ---- well-formed heaps ---- *)
Definition user_key (k : key) : Prop := match k with KUser _ | KStr _ | KConfig => True | _ => False end.
Fixpoint wf (cs : list cell) (c : context) : Prop :=
  match c with
  | Root => True
  | Val p k _ => user_key k /\ wf cs p
  | Cancel p i _ => par_of cs i = Some p /\ wf cs p
  | Tag p _ _ | Track p _ _ | Detach p => wf cs p
  end.
Lemma wf_ext cs cs' c : (forall i p, par_of cs i = Some p -> par_of cs' i = Some p) -> wf cs c -> wf cs' c.
Proof. intros H. induction c; cbn; intuition. Qed.

Lemma done_scope cs c : wf cs c -> scope c = match Done c with None => [] | Some j =>
  match par_of cs j with Some p => j :: scope p | None => [] end end.
Proof.
  induction c as [|p IH k v|p IH i d|p IH k j|p IH t l|p IH]; cbn [wf scope Done]; intros H; auto; try (apply IH; tauto).
  destruct H as [-> _]. reflexivity.
Qed.
Lemma done_value cs c j : wf cs c -> Done c = Some j -> Value c KCancel = Some (VCancel j).
Proof.
  induction c as [|p IH k v|p IH i d|p IH k j'|p IH t l|p IH]; cbn [wf Done Value]; intros H Hd; try discriminate; auto; try (apply IH; tauto).
  - replace (key_eqb k KCancel) with false; [apply IH; tauto|]. destruct H as [H _]. destruct k; cbn in *; tauto.
  - congruence.
Qed.

Record Inv (cs : list cell) (fs : list (nat * (kind * cause))) : Prop := {
  inv_ord : ordered cs;
  inv_par : forall i p, par_of cs i = Some p -> wf cs p;
  inv_reg : forall k p d, par_of cs k = Some p -> Done p = Some d -> err_of cs k = None -> err_of cs d = None /\ In k (kids_of cs d);
  inv_kid : forall j k, In k (kids_of cs j) -> exists p, par_of cs k = Some p /\ Done p = Some j;
  inv_err : forall i p, par_of cs i = Some p -> err_of cs i = first_of (i :: scope p) fs;
  inv_fired : forall i e, In (i, e) fs -> i < length cs }.

Lemma par_lt cs i : i < length cs <-> par_of cs i <> None.
Proof. unfold par_of. rewrite <- nth_error_Some. destruct (nth_error cs i); cbn; split; congruence. Qed.

Lemma err_done cs fs c : Inv cs fs -> wf cs c -> match Done c with Some j => err_of cs j | None => None end = first_of (scope c) fs.
Proof.
  intros HI Hw. rewrite (done_scope cs c Hw). destruct (Done c) as [j|] eqn:Ed.
  - destruct (par_of cs j) as [p|] eqn:Ep; [now apply (inv_err _ _ HI)|].
    exfalso. clear HI. revert Ed Ep. induction c as [|p IH k v|p IH i d|p IH k j'|p IH t l|p IH]; cbn in *; intros; try discriminate; try (apply IH; tauto).
    injection Ed as <-. destruct Hw. congruence.
  - unfold first_of. replace (find _ fs) with (@None (nat * (kind * cause))); auto. clear. induction fs; cbn; auto.
Qed.

Lemma scope_U cs fs c : Inv cs fs -> wf cs c -> forall d i, Done c = Some d -> err_of cs d = None -> In i (scope c) -> U cs i d.
Proof.
  intros HI. induction c as [|p IH k v|p IH i d|p IH k j'|p IH t l|p IH]; cbn [wf Done scope]; intros Hw d0 i0 Hd He Hin; try discriminate; try (apply IH; tauto).
  injection Hd as <-. destruct Hw as [Hp Hw].
  assert (Hl : i < length cs) by (apply par_lt; congruence).
  destruct Hin as [->|Hin]; [now apply U_self|].
  destruct (Done p) as [d'|] eqn:Ed.
  - destruct (inv_reg _ _ HI i p d' Hp Ed He) as [H1 H2]. apply (U_step cs i0 d' i); auto.
  - rewrite (done_scope cs p Hw), Ed in Hin. destruct Hin.
Qed.
Lemma U_scope cs fs i k : Inv cs fs -> U cs i k -> exists p, par_of cs k = Some p /\ In i (k :: scope p).
Proof.
  intros HI. induction 1 as [H1 H2|j k Hu IH Hin Hl He].
  - apply par_lt in H1. destruct (par_of cs i) as [p|] eqn:E; [|congruence]. exists p. split; auto. now left.
  - destruct IH as (p & Hp & Hi). destruct (inv_kid _ _ HI j k Hin) as (p' & Hp' & Hd). exists p'. split; auto. right.
    rewrite (done_scope cs p' (inv_par _ _ HI k p' Hp')), Hd, Hp. exact Hi.
Qed.

Lemma first_of_app l fs x : first_of l (fs ++ [x]) = match first_of l fs with Some e => Some e | None =>
  if existsb (Nat.eqb (fst x)) l then Some (snd x) else None end.
Proof.
  unfold first_of. induction fs as [|y fs IH]; cbn [app find].
  - destruct (existsb (Nat.eqb (fst x)) l); reflexivity.
  - destruct (existsb (Nat.eqb (fst y)) l); auto.
Qed.
Lemma existsb_in i l : existsb (Nat.eqb i) l = true <-> In i l.
Proof. rewrite existsb_exists. split; [intros (x & H1 & H2); apply Nat.eqb_eq in H2; now subst|intros H; exists i; split; auto; apply Nat.eqb_refl]. Qed.

Lemma inv_fire cs fs i e : Inv cs fs -> i < length cs -> Inv (cancel (length cs) cs i e) (fs ++ [(i, e)]).
Proof.
  intros HI Hi. destruct (cancel_spec (length cs) cs i e (inv_ord _ _ HI)) as ([Hl Hs] & H1 & H2); [lia|].
  set (cs' := cancel (length cs) cs i e) in *.
  assert (Hp : forall j, par_of cs' j = par_of cs j) by (intros j; now destruct (Hs j)).
  assert (Hk : forall j, kids_of cs' j = kids_of cs j) by (intros j; now destruct (Hs j)).
  assert (Hw : forall c, wf cs c -> wf cs' c). { intros c. apply wf_ext. intros j p. now rewrite Hp. }
  (* the error of each cell afterwards *)
  assert (He : forall k p, par_of cs k = Some p -> err_of cs' k = match err_of cs k with Some e0 => Some e0 | None =>
     if existsb (Nat.eqb i) (k :: scope p) then Some e else None end).
  { intros k p Hkp. destruct (err_of cs k) as [e0|] eqn:E.
    - destruct (ke_dec (err_of cs' k) (err_of cs k)) as [Heq|Hne]; [congruence|]. apply H2, U_err in Hne. destruct Hne. congruence.
    - destruct (existsb (Nat.eqb i) (k :: scope p)) eqn:Ex.
      + apply existsb_in in Ex. apply H1. apply (scope_U cs fs (Cancel p k None) HI); cbn; auto. split; auto. exact (inv_par _ _ HI k p Hkp).
      + destruct (ke_dec (err_of cs' k) (err_of cs k)) as [Heq|Hne]; [congruence|]. exfalso. apply H2 in Hne.
        destruct (U_scope cs fs i k HI Hne) as (p' & Hp' & Hin). rewrite Hkp in Hp'. injection Hp' as <-.
        apply existsb_in in Hin. congruence. }
  constructor.
  - intros a b Hab. rewrite Hk in Hab. rewrite <- Hl. now apply (inv_ord _ _ HI).
  - intros j p Hj. rewrite Hp in Hj. apply Hw. exact (inv_par _ _ HI j p Hj).
  - intros k p d Hkp Hd Hek. rewrite Hp in Hkp. rewrite (He k p Hkp) in Hek.
    destruct (err_of cs k) as [e0|] eqn:E; [discriminate|]. destruct (existsb (Nat.eqb i) (k :: scope p)) eqn:Ex; [discriminate|].
    destruct (inv_reg _ _ HI k p d Hkp Hd E) as [Hed Hin]. rewrite Hk. split; auto.
    assert (Hwp := inv_par _ _ HI k p Hkp). pose proof (done_scope cs p Hwp) as Hsc. rewrite Hd in Hsc.
    destruct (par_of cs d) as [pd|] eqn:Epd.
    + rewrite (He d pd Epd), Hed. cbn [existsb] in Ex. apply orb_false_iff in Ex as [_ Ex]. rewrite Hsc in Ex. now rewrite Ex.
    + exfalso. apply (inv_ord _ _ HI) in Hin. assert (d < length cs) as Hlt by lia. apply par_lt in Hlt. congruence.
  - intros j k Hin. rewrite Hk in Hin. destruct (inv_kid _ _ HI j k Hin) as (p & Hkp & Hd). exists p. now rewrite Hp.
  - intros j p Hj. rewrite Hp in Hj. rewrite (He j p Hj), first_of_app. rewrite (inv_err _ _ HI j p Hj). cbn [fst snd]. reflexivity.
  - intros j e0 Hin. rewrite <- Hl. apply in_app_or in Hin as [Hin|[Hin|[]]]; [eapply (inv_fired _ _ HI); eauto|]. congruence.
Qed.

Lemma nth_error_snoc {A} (l : list A) x i : nth_error (l ++ [x]) i = if Nat.ltb i (length l) then nth_error l i else if Nat.eqb i (length l) then Some x else None.
Proof.
  destruct (Nat.ltb_spec i (length l)) as [H|H]; [now apply nth_error_app1|].
  rewrite nth_error_app2 by auto. destruct (Nat.eqb_spec i (length l)) as [->|Hne]; [now rewrite Nat.sub_diag|].
  destruct (i - length l) as [|m] eqn:E; [lia|]. destruct m; reflexivity.
Qed.

(* adding a cell *)
Lemma first_of_fresh n l fs : (forall i e, In (i, e) fs -> i < n) -> first_of (n :: l) fs = first_of l fs.
Proof.
  intros H. unfold first_of. induction fs as [|[i e] fs IH]; cbn [find]; auto. cbn [existsb fst].
  assert (i < n) by (eapply H; left; reflexivity). replace (Nat.eqb i n) with false by (symmetry; apply Nat.eqb_neq; lia).
  cbn [orb]. destruct (existsb (Nat.eqb i) l); auto. apply IH. intros. eapply H. right. eauto.
Qed.

Lemma inv_new cs fs p : Inv cs fs -> wf cs p -> Inv (new_cancel cs p) fs /\ length (new_cancel cs p) = S (length cs) /\
  (forall i q, par_of cs i = Some q -> par_of (new_cancel cs p) i = Some q) /\ par_of (new_cancel cs p) (length cs) = Some p.
Proof.
  intros HI Hw.
  (* general shape: base is cs with possibly one more registered child *)
  assert (G : forall base eo, length base = length cs -> (forall i, par_of base i = par_of cs i) -> (forall i, err_of base i = err_of cs i) ->
     (forall i k, In k (kids_of base i) <-> In k (kids_of cs i) \/ (k = length cs /\ Done p = Some i /\ i < length cs /\ eo = None)) ->
     eo = first_of (scope p) fs ->
     Inv (base ++ [Cell p [] eo]) fs /\ length (base ++ [Cell p [] eo]) = S (length cs) /\
     (forall i q, par_of cs i = Some q -> par_of (base ++ [Cell p [] eo]) i = Some q) /\ par_of (base ++ [Cell p [] eo]) (length cs) = Some p).
  { intros base eo Hl Hp He Hk Heo. set (cs' := base ++ [Cell p [] eo]).
    assert (Hl' : length cs' = S (length cs)) by (unfold cs'; rewrite app_length; cbn; lia).
    assert (Hp' : forall i, par_of cs' i = if Nat.eqb i (length cs) then Some p else par_of cs i).
    { intros i. unfold cs'. unfold par_of at 1. rewrite nth_error_snoc, Hl. destruct (Nat.ltb_spec i (length cs)) as [H|H].
      - replace (Nat.eqb i (length cs)) with false by (symmetry; apply Nat.eqb_neq; lia). apply Hp.
      - destruct (Nat.eqb_spec i (length cs)); auto. cbn. symmetry. destruct (par_of cs i) eqn:E; auto. exfalso.
        assert (par_of cs i <> None) as Hn by congruence. apply par_lt in Hn. lia. }
    assert (He' : forall i, err_of cs' i = if Nat.eqb i (length cs) then eo else err_of cs i).
    { intros i. unfold cs'. unfold err_of at 1. rewrite nth_error_snoc, Hl. destruct (Nat.ltb_spec i (length cs)) as [H|H].
      - replace (Nat.eqb i (length cs)) with false by (symmetry; apply Nat.eqb_neq; lia). apply He.
      - destruct (Nat.eqb_spec i (length cs)); auto. symmetry. destruct (err_of cs i) eqn:E; auto. exfalso.
        assert (err_of cs i <> None) as Hn by congruence. apply err_lt in Hn. lia. }
    assert (Hkl : forall i, length cs <= i -> kids_of cs i = []).
    { intros i H. unfold kids_of. replace (nth_error cs i) with (@None cell); auto. symmetry. now apply nth_error_None. }
    assert (Hk' : forall i k, In k (kids_of cs' i) <-> In k (kids_of cs i) \/ (k = length cs /\ Done p = Some i /\ i < length cs /\ eo = None)).
    { intros i k. rewrite <- Hk. unfold cs'. unfold kids_of at 1. rewrite nth_error_snoc, Hl. destruct (Nat.ltb_spec i (length cs)) as [H|H].
      - reflexivity.
      - rewrite Hk. rewrite (Hkl i H). destruct (Nat.eqb_spec i (length cs)); cbn; split; try tauto; intros [[]|(_ & _ & ? & _)]; lia. }
    assert (Hext : forall i q, par_of cs i = Some q -> par_of cs' i = Some q).
    { intros i q H. rewrite Hp'. assert (i < length cs) by (apply par_lt; congruence).
      replace (Nat.eqb i (length cs)) with false by (symmetry; apply Nat.eqb_neq; lia). exact H. }
    assert (Hwe : forall c, wf cs c -> wf cs' c) by (intros c; now apply wf_ext).
    split; [|split; [exact Hl'|split; [exact Hext|rewrite Hp', Nat.eqb_refl; reflexivity]]].
    constructor.
    - intros i k Hin. apply Hk' in Hin as [Hin|(-> & _ & H & _)]; [apply (inv_ord _ _ HI) in Hin|]; lia.
    - intros i q. rewrite Hp'. destruct (Nat.eqb i (length cs)).
      + intros H. injection H as <-. auto.
      + intros H. apply Hwe. exact (inv_par _ _ HI i q H).
    - intros k q d. rewrite Hp', He'. destruct (Nat.eqb_spec k (length cs)) as [->|Hne].
      + intros H Hd Heo0. injection H as <-.
        assert (Hdl : d < length cs).
        { clear - Hw Hd. induction p as [|p IH k v|p IH i dl|p IH k j'|p IH t l|p IH]; cbn in *; try discriminate; try (apply IH; tauto).
          injection Hd as <-. apply par_lt. destruct Hw. congruence. }
        rewrite He'. replace (Nat.eqb d (length cs)) with false by (symmetry; apply Nat.eqb_neq; lia). split.
        * pose proof (err_done cs fs p HI Hw) as Hed. rewrite Hd in Hed. congruence.
        * apply Hk'. right. auto.
      + intros H Hd Hek. destruct (inv_reg _ _ HI k q d H Hd Hek) as [H1 H2]. split; [|apply Hk'; auto].
        rewrite He'. apply (inv_ord _ _ HI) in H2. replace (Nat.eqb d (length cs)) with false by (symmetry; apply Nat.eqb_neq; lia). exact H1.
    - intros j k Hin. apply Hk' in Hin as [Hin|(-> & Hd & _)].
      + destruct (inv_kid _ _ HI j k Hin) as (q & Hq & Hd). exists q. auto.
      + exists p. split; auto. now rewrite Hp', Nat.eqb_refl.
    - intros i q. rewrite Hp', He'. destruct (Nat.eqb_spec i (length cs)) as [->|Hne].
      + intros H. injection H as <-. rewrite first_of_fresh by (apply (inv_fired _ _ HI)). exact Heo.
      + apply (inv_err _ _ HI).
    - intros i e Hin. apply (inv_fired _ _ HI) in Hin. lia. }
  pose proof (err_done cs fs p HI Hw) as Hed.
  unfold new_cancel. destruct (Done p) as [j|] eqn:Ed.
  - unfold Err, Cause. rewrite Ed, (done_value cs p j Hw Ed).
    destruct (err_of cs j) as [[e ca]|] eqn:Ee; cbn [option_map fst snd].
    + apply G; auto. intros i k. split; [tauto|]. intros [H|(_ & _ & _ & H)]; [auto|discriminate].
    + assert (Hj : j < length cs).
      { clear - Hw Ed. induction p as [|p IH k v|p IH i dl|p IH k j'|p IH t l|p IH]; cbn in *; try discriminate; try (apply IH; tauto).
        injection Ed as <-. apply par_lt. destruct Hw. congruence. }
      destruct (nth_error cs j) as [pc|] eqn:Ej; [|apply nth_error_None in Ej; lia].
      assert (Hjb : Nat.ltb j (length cs) = true) by now apply Nat.ltb_lt.
      apply G; auto.
      * now rewrite upd_length.
      * intros i. unfold par_of. rewrite nth_upd. destruct (Nat.eqb_spec j i) as [<-|]; auto. now rewrite Hjb, Ej.
      * intros i. unfold err_of. rewrite nth_upd. destruct (Nat.eqb_spec j i) as [<-|]; auto. now rewrite Hjb, Ej.
      * intros i k. unfold kids_of. rewrite nth_upd. destruct (Nat.eqb_spec j i) as [<-|Hne].
        -- rewrite Hjb, Ej. cbn [kids]. rewrite in_app_iff. cbn. split.
           ++ intros [H|[H|[]]]; auto.
           ++ intros [H|(-> & _)]; auto.
        -- split; auto. intros [H|(_ & H & _)]; auto. congruence.
  - apply G; auto. intros i k. split; [tauto|]. intros [H|(_ & H & _)]; [auto|discriminate].
Qed.

(* ---- every history ---- *)
Fixpoint wfc (n : nat) (c : context) : Prop :=
  match c with
  | Root => True
  | Val p KConfig v => (exists q, v = Some (VConf q) /\ q < n) /\ wfc n p
  | Val p _ _ | Cancel p _ _ | Tag p _ _ | Track p _ _ | Detach p => wfc n p
  end.
Lemma wfc_mono n m c : n <= m -> wfc n c -> wfc m c.
Proof. intros H. induction c as [|p IH k v|p IH i dl|p IH k j'|p IH t l|p IH]; cbn; auto. destruct k; auto. intros [(q & -> & Hq) Hp]. split; auto. exists q. split; auto. lia. Qed.
Lemma wfc_value n c : wfc n c -> match Value c KConfig with Some (VConf q) => q < n | None => True | _ => False end.
Proof.
  induction c as [|p IH k v|p IH i dl|p IH k j'|p IH t l|p IH]; cbn [wfc Value]; auto.
  destruct k; cbn [key_eqb]; auto. intros [(q & -> & Hq) _]. exact Hq.
Qed.

Record SInv (s : state) : Prop := {
  s_inv : Inv (cells s) (fired s);
  s_env : forall c cf, In (c, cf) (env s) -> wf (cells s) c /\ wfc (length (confs s)) c /\ (forall i, cf = Some i -> i < length (cells s)) }.

Lemma sinv_push s c cf : SInv s -> wf (cells s) c -> wfc (length (confs s)) c -> (forall i, cf = Some i -> i < length (cells s)) -> SInv (push s c cf).
Proof.
  intros [H1 H2] Hw Hc Hi. constructor; cbn; auto. intros c0 cf0 Hin. apply in_app_or in Hin as [Hin|[Hin|[]]]; auto.
  injection Hin as <- <-. auto.
Qed.
Lemma cancel_shape f cs i e : ordered cs -> length cs - i <= f -> same_shape cs (cancel f cs i e).
Proof. intros H1 H2. now apply cancel_spec. Qed.
Lemma sinv_fire s i e : SInv s -> i < length (cells s) -> SInv (fire s i e).
Proof.
  intros [H1 H2] Hi. pose proof (cancel_shape (length (cells s)) (cells s) i e (inv_ord _ _ H1)) as [Hl Hs]; [lia|].
  constructor; cbn.
  - now apply inv_fire.
  - intros c cf Hin. destruct (H2 c cf Hin) as (Hw & Hc & Hi'). rewrite <- Hl. split; [|auto].
    eapply wf_ext; [|exact Hw]. intros j p Hj. destruct (Hs j) as [_ <-]. exact Hj.
Qed.
Lemma sinv_cancel s p dl s' c i : SInv s -> wf (cells s) p -> wfc (length (confs s)) p -> with_cancel s p dl = (s', c, i) ->
  SInv s' /\ wf (cells s') c /\ wfc (length (confs s')) c /\ i < length (cells s') /\ c = Cancel p i dl /\
  confs s' = confs s /\ env s' = env s /\ fired s' = fired s.
Proof.
  intros [H1 H2] Hw Hc H. unfold with_cancel in H. injection H as <- <- <-.
  destruct (inv_new (cells s) (fired s) p H1 Hw) as (HI & Hl & He & Hp). cbn.
  split; [constructor; cbn; auto|].
  - intros c cf Hin. destruct (H2 c cf Hin) as (Hw' & Hc' & Hi'). split; [|split; auto].
    + eapply wf_ext; eauto.
    + intros j Hj. apply Hi' in Hj. lia.
  - repeat split; auto; try lia. eapply wf_ext; eauto.
Qed.
Lemma sinv_config s p f : SInv s -> wf (cells s) p -> wfc (length (confs s)) p -> SInv (with_config s p f).
Proof.
  intros [H1 H2] Hw Hc. unfold with_config, extractConfig. pose proof (wfc_value _ _ Hc) as Hv.
  assert (G : forall cfs q, q < length cfs -> length (confs s) <= length cfs ->
     SInv (push (State (cells s) (match nth_error cfs q with Some cf => upd cfs q (f cf) | None => cfs end) (env s) (fired s)) (Val p KConfig (Some (VConf q))) None)).
  { intros cfs q Hq Hl. set (cfs' := match nth_error cfs q with Some cf => upd cfs q (f cf) | None => cfs end).
    assert (Hl' : length cfs' = length cfs). { unfold cfs'. destruct (nth_error cfs q); auto. apply upd_length. }
    apply sinv_push; cbn; auto.
    - constructor; cbn; auto. intros c cf Hin. destruct (H2 c cf Hin) as (H3 & H4 & H5). repeat split; auto. eapply wfc_mono; [|eauto]. lia.
    - split; [|eapply wfc_mono; [|eauto]; lia]. exists q. split; auto. lia.
    - discriminate. }
  destruct (Value p KConfig) as [v|]; [destruct v; try contradiction|]; apply G; auto; rewrite ?app_length; cbn; lia.
Qed.

Lemma ctx_at_in s n c : ctx_at s n = Some c -> exists cf, In (c, cf) (env s).
Proof.
  unfold ctx_at. destruct (nth_error (env s) n) as [[c' cf]|] eqn:E; [|discriminate]. cbn. intros H. injection H as <-.
  exists cf. eapply nth_error_In; eauto.
Qed.

Lemma sinv_step s o : SInv s -> SInv (step s o).
Proof.
  intros HS. destruct o as [| |n k v|n|n t late|n k j|n|n sug fresh|n fresh|n f|n h|n ca|n]; cbn [step];
    try (unfold on; destruct (ctx_at s n) as [p|] eqn:Ep; [|exact HS]; destruct (ctx_at_in _ _ _ Ep) as [cf0 Hin]; destruct (s_env s HS p cf0 Hin) as (Hw & Hc & _)).
  - apply sinv_push; cbn; auto. discriminate.
  - destruct (with_cancel s Root None) as [[s' c] i] eqn:E.
    destruct (sinv_cancel s Root None s' c i HS I I E) as (H1 & H2 & H3 & H4 & _). apply sinv_push; auto. congruence.
  - apply sinv_push; auto; cbn; destruct k; auto; try discriminate; cbn; auto.
  - destruct (with_cancel s p None) as [[s' c] i] eqn:E.
    destruct (sinv_cancel s p None s' c i HS Hw Hc E) as (H1 & H2 & H3 & H4 & _). apply sinv_push; auto. congruence.
  - destruct (with_cancel s p _) as [[s' c] i] eqn:E. destruct (sinv_cancel s p _ s' c i HS Hw Hc E) as (H1 & H2 & H3 & H4 & _).
    assert (HP : SInv (push s' c (Some i))) by (apply sinv_push; auto; congruence).
    assert (HF : SInv (fire (push s' c (Some i)) i (DeadlineExceeded, Same DeadlineExceeded))) by (apply sinv_fire; auto).
    destruct (Deadline p) as [d|]; [destruct (d <? t)%Z|]; destruct late; auto.
  - apply sinv_push; auto. discriminate.
  - apply sinv_push; auto. discriminate.
  - apply sinv_push; auto. discriminate.
  - destruct (with_cancel s p None) as [[s' c] i] eqn:E.
    destruct (sinv_cancel s p None s' c i HS Hw Hc E) as (H1 & H2 & H3 & H4 & _). apply sinv_push; auto. congruence.
  - now apply sinv_config.
  - now apply sinv_config.
  - destruct (nth_error (env s) n) as [[c [i|]]|] eqn:E; auto. apply sinv_fire; auto. apply nth_error_In in E.
    destruct (s_env s HS _ _ E) as (_ & _ & H). auto.
  - destruct (nth_error (env s) n) as [[c cf]|] eqn:E; auto. destruct c as [| |p i [dl|]| | |]; auto. apply sinv_fire; auto. apply nth_error_In in E.
    destruct (s_env s HS _ _ E) as (Hw & _). destruct Hw as [Hw _]. apply par_lt. congruence.
Qed.
Lemma sinv_run ops : SInv (run ops).
Proof.
  unfold run. assert (H : forall s, SInv s -> SInv (fold_left step ops s)).
  { induction ops as [|o ops IH]; cbn; auto. intros s Hs. apply IH. now apply sinv_step. }
  apply H. constructor; cbn; [|intros c cf []]. constructor; cbn; try (intros; destruct i; discriminate).
  - intros i k Hin. unfold kids_of in Hin. destruct i; destruct Hin.
  - intros k p d Hk. destruct k; discriminate.
  - intros j k Hin. unfold kids_of in Hin. destruct j; destruct Hin.
  - intros i e [].
Qed.

(* ---- results ---- *)
Lemma err_spec ops c : In c (map fst (env (run ops))) ->
  Err (cells (run ops)) c = option_map fst (first_of (scope c) (fired (run ops))).
Proof.
  intros Hin. apply in_map_iff in Hin as ([c' cf] & <- & Hin). cbn. pose proof (sinv_run ops) as HS.
  destruct (s_env _ HS _ _ Hin) as (Hw & _ & _). unfold Err. rewrite <- (err_done _ _ c' (s_inv _ HS) Hw). destruct (Done c'); auto.
Qed.
Lemma cause_spec ops c : In c (map fst (env (run ops))) -> Done c <> None ->
  Cause (cells (run ops)) c = option_map snd (first_of (scope c) (fired (run ops))).
Proof.
  intros Hin Hd. apply in_map_iff in Hin as ([c' cf] & <- & Hin). cbn in *. pose proof (sinv_run ops) as HS.
  destruct (s_env _ HS _ _ Hin) as (Hw & _ & _). unfold Cause. rewrite <- (err_done _ _ c' (s_inv _ HS) Hw).
  destruct (Done c') as [j|] eqn:Ed; [|congruence]. now rewrite (done_value _ _ _ Hw Ed).
Qed.
Lemma detach_never ops c : In c (map fst (env (run ops))) -> Err (cells (run ops)) (Detach c) = None /\ Done (Detach c) = None /\ Deadline (Detach c) = None.
Proof. repeat split. Qed.

Lemma value_undetached c k : Value (undetached c) k = Value c k.
Proof.
  induction c as [|p IH k' v|p IH i dl|p IH k' j'|p IH t l|p IH]; cbn [undetached Value]; auto; rewrite IH; reflexivity.
Qed.
Lemma wf_keys cs c p k v : wf cs c -> In (Val p k v) (ancestry c) -> user_key k.
Proof.
  induction c as [|q IH k' v'|q IH i dl|q IH k' j'|q IH t l|q IH]; cbn [wf ancestry In]; intros Hw [H|H]; try discriminate; try tauto.
  - injection H as <- <- <-. tauto.
Qed.
Lemma in_contexts ops c : In c (contexts ops) -> wf (cells (run ops)) c /\ wfc (length (confs (run ops))) c.
Proof.
  intros Hin. apply in_map_iff in Hin as ([c' cf] & <- & Hin). destruct (s_env _ (sinv_run ops) _ _ Hin) as (H1 & H2 & _). auto.
Qed.
Lemma tracking_spec ops c : In c (contexts ops) -> GetTracking c = match closest_track c with Some t => t | None => [] end.
Proof.
  intros Hin. apply in_contexts in Hin as [Hw _]. apply track_closest. intros p k v Hk ->. apply (wf_keys _ _ _ _ _ Hw) in Hk. exact Hk.
Qed.

Lemma run_snoc ops o : run (ops ++ [o]) = step (run ops) o.
Proof. unfold run. now rewrite fold_left_app. Qed.
Lemma newest_push ops o s c cf : run (ops ++ [o]) = push s c cf -> newest (ops ++ [o]) = Some c.
Proof.
  intros H. unfold newest, contexts. rewrite map_length. unfold ctx_at. rewrite H. cbn. rewrite app_length. cbn.
  rewrite nth_error_app2 by lia. replace (length (env s) + 1 - 1 - length (env s)) with 0 by lia. reflexivity.
Qed.

Lemma next_track cs c : wf cs c -> (forall p t l, In (Track p t l) (ancestry c) -> l = 0%N) ->
  Value c KTrackNext = match closest_track c with Some t => Some (VStr (t ++ B ".1")) | None => None end.
Proof.
  unfold closest_track. induction c as [|p IH k v|p IH i d|p IH k j|p IH t l|p IH]; cbn [wf ancestry find Value key_eqb]; intros Hw Hl; auto.
  all: try (apply IH; [tauto|]; intros; eapply Hl; right; eauto).
  - replace (key_eqb k KTrackNext) with false by (destruct Hw as [Hk _]; destruct k; cbn in *; tauto).
    apply IH; [tauto|]. intros; eapply Hl; right; eauto.
  - rewrite (Hl p t l) by (left; reflexivity). reflexivity.
Qed.

(* trackingCtx.Last is never stored *)
Definition last0 (c : context) : Prop := forall p t l, In (Track p t l) (ancestry c) -> l = 0%N.
Lemma last0_sub c : last0 c -> match c with Root => True | Val p _ _ | Cancel p _ _ | Tag p _ _ | Track p _ _ | Detach p => last0 p end.
Proof. destruct c; auto; intros H q t l Hin; eapply H; right; eauto. Qed.
Lemma last0_env ops : forall c, In c (contexts ops) -> last0 c.
Proof.
  unfold contexts. induction ops as [|o ops IH] using rev_ind; [intros c []|].
  rewrite run_snoc. set (s := run ops) in *.
  assert (Hp : forall n p, ctx_at s n = Some p -> last0 p).
  { intros n p H. destruct (ctx_at_in _ _ _ H) as [cf Hin]. apply IH. apply in_map_iff. exists (p, cf). auto. }
  assert (Hpush : forall s' c cf, env s' = env s -> last0 c -> forall x, In x (map fst (env (push s' c cf))) -> last0 x).
  { intros s' c cf He Hc x. cbn. rewrite He, map_app. intros Hin. apply in_app_or in Hin as [Hin|[<-|[]]]; auto. }
  assert (Htr : forall c sug fresh, last0 c -> last0 (with_tracking c sug fresh)).
  { intros c sug fresh Hc p t l. cbn. intros [H|[H|H]]; try discriminate; [now injection H|eauto]. }
  assert (Hcf : forall p f x, last0 p -> In x (map fst (env (with_config s p f))) -> last0 x).
  { intros p f x Hl. unfold with_config. destruct (extractConfig (confs s) p) as [cfs q]. apply Hpush; auto. intros a t l [H|H]; [discriminate|eauto]. }
  destruct o as [| |n k v|n|n t late|n k j|n|n sug fresh|n fresh|n f|n h|n ca|n]; cbn [step];
    try (unfold on; destruct (ctx_at s n) as [p|] eqn:Ep; [|exact IH]; assert (Hl := Hp n p Ep)).
  - apply Hpush; auto. intros a t l [H|H]; [discriminate|destruct H].
  - unfold with_cancel. apply Hpush; auto. intros a t l [H|[H|H]]; try discriminate; destruct H.
  - apply Hpush; auto. intros a t l [H|H]; [discriminate|eauto].
  - unfold with_cancel. apply Hpush; auto. intros a t l [H|H]; [discriminate|eauto].
  - unfold with_cancel. set (dl := match Deadline p with Some d => if (d <? t)%Z then None else Some t | None => Some t end).
    assert (HP : forall x, In x (map fst (env (push (State (new_cancel (cells s) p) (confs s) (env s) (fired s)) (Cancel p (length (cells s)) dl) (Some (length (cells s)))))) -> last0 x).
    { apply Hpush; auto. intros a t' l [H|H]; [discriminate|eauto]. }
    destruct (Deadline p) as [d|]; [destruct (d <? t)%Z|]; destruct late; exact HP.
  - apply Hpush; auto. intros a t l [H|H]; [discriminate|eauto].
  - apply Hpush; auto. intros a t l [H|H]; [discriminate|eauto].
  - apply Hpush; auto.
  - unfold with_cancel. apply Hpush; auto. apply Htr. intros a t l [H|H]; [discriminate|eauto].
  - intros x. apply Hcf. auto.
  - intros x. apply Hcf. auto.
  - destruct (nth_error (env s) n) as [[c [i|]]|]; auto.
  - destruct (nth_error (env s) n) as [[c cf]|]; auto. destruct c as [| |p i [dl|]| | |]; auto.
Qed.

Lemma ctx_at_contexts ops n p : nth_error (contexts ops) n = Some p <-> ctx_at (run ops) n = Some p.
Proof. unfold contexts, ctx_at. rewrite nth_error_map. reflexivity. Qed.

Lemma span_spec ops n p fresh : nth_error (contexts ops) n = Some p ->
  exists c, newest (ops ++ [OSpan n fresh]) = Some c /\
    GetTracking c = match closest_track p with Some t => t ++ B ".1" | None => fresh end.
Proof.
  intros Hn. pose proof Hn as Hn'. apply ctx_at_contexts in Hn'. apply nth_error_In in Hn. destruct (in_contexts _ _ Hn) as [Hw _].
  pose proof (last0_env ops p Hn) as Hl.
  eexists. split.
  - eapply newest_push. rewrite run_snoc. cbn [step]. unfold on. rewrite Hn'. cbn [with_cancel]. reflexivity.
  - unfold GetTracking, with_tracking. cbn [Value]. rewrite (next_track _ p Hw Hl).
    destruct (closest_track p) as [t|] eqn:E; [|reflexivity]. destruct (t ++ B ".1") eqn:E2; auto. apply app_eq_nil in E2 as [_ E2]. discriminate.
Qed.

Lemma deadline_spec ops n p t late : nth_error (contexts ops) n = Some p ->
  exists c, newest (ops ++ [ODeadline n t late]) = Some c /\
    Deadline c = Some (match Deadline p with Some d => Z.min d t | None => t end).
Proof.
  intros Hn. apply ctx_at_contexts in Hn.
  set (dl := match Deadline p with Some d => if (d <? t)%Z then None else Some t | None => Some t end).
  exists (Cancel p (length (cells (run ops))) dl). split.
  - unfold newest, contexts. rewrite map_length, run_snoc. cbn [step]. unfold on. rewrite Hn. cbn [with_cancel]. fold dl.
    unfold ctx_at. destruct (Deadline p) as [d|]; [destruct (d <? t)%Z|]; destruct late; cbn; rewrite app_length; cbn;
      rewrite nth_error_app2 by lia; replace (length (env (run ops)) + 1 - 1 - length (env (run ops))) with 0 by lia; reflexivity.
  - cbn. unfold dl. destruct (Deadline p) as [d|] eqn:E; auto. destruct (Z.ltb_spec d t); cbn; f_equal; lia.
Qed.

(* ---- loggers ---- *)
Lemma config_has cs n c : wf cs c -> wfc n c -> (Value c KConfig <> None <-> has_logger c).
Proof.
  unfold has_logger. induction c as [|p IH k v|p IH i d|p IH k j|p IH t l|p IH]; cbn [wf wfc ancestry Value key_eqb]; intros Hw Hc.
  - split; [congruence|]. intros (a & b & [H|[]]). discriminate.
  - destruct k; cbn [key_eqb].
    + rewrite IH by tauto. split; intros (a & b & H); exists a, b; [now right|destruct H; [discriminate|auto]].
    + rewrite IH by tauto. split; intros (a & b & H); exists a, b; [now right|destruct H; [discriminate|auto]].
    + destruct Hc as [(q & -> & Hq) _]. split; [|discriminate]. intros _. exists p, (Some (VConf q)). now left.
    + destruct Hw as [[] _]. + destruct Hw as [[] _]. + destruct Hw as [[] _].
  - rewrite IH by tauto. split; intros (a & b & H); exists a, b; [now right|destruct H; [discriminate|auto]].
  - rewrite IH by tauto. split; intros (a & b & H); exists a, b; [now right|destruct H; [discriminate|auto]].
  - rewrite IH by tauto. split; intros (a & b & H); exists a, b; [now right|destruct H; [discriminate|auto]].
  - rewrite IH by tauto. split; intros (a & b & H); exists a, b; [now right|destruct H; [discriminate|auto]].
Qed.

Lemma logger_set ops n p f : nth_error (contexts ops) n = Some p ->
  exists c, newest (ops ++ [OLogFunc n f]) = Some c /\ log_func (confs (run (ops ++ [OLogFunc n f]))) c = Some f.
Proof.
  intros Hn. pose proof Hn as Hn'. apply ctx_at_contexts in Hn'. apply nth_error_In in Hn. destruct (in_contexts _ _ Hn) as [Hw Hc].
  destruct (extractConfig (confs (run ops)) p) as [cfs q] eqn:Ex.
  exists (Val p KConfig (Some (VConf q))). split.
  - eapply newest_push. rewrite run_snoc. cbn [step]. unfold on. rewrite Hn'. unfold with_config. rewrite Ex. reflexivity.
  - rewrite run_snoc. cbn [step]. unfold on. rewrite Hn'. unfold with_config. rewrite Ex. unfold log_func. cbn.
    assert (Hq : q < length cfs).
    { unfold extractConfig in Ex. pose proof (wfc_value _ _ Hc). destruct (Value p KConfig) as [[]|]; try contradiction; injection Ex as <- <-; auto; rewrite app_length; cbn; lia. }
    destruct (nth_error cfs q) eqn:En; [|apply nth_error_None in En; lia].
    rewrite nth_upd, Nat.eqb_refl. apply Nat.ltb_lt in Hq. now rewrite Hq.
Qed.

(* WithLogFunc / WithHelper on a context without logger changes no existing context *)
Lemma logger_fresh ops n p o : (exists f, o = OLogFunc n f) \/ (exists h, o = OHelper n h) ->
  nth_error (contexts ops) n = Some p -> ~ has_logger p -> forall x, In x (contexts ops) ->
  logs_with (ops ++ [o]) x = logs_with ops x.
Proof.
  intros Ho Hn Hh x Hx. pose proof Hn as Hn'. apply ctx_at_contexts in Hn'. apply nth_error_In in Hn. destruct (in_contexts _ _ Hn) as [Hw Hc].
  destruct (in_contexts _ _ Hx) as [Hwx Hcx]. pose proof (wfc_value _ _ Hcx) as Hvx.
  assert (Hv : Value p KConfig = None).
  { destruct (Value p KConfig) eqn:E; auto. exfalso. apply Hh. apply (config_has _ _ p Hw Hc). congruence. }
  assert (G : forall g, confs (with_config (run ops) p g) = upd (confs (run ops) ++ [Config None None]) (length (confs (run ops))) (g (Config None None))).
  { intros g. unfold with_config, extractConfig. rewrite Hv. cbn. rewrite nth_error_app2, Nat.sub_diag by lia. reflexivity. }
  assert (K : forall g q, q < length (confs (run ops)) -> nth_error (confs (with_config (run ops) p g)) q = nth_error (confs (run ops)) q).
  { intros g q Hq. rewrite G, nth_upd. replace (Nat.eqb (length (confs (run ops))) q) with false by (symmetry; apply Nat.eqb_neq; lia).
    now rewrite nth_error_app1. }
  unfold logs_with, log_func, log_helper. rewrite run_snoc.
  destruct Ho as [[f ->]|[h ->]]; cbn [step]; unfold on; rewrite Hn'; destruct (Value x KConfig) as [[]|]; auto; try contradiction; rewrite K by auto; reflexivity.
Qed.

(* in general it also changes every context that shares the config *)
Lemma logger_shared ops n p f : nth_error (contexts ops) n = Some p -> has_logger p ->
  log_func (confs (run (ops ++ [OLogFunc n f]))) p = Some f.
Proof.
  intros Hn Hh. pose proof Hn as Hn'. apply ctx_at_contexts in Hn'. apply nth_error_In in Hn. destruct (in_contexts _ _ Hn) as [Hw Hc].
  apply (config_has _ _ p Hw Hc) in Hh. pose proof (wfc_value _ _ Hc) as Hv. rewrite run_snoc. cbn [step]. unfold on. rewrite Hn'.
  unfold with_config, extractConfig, log_func. destruct (Value p KConfig) as [[]|]; try contradiction. cbn.
  destruct (nth_error (confs (run ops)) p0) eqn:En; [|apply nth_error_None in En; lia]. rewrite nth_upd, Nat.eqb_refl.
  apply Nat.ltb_lt in Hv. now rewrite Hv.
Qed.

(* ---- tags and string keys ---- *)
Lemma tag_value c t j k : (forall s, k = KStr s -> s <> t) -> Value (Tag c t j) k = Value c k.
Proof.
  intros H. cbn [Value]. destruct k; cbn [key_eqb]; auto. destruct (beqb s t) eqn:E; auto. apply beqb_eq in E. now apply H in E.
Qed.

(* ---- Err and Cause ---- *)
Lemma err_cause ops c : In c (contexts ops) -> Done c <> None ->
  (Err (cells (run ops)) c = None <-> Cause (cells (run ops)) c = None).
Proof.
  intros Hin Hd. rewrite err_spec, cause_spec by auto. destruct (first_of (scope c) (fired (run ops))) as [[a b]|]; cbn; split; congruence.
Qed.

Lemma first_of_snoc l evs e : first_of l (evs ++ [e]) =
  match first_of l evs with Some x => Some x | None => if existsb (Nat.eqb (fst e)) l then Some (snd e) else None end.
Proof.
  unfold first_of. induction evs as [|a evs IH]; cbn [app find].
  - destruct (existsb _ l); reflexivity.
  - destruct (existsb (Nat.eqb (fst a)) l); auto.
Qed.
Lemma in_contexts_fire ops n ca c : In c (contexts ops) -> In c (contexts (ops ++ [OFire n ca])).
Proof.
  unfold contexts. rewrite run_snoc. cbn [step]. destruct (nth_error (env (run ops)) n) as [[d [i|]]|]; auto.
Qed.
Lemma fire_err ops n ca p i c : nth_error (env (run ops)) n = Some (p, Some i) -> In c (contexts ops) ->
  Err (cells (run (ops ++ [OFire n ca]))) c =
    match Err (cells (run ops)) c with Some k => Some k | None => if existsb (Nat.eqb i) (scope c) then Some Canceled else None end.
Proof.
  intros Hn Hc. rewrite !err_spec by (try apply in_contexts_fire; exact Hc).
  rewrite run_snoc. cbn [step]. rewrite Hn. cbn [fire fired]. rewrite first_of_snoc. cbn [fst snd].
  destruct (first_of (scope c) (fired (run ops))) as [x|]; auto. destruct (existsb _ _); auto.
Qed.
Lemma refuted_cause : exists ops c, In c (contexts ops) /\ Err (cells (run ops)) c = None /\ Cause (cells (run ops)) c <> None.
Proof.
  exists [OBackground; ODetach 0; OFire 0 (Some 7%N)]. eexists. split; [right; left; reflexivity|]. split; [reflexivity|]. vm_compute. discriminate.
Qed.
