(* Theorems about values that refer to themselves: C132. *)
From Coq Require Import Bool Ascii String Arith NArith ZArith List Lia Relations.
From Verif Require Import Prelude PreludeFacts Utf8Model DecModel DurModel EncModel JsonModel MarModel CyModel CySpec.
Import ListNotations.

Lemma gv_ind2 (P : gv -> Prop) :
  (forall n, P (GLeaf n)) -> P GNil -> P GFunc -> (forall r, P (GRef r)) -> (forall l, Forall P l -> P (GArr l)) ->
  (forall fs, Forall (fun e => P (snd e)) fs -> P (GStruct fs)) -> forall v, P v.
Proof.
  intros H1 H2 H3 H4 H5 H6. fix IH 1. intros [n| | |r|l|fs]; [apply H1|exact H2|exact H3|apply H4|apply H5|apply H6].
  - induction l as [|v l IHl]; constructor; [apply IH|exact IHl].
  - induction fs as [|[d v] l IHl]; constructor; [apply IH|exact IHl].
Qed.

(* ---- more depth changes nothing ---- *)
Definition le_f (f g : gv -> option (mend node)) : Prop := forall v r, f v = Some r -> g v = Some r.
Lemma elems_le f g l : le_f f g -> forall r, elems f l = Some r -> elems g l = Some r.
Proof.
  intros H. induction l as [|v l IH]; intros r E; cbn [elems] in *; [exact E|].
  destruct (f v) as [[n| |]|] eqn:F; cbn [obind] in E; try discriminate; rewrite (H _ _ F); cbn [obind]; try exact E.
  destruct (elems f l) as [[ns| |]|] eqn:G; cbn [obind] in E; try discriminate; rewrite (IH _ eq_refl); exact E.
Qed.
Lemma entries_le f g l : le_f f g -> forall acc r, entries f acc l = Some r -> entries g acc l = Some r.
Proof.
  intros H. induction l as [|[k v] l IH]; intros acc r E; cbn [entries] in *; [exact E|].
  destruct (f v) as [[n| |]|] eqn:F; cbn [obind] in E; try discriminate; rewrite (H _ _ F); cbn [obind]; try exact E.
  destruct (f k) as [[m| |]|] eqn:G; cbn [obind] in E; try discriminate; rewrite (H _ _ G); cbn [obind]; try exact E.
  destruct (key_text m); [apply IH, E|exact E].
Qed.
Lemma fields_le f g l : le_f f g -> forall r, fields f l = Some r -> fields g l = Some r.
Proof.
  intros H. induction l as [|[d v] l IH]; intros r E; cbn [fields] in *; [exact E|].
  destruct (f_exported d); [|apply IH, E]. destruct (parseTag d) as [tg|]; [|exact E]. destruct (g_skip tg); [apply IH, E|].
  destruct (f v) as [[n| |]|] eqn:F; cbn [obind] in E; try discriminate; rewrite (H _ _ F); cbn [obind]; try exact E.
  destruct (fields f l) as [[ns| |]|] eqn:G; cbn [obind] in E; try discriminate; rewrite (IH _ eq_refl); exact E.
Qed.
Lemma obind_le {A C} (a b : option (mend A)) (f : A -> option (mend C)) r : (forall x, a = Some x -> b = Some x) -> obind a f = Some r -> obind b f = Some r.
Proof. intros H. destruct a as [x|]; cbn [obind]; [rewrite (H _ eq_refl); auto|discriminate]. Qed.
Lemma marshal_S h fuel : le_f (marshal fuel h) (marshal (S fuel) h).
Proof.
  induction fuel as [|fuel IH]; intros v r E; [discriminate|]. remember (S fuel) as g. cbn [marshal]. subst g. cbn [marshal] in E.
  destruct v as [n| | |[a|a i n|a]|l|fs]; try exact E.
  - destruct (nth_error h a) as [[w|l|l]|]; try exact E. apply IH, E.
  - destruct (nth_error h a) as [[w|l|l]|]; try exact E. revert E. apply obind_le. intros x. apply elems_le, IH.
  - destruct (nth_error h a) as [[w|l|l]|]; try exact E. revert E. apply obind_le. intros x. apply entries_le, IH.
  - revert E. apply obind_le. intros x. apply elems_le, IH.
  - revert E. apply obind_le. intros x. apply fields_le, IH.
Qed.
Lemma marshal_le h a b : a <= b -> le_f (marshal a h) (marshal b h).
Proof. induction 1 as [|b H IH]; intros v r E; [exact E|]. apply marshal_S, IH, E. Qed.

(* ---- parts ---- *)
Lemma nth_firstn {A} (l : list A) n : forall k, nth_error (firstn n l) k = if k <? n then nth_error l k else None.
Proof.
  revert n. induction l as [|x l IH]; intros n k; [rewrite firstn_nil; destruct k, (_ <? n); reflexivity|].
  destruct n as [|n]; [destruct k; reflexivity|]. destruct k as [|k]; [reflexivity|]. cbn [firstn nth_error]. rewrite IH. reflexivity.
Qed.
Lemma nth_skipn {A} (l : list A) i k : nth_error (skipn i l) k = nth_error l (i + k).
Proof. revert l. induction i as [|i IH]; intros l; [reflexivity|]. destruct l; [destruct k; reflexivity|]. apply IH. Qed.
Lemma elem_part h a i n l w : nth_error h a = Some (CArr l) -> In w (firstn n (skipn i l)) <-> part h (GRef (RSlice a i n)) w.
Proof.
  intros H. split.
  - intros Hi. apply In_nth_error in Hi. destruct Hi as [k Hk]. assert (L : k < n).
    { assert (Q : k < length (firstn n (skipn i l))) by (apply nth_error_Some; congruence). rewrite firstn_length in Q. lia. }
    eapply p_elem; [exact H| |exact L]. rewrite nth_firstn in Hk. destruct (Nat.ltb_spec k n); [|lia]. rewrite nth_skipn in Hk. exact Hk.
  - intros Hp. inversion Hp as [|? ? ? l' k ? E1 E2 E3| | | |]; subst. rewrite H in E1. injection E1 as <-.
    apply nth_error_In with k. rewrite nth_firstn. destruct (Nat.ltb_spec k n); [|lia]. rewrite nth_skipn. exact E2.
Qed.

(* ---- values without cycles ---- *)
Lemma ref_dec (a b : ref) : {a = b} + {a <> b}.
Proof. decide equality; apply Nat.eq_dec. Qed.
(* all references in a value, and in memory *)
Fixpoint refs (v : gv) : list ref :=
  match v with
  | GRef r => [r]
  | GArr l => flat_map refs l
  | GStruct fs => flat_map (fun e => refs (snd e)) fs
  | _ => []
  end.
Definition cell_refs (c : cell) : list ref :=
  match c with CVar v => refs v | CArr l => flat_map refs l | CMap l => flat_map (fun e => refs (fst e) ++ refs (snd e)) l end.
Definition all_refs (h : memory) : list ref := flat_map cell_refs h.
Lemma cell_in h a c : nth_error h a = Some c -> incl (cell_refs c) (all_refs h).
Proof. intros E r Hr. apply in_flat_map. exists c. split; [apply nth_error_In in E; exact E|exact Hr]. Qed.
Lemma part_refs h v w U : incl (all_refs h) U -> part h v w -> incl (refs v) U -> incl (refs w) U.
Proof.
  intros HU Hp Hv r Hr. destruct Hp as [a w E|a i n l k w E E' _|a l k w E Hi|a l k w E Hi|l w Hi|fs d w Hi _].
  - apply HU, (cell_in _ _ _ E), Hr.
  - apply HU, (cell_in _ _ _ E). apply in_flat_map. exists w. split; [apply nth_error_In in E'; exact E'|exact Hr].
  - apply HU, (cell_in _ _ _ E). apply in_flat_map. exists (k, w). split; [exact Hi|apply in_or_app; left; exact Hr].
  - apply HU, (cell_in _ _ _ E). apply in_flat_map. exists (k, w). split; [exact Hi|apply in_or_app; right; exact Hr].
  - apply Hv. cbn [refs]. apply in_flat_map. exists w. auto.
  - apply Hv. cbn [refs]. apply in_flat_map. exists (d, w). auto.
Qed.
Lemma bounded h (l : list gv) : (forall w, In w l -> returns h w) -> exists fuel, forall w, In w l -> exists r, marshal fuel h w = Some r.
Proof.
  induction l as [|v l IH]; intros H; [exists 0; intros w []|]. destruct IH as [f1 H1]; [intros w Hw; apply H; right; exact Hw|].
  destruct (H v (or_introl eq_refl)) as (f2 & r & E). exists (f1 + f2). intros w [<-|Hw].
  - exists r. eapply marshal_le; [|exact E]. lia.
  - destruct (H1 w Hw) as [x Ex]. exists x. eapply marshal_le; [|exact Ex]. lia.
Qed.
Lemma elems_done f l : (forall w, In w l -> exists r, f w = Some r) -> exists r, elems f l = Some r.
Proof.
  induction l as [|v l IH]; intros H; cbn [elems]; [eauto|]. destruct (H v (or_introl eq_refl)) as [[n| |] E]; rewrite E; cbn [obind]; eauto.
  destruct IH as [[ns| |] E']; [intros w Hw; apply H; right; exact Hw| | |]; rewrite E'; cbn [obind]; eauto.
Qed.
Lemma entries_done f l : (forall k w, In (k, w) l -> (exists r, f w = Some r) /\ exists r, f k = Some r) -> forall acc, exists r, entries f acc l = Some r.
Proof.
  induction l as [|[k v] l IH]; intros H acc; cbn [entries]; [eauto|]. destruct (H k v (or_introl eq_refl)) as [[[n| |] E] [[m| |] E']]; rewrite E; cbn [obind]; eauto; rewrite E'; cbn [obind]; eauto.
  destruct (key_text m); [|eauto]. apply IH. intros k' w Hw. apply H. right. exact Hw.
Qed.
Lemma fields_done f l : (forall d w, In (d, w) l -> shown d -> exists r, f w = Some r) -> exists r, fields f l = Some r.
Proof.
  induction l as [|[d v] l IH]; intros H; cbn [fields]; [eauto|]. specialize (IH (fun d w Hi => H d w (or_intror Hi))).
  destruct (f_exported d) eqn:Ex; [|exact IH]. destruct (parseTag d) as [tg|] eqn:Et; [|eauto]. destruct (g_skip tg) eqn:Es; [exact IH|].
  destruct (H d v (or_introl eq_refl)) as [[n| |] E]; [split; eauto| | |]; rewrite E; cbn [obind]; eauto.
  destruct IH as [[ns| |] E']; rewrite E'; cbn [obind]; eauto.
Qed.
Lemma parts_return h v : (forall w, part h v w -> returns h w) -> returns h v.
Proof.
  intros H. destruct v as [n| | |[a|a i n|a]|l|fs]; try (exists 1; eexists; reflexivity).
  - destruct (nth_error h a) as [[w|l|l]|] eqn:E; try (exists 1; cbn [marshal]; rewrite E; eauto; fail).
    destruct (H w (p_ptr _ _ _ E)) as (f & r & Er). exists (S f), r. cbn [marshal]. now rewrite E.
  - destruct (nth_error h a) as [[w|l|l]|] eqn:E; try (exists 1; cbn [marshal]; rewrite E; eauto; fail).
    destruct (bounded h (firstn n (skipn i l))) as [f Hf]; [intros w Hw; apply H; eapply elem_part; eauto|].
    destruct (elems_done (marshal f h) _ Hf) as [[ns| |] Er]; exists (S f); cbn [marshal]; rewrite E, Er; cbn [obind]; eauto.
  - destruct (nth_error h a) as [[w|l|l]|] eqn:E; try (exists 1; cbn [marshal]; rewrite E; eauto; fail).
    destruct (bounded h (map fst l ++ map snd l)) as [f Hf].
    { intros w Hw. apply H. apply in_app_or in Hw. destruct Hw as [Hw|Hw]; apply in_map_iff in Hw; destruct Hw as ([k x] & <- & Hi); cbn; [eapply p_key|eapply p_value]; eauto. }
    destruct (entries_done (marshal f h) l) with (acc := @nil (bytes * node)) as [[ns| |] Er]; [|exists (S f); cbn [marshal]; rewrite E, Er; cbn [obind]; eauto ..].
    intros k x Hi. split; apply Hf, in_or_app; [right|left]; apply in_map_iff; exists (k, x); auto.
  - destruct (bounded h l) as [f Hf]; [intros w Hw; apply H, p_array, Hw|].
    destruct (elems_done (marshal f h) _ Hf) as [[ns| |] Er]; exists (S f); cbn [marshal]; rewrite Er; cbn [obind]; eauto.
  - assert (B : exists f, forall d w, In (d, w) fs -> shown d -> exists r, marshal f h w = Some r).
    { assert (G : forall l, incl l fs -> exists f, forall d w, In (d, w) l -> shown d -> exists r, marshal f h w = Some r).
      { induction l as [|[d v] l IH]; intros Hl; [exists 0; intros d w []|]. destruct IH as [f1 H1]; [intros x Hx; apply Hl; right; exact Hx|].
        destruct (f_exported d) eqn:Ex.
        2:{ exists f1. intros d' w [Q|Q] Hs; [|eapply H1; eauto]. injection Q as -> ->. destruct Hs as [Hs _]. congruence. }
        destruct (parseTag d) as [tg|] eqn:Et.
        2:{ exists f1. intros d' w [Q|Q] Hs; [|eapply H1; eauto]. injection Q as -> ->. destruct Hs as [_ (tg & Hs & _)]. congruence. }
        destruct (g_skip tg) eqn:Es.
        { exists f1. intros d' w [Q|Q] Hs; [|eapply H1; eauto]. injection Q as -> ->. destruct Hs as [_ (tg' & Hs & Hk)]. congruence. }
        destruct (H v) as (f2 & r & E); [eapply p_field; [apply Hl; left; reflexivity|split; eauto]|].
        exists (f1 + f2). intros d' w [Q|Q] Hs.
        - injection Q as -> ->. exists r. eapply marshal_le; [|exact E]. lia.
        - destruct (H1 d' w Q Hs) as [x Ex']. exists x. eapply marshal_le; [|exact Ex']. lia. }
      apply G. intros x Hx; exact Hx. }
    destruct B as [f Hf]. destruct (fields_done (marshal f h) _ Hf) as [[ns| |] Er]; exists (S f); cbn [marshal]; rewrite Er; cbn [obind]; eauto.
Qed.
Lemma part_acyclic h v w : part h v w -> ~ has_cycle h v -> ~ has_cycle h w.
Proof. intros Hp Hc (x & R & C). apply Hc. exists x. split; [|exact C]. eapply rt_trans; [apply rt_step, Hp|exact R]. Qed.
Lemma unseen_returns h U : incl (all_refs h) U -> forall k seen, NoDup seen -> incl seen U -> length U <= length seen + k ->
  forall v, incl (refs v) U -> (forall r, In r seen -> clos_trans _ (part h) (GRef r) v) -> ~ has_cycle h v -> returns h v.
Proof.
  intros HU. induction k as [|k IHk]; intros seen Hn Hs Hk; induction v as [n| | |r|l IH|fs IH] using gv_ind2; intros Hv Hr Hc;
    try (apply parts_return; intros w Hp; inversion Hp; fail).
  - exfalso. assert (Q : In r seen).
    { destruct (in_dec ref_dec r seen) as [Q|Q]; [exact Q|]. assert (L : length (r :: seen) <= length U); [|cbn in L; lia].
      apply NoDup_incl_length; [constructor; auto|]. intros x [<-|Hx]; [apply Hv; left; reflexivity|apply Hs, Hx]. }
    apply Hc. exists (GRef r). split; [apply rt_refl|apply Hr, Q].
  - apply parts_return. intros w Hp. pose proof Hp as Hp'. inversion Hp as [| | | |l' w' Hi|]; subst. rewrite Forall_forall in IH.
    apply IH; [exact Hi|eapply part_refs; eauto| |eapply part_acyclic; eauto]. intros x Hx. eapply t_trans; [apply Hr, Hx|apply t_step, Hp'].
  - apply parts_return. intros w Hp. pose proof Hp as Hp'. inversion Hp as [| | | | |fs' d w' Hi Hd]; subst. rewrite Forall_forall in IH.
    apply (IH (d, w)); [exact Hi|cbn [snd]; eapply part_refs; eauto| |eapply part_acyclic; eauto]. intros x Hx. eapply t_trans; [apply Hr, Hx|apply t_step, Hp'].
  - destruct (in_dec ref_dec r seen) as [Q|Q]; [exfalso; apply Hc; exists (GRef r); split; [apply rt_refl|apply Hr, Q]|].
    apply parts_return. intros w Hp. apply (IHk (r :: seen)).
    + constructor; auto.
    + intros x [<-|Hx]; [apply Hv; left; reflexivity|apply Hs, Hx].
    + cbn. lia.
    + eapply part_refs; eauto.
    + intros x [<-|Hx]; [apply t_step, Hp|]. eapply t_trans; [apply Hr, Hx|apply t_step, Hp].
    + eapply part_acyclic; eauto.
  - apply parts_return. intros w Hp. pose proof Hp as Hp'. inversion Hp as [| | | |l' w' Hi|]; subst. rewrite Forall_forall in IH.
    apply IH; [exact Hi|eapply part_refs; eauto| |eapply part_acyclic; eauto]. intros x Hx. eapply t_trans; [apply Hr, Hx|apply t_step, Hp'].
  - apply parts_return. intros w Hp. pose proof Hp as Hp'. inversion Hp as [| | | | |fs' d w' Hi Hd]; subst. rewrite Forall_forall in IH.
    apply (IH (d, w)); [exact Hi|cbn [snd]; eapply part_refs; eauto| |eapply part_acyclic; eauto]. intros x Hx. eapply t_trans; [apply Hr, Hx|apply t_step, Hp'].
Qed.

(* C132: Marshal returns for every value that does not refer to itself, whatever it refers to and how often. *)
Theorem C132_partial : forall h v, ~ has_cycle h v -> returns h v.
Proof.
  intros h v Hc. apply (unseen_returns h (refs v ++ all_refs h)) with (k := length (refs v ++ all_refs h)) (seen := []); auto.
  - intros x Hx. apply in_or_app. right. exact Hx.
  - constructor.
  - intros x [].
  - intros x Hx. apply in_or_app. left. exact Hx.
  - intros r [].
Qed.
Print Assumptions C132_partial.

(* ---- cycles ---- *)
Definition writable_all (h : memory) (v : gv) : Prop := forall x, clos_refl_trans _ (part h) v x -> writable h x.
Lemma writable_part h v w : part h v w -> writable_all h v -> writable_all h w.
Proof. intros Hp H x R. apply H. eapply rt_trans; [apply rt_step, Hp|exact R]. Qed.
(* what a call that returns for a writable value has called: it returns a node, and so do the calls for the parts, which are less deep *)
Definition good (h : memory) (fuel : nat) (w : gv) : Prop := exists n, marshal fuel h w = Some (MOk n).
Lemma elems_good f l r : elems f l = Some r -> (forall w x, In w l -> f w = Some x -> exists n, x = MOk n) ->
  (exists ns, r = MOk ns) /\ forall w, In w l -> exists n, f w = Some (MOk n).
Proof.
  revert r. induction l as [|v l IH]; intros r E H; cbn [elems] in E; [injection E as <-; split; [eauto|intros w []]|].
  destruct (f v) as [x|] eqn:F; [|discriminate]. destruct (H v x (or_introl eq_refl) F) as [n ->]. cbn [obind] in E.
  destruct (elems f l) as [y|] eqn:G; [|discriminate]. destruct (IH y eq_refl) as [[ns ->] I2]; [intros w x Hw; apply H; right; exact Hw|].
  cbn [obind] in E. injection E as <-. split; [eauto|]. intros w [<-|Hw]; eauto.
Qed.
Lemma fields_good f l r : fields f l = Some r -> (forall d w, In (d, w) l -> f_exported d = true -> parseTag d <> Panic) ->
  (forall d w x, In (d, w) l -> shown d -> f w = Some x -> exists n, x = MOk n) ->
  (exists ns, r = MOk ns) /\ forall d w, In (d, w) l -> shown d -> exists n, f w = Some (MOk n).
Proof.
  revert r. induction l as [|[d v] l IH]; intros r E Ht H; cbn [fields] in E; [injection E as <-; split; [eauto|intros d w []]|].
  assert (Ht' := fun d w Hi => Ht d w (or_intror Hi)). assert (H' := fun d w x Hi => H d w x (or_intror Hi)).
  assert (skip : fields f l = Some r -> ~ shown d -> (exists ns, r = MOk ns) /\ forall d' w, In (d', w) ((d, v) :: l) -> shown d' -> exists n, f w = Some (MOk n)).
  { intros E' Hd. destruct (IH r E' Ht' H') as [I1 I2]. split; [exact I1|]. intros d' w [Q|Q] Hs; [injection Q as -> ->; contradiction|eauto]. }
  destruct (f_exported d) eqn:Ex; [|apply skip; [exact E|intros [Q _]; congruence]].
  destruct (parseTag d) as [tg|] eqn:Et; [|destruct (Ht d v (or_introl eq_refl) Ex Et)].
  destruct (g_skip tg) eqn:Es; [apply skip; [exact E|intros [_ (tg' & Q1 & Q2)]; congruence]|].
  assert (Hd : shown d) by (split; eauto).
  destruct (f v) as [x|] eqn:F; [|discriminate]. destruct (H d v x (or_introl eq_refl) Hd F) as [n ->]. cbn [obind] in E.
  destruct (fields f l) as [y|] eqn:G; [|discriminate]. destruct (IH y eq_refl Ht' H') as [[ns ->] I2].
  cbn [obind] in E. injection E as <-. split; [eauto|]. intros d' w [Q|Q] Hs; [injection Q as -> ->; eauto|eauto].
Qed.
Lemma entries_good f l : forall acc r, entries f acc l = Some r -> (forall k w, In (k, w) l -> exists n s, k = GLeaf n /\ key_text n = Some s) ->
  (forall n x, f (GLeaf n) = Some x -> x = MOk n) ->
  (forall k w x, In (k, w) l -> f w = Some x -> exists n, x = MOk n) ->
  (exists ns, r = MOk ns) /\ forall k w, In (k, w) l -> (exists n, f w = Some (MOk n)) /\ exists n, f k = Some (MOk n).
Proof.
  induction l as [|[k v] l IH]; intros acc r E Hk Hl H; cbn [entries] in E; [injection E as <-; split; [eauto|intros k w []]|].
  destruct (f v) as [x|] eqn:F; [|discriminate]. destruct (H k v x (or_introl eq_refl) F) as [n ->]. cbn [obind] in E.
  destruct (Hk k v (or_introl eq_refl)) as (m & s & -> & Es). destruct (f (GLeaf m)) as [x|] eqn:F'; [|discriminate]. pose proof (Hl _ _ F') as Hx. subst x. cbn [obind] in E.
  rewrite Es in E. destruct (IH _ _ E) as [I1 I2].
  - intros k w Hi. apply (Hk k w). right. exact Hi.
  - exact Hl.
  - intros k w x' Hi. apply (H k w). right. exact Hi.
  - split; [exact I1|]. intros k w [Q|Q]; [injection Q as <- <-; split; eauto|apply I2, Q].
Qed.
Lemma calls_parts h : forall fuel v r, writable_all h v -> marshal fuel h v = Some r ->
  (exists n, r = MOk n) /\ forall w, part h v w -> exists f, f < fuel /\ good h f w.
Proof.
  induction fuel as [|fuel IH]; intros v r Hw E; [discriminate|]. cbn [marshal] in E.
  assert (IH' : forall w x, part h v w -> marshal fuel h w = Some x -> exists n, x = MOk n).
  { intros w x Hp Ex. apply (IH w x); [eapply writable_part; eauto|exact Ex]. }
  pose proof (Hw v (rt_refl _ _ _)) as H0.
  destruct v as [n| | |[a|a i n|a]|l|fs]; cbn [writable] in H0.
  - injection E as <-. split; [eauto|]. intros w Hp; inversion Hp.
  - injection E as <-. split; [eauto|]. intros w Hp; inversion Hp.
  - contradiction.
  - destruct H0 as [w0 H0]. rewrite H0 in E. destruct (IH' w0 r (p_ptr _ _ _ H0) E) as [n ->]. split; [eauto|]. intros w Hp. inversion Hp; subst.
    assert (w = w0) by congruence. subst. exists fuel. split; [lia|]. exists n. exact E.
  - destruct H0 as [l H0]. rewrite H0 in E. destruct (elems (marshal fuel h) (firstn n (skipn i l))) as [x|] eqn:G; [|discriminate].
    destruct (elems_good _ _ _ G) as [[ns ->] I2]; [intros w x' Hi; apply IH'; eapply elem_part; eauto|]. cbn [obind] in E. injection E as <-. split; [eauto|].
    intros w Hp. exists fuel. split; [lia|]. apply I2. eapply elem_part; eauto.
  - destruct H0 as (l & H0 & Hk). rewrite H0 in E. destruct (entries (marshal fuel h) [] l) as [x|] eqn:G; [|discriminate].
    destruct (entries_good _ _ _ _ G Hk) as [[ns ->] I2].
    { intros m x' Q. destruct fuel; [discriminate|]. cbn [marshal] in Q. congruence. }
    { intros k w x' Hi. apply IH'. eapply p_value; eauto. }
    cbn [obind] in E. injection E as <-. split; [eauto|]. intros w Hp. exists fuel. split; [lia|].
    inversion Hp as [| |a' l' k w' E1 Hi|a' l' k w' E1 Hi| |]; subst; assert (l' = l) by congruence; subst; apply (I2 _ _ Hi).
  - destruct (elems (marshal fuel h) l) as [x|] eqn:G; [|discriminate].
    destruct (elems_good _ _ _ G) as [[ns ->] I2]; [intros w x' Hi; apply IH'; constructor; exact Hi|]. cbn [obind] in E. injection E as <-. split; [eauto|].
    intros w Hp. exists fuel. split; [lia|]. apply I2. inversion Hp; subst; assumption.
  - destruct (fields (marshal fuel h) fs) as [x|] eqn:G; [|discriminate].
    destruct (fields_good _ _ _ G H0) as [[ns ->] I2]; [intros d w x' Hi Hd; apply IH'; econstructor; eauto|]. cbn [obind] in E. injection E as <-. split; [eauto|].
    intros w Hp. exists fuel. split; [lia|]. inversion Hp; subst. eapply I2; eauto.
Qed.
Lemma calls_trans h v w : clos_trans _ (part h) v w -> writable_all h v -> forall fuel, good h fuel v -> exists f, f < fuel /\ good h f w.
Proof.
  induction 1 as [v w Hp|v x w H1 IH1 H2 IH2]; intros Hw fuel [n E].
  - exact (proj2 (calls_parts h fuel v _ Hw E) w Hp).
  - destruct (IH1 Hw fuel) as (f1 & L1 & G1); [exists n; exact E|]. destruct (IH2) with (fuel := f1) as (f2 & L2 & G2); auto.
    + intros y R. apply Hw. eapply rt_trans; [|exact R]. clear - H1. induction H1; [apply rt_step; assumption|eapply rt_trans; eauto].
    + exists f2. split; [lia|exact G2].
Qed.

(* C132 is false of the code: if a value that can be written (no func in it, ...) refers to itself, Marshal never returns: the stack grows
   until the program ends. *)
Theorem C132_refuted : forall h v, writable_all h v -> has_cycle h v -> ~ returns h v.
Proof.
  intros h v Hw (x & R & C) (fuel & r & E). destruct (calls_parts h fuel v r Hw E) as [[n ->] _].
  assert (Gx : exists f, good h f x).
  { apply clos_rt_rtn1 in R. clear C. assert (Q : exists f, f <= fuel /\ good h f x); [|destruct Q as (f & _ & Q); eauto].
    induction R as [|y z Hp R IH]; [exists fuel; split; [lia|exists n; exact E]|]. destruct IH as (f & L & G).
    destruct G as [m Em]. destruct (proj2 (calls_parts h f y _ (fun u Hu => Hw u (rt_trans _ _ _ _ _ (clos_rtn1_rt _ _ _ _ R) Hu)) Em) z Hp) as (g & L' & G'). exists g. split; [lia|exact G']. }
  assert (Hx : writable_all h x) by (intros y Ry; apply Hw; eapply rt_trans; eauto).
  destruct Gx as [f G]. clear E. revert G. induction f as [f IH] using lt_wf_ind. intros G. destruct (calls_trans h x x C Hx f G) as (g & L & G'). exact (IH g L G').
Qed.
Print Assumptions C132_refuted.

(* C132: what Marshal returns does not depend on the depth that is allowed. *)
Theorem C132_one : forall h v r r', gives h v r -> gives h v r' -> r = r'.
Proof.
  intros h v r r' [f E] [g E']. apply (marshal_le h f (f + g)) in E; [|lia]. apply (marshal_le h g (f + g)) in E'; [|lia]. congruence.
Qed.
Print Assumptions C132_one.

(* a list of two that share their names; a ring; the ring with a link that is not written; an array with a slice of its end in front *)
Definition cy_fld (n t : string) : fld := Fld (B n) true (B t).
Definition cy_item (next : gv) : gv := GStruct [(cy_fld "Name" "", GRef (RPtr 0)); (cy_fld "Next" "", next)].
Definition cy_mem : memory :=
  [CVar (GLeaf (NStr (B "x"))); CVar (cy_item (GRef (RPtr 2))); CVar (cy_item GNil); CVar (cy_item (GRef (RPtr 3)));
   CVar (GStruct [(cy_fld "Parent" "-", GRef (RPtr 4))]); CArr [GRef (RSlice 5 1 1); GLeaf (NInt 7)]].
Lemma cy_acyclic h v n : marshal 20 h v = Some (MOk n) -> writable_all h v -> ~ has_cycle h v.
Proof. intros E Hw Hc. apply (C132_refuted h v Hw Hc). exists 20. eauto. Qed.
Lemma closed_all h (L : list gv) : Forall (writable h) L -> (forall v w, In v L -> part h v w -> In w L) -> forall v, In v L -> writable_all h v.
Proof.
  intros HL Hc v Hv x R. rewrite Forall_forall in HL. apply HL. apply clos_rt_rt1n in R. induction R as [|a b c Hp R IH]; [exact Hv|]. apply IH. eapply Hc; eauto.
Qed.
Example C132_ex :
  ~ has_cycle cy_mem (GRef (RPtr 1)) /\ ~ has_cycle cy_mem (GRef (RPtr 4)) /\ ~ has_cycle cy_mem (GRef (RSlice 5 0 2)) /\
  has_cycle cy_mem (GRef (RPtr 3)) /\ writable_all cy_mem (GRef (RPtr 3)).
Proof.
  assert (T1 : parseTag (cy_fld "Name" "") = Ok (Tag (B "Name") false false)) by (vm_compute; reflexivity).
  assert (T2 : parseTag (cy_fld "Next" "") = Ok (Tag (B "Next") false false)) by (vm_compute; reflexivity).
  assert (T3 : exists g, parseTag (cy_fld "Parent" "-") = Ok g /\ g_skip g = true) by (eexists; split; [vm_compute; reflexivity|reflexivity]).
  assert (W : Forall (writable cy_mem) [GRef (RPtr 0); GRef (RPtr 1); GRef (RPtr 2); GRef (RPtr 3); GRef (RPtr 4); GRef (RSlice 5 0 2); GRef (RSlice 5 1 1);
      GLeaf (NStr (B "x")); GLeaf (NInt 7); GNil; cy_item (GRef (RPtr 2)); cy_item GNil; cy_item (GRef (RPtr 3)); GStruct [(cy_fld "Parent" "-", GRef (RPtr 4))]]).
  { repeat constructor; cbn [writable]; try (eexists; reflexivity); unfold cy_item; intros d w Hi _; repeat (destruct Hi as [Q|Hi]; [injection Q as <- <-; first [rewrite T1|rewrite T2|destruct T3 as (? & -> & _)]; discriminate|]); destruct Hi. }
  assert (C : forall v, In v [GRef (RPtr 0); GRef (RPtr 1); GRef (RPtr 2); GRef (RPtr 3); GRef (RPtr 4); GRef (RSlice 5 0 2); GRef (RSlice 5 1 1);
      GLeaf (NStr (B "x")); GLeaf (NInt 7); GNil; cy_item (GRef (RPtr 2)); cy_item GNil; cy_item (GRef (RPtr 3)); GStruct [(cy_fld "Parent" "-", GRef (RPtr 4))]] -> writable_all cy_mem v).
  { apply closed_all; [exact W|]. intros v w Hv Hp. cbn [In] in Hv.
    repeat (destruct Hv as [<-|Hv]; [unfold cy_item in Hp; inversion Hp as [a w' E|a i n l k w' E E' L|a l k w' E Hi|a l k w' E Hi|l w' Hi|fs d w' Hi Hd]; subst;
      try (cbn in E; discriminate); try (cbn in E; injection E as <-; cbn [In]; auto 20; fail);
      try (repeat (destruct Hi as [Q|Hi]; [injection Q as <- <-; cbn [In]; auto 20|]); destruct Hi)|]); try destruct Hv.
    - cbn in E. injection E as <-. destruct k as [|[|k]]; [injection E' as <-|injection E' as <-|lia]; cbn [In]; auto 20.
    - cbn in E. injection E as <-. destruct k as [|k]; [injection E' as <-|lia]; cbn [In]; auto 20. }
  split; [eapply cy_acyclic; [vm_compute; reflexivity|apply C; cbn [In]; auto 20]|].
  split; [eapply cy_acyclic; [vm_compute; reflexivity|apply C; cbn [In]; auto 20]|].
  split; [eapply cy_acyclic; [vm_compute; reflexivity|apply C; cbn [In]; auto 20]|].
  split; [|apply C; cbn [In]; auto 20].
  exists (GRef (RPtr 3)). split; [apply rt_refl|]. eapply t_trans; [apply t_step, (p_ptr cy_mem 3 (cy_item (GRef (RPtr 3)))); reflexivity|].
  apply t_step. eapply p_field; [right; left; reflexivity|]. split; [reflexivity|]. eexists. split; [exact T2|reflexivity].
Qed.
