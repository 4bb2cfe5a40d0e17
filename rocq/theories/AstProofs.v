(* Proofs about AstModel: when the text of an argument is found, and which it is. *)
From Coq Require Import Bool Ascii String Arith NArith ZArith Lia List Permutation.
From Verif Require Import Prelude PreludeFacts Utf8Model Utf8Facts DurModel DurProofs KvProofs AstModel GvModel AsModel AsSpec.
Import ListNotations.

(* induction over trees *)
Section Ind.
  Context (P : tree -> Prop) (H : forall t, Forall P (children t) -> P t).
  Fixpoint tree_ind' (t : tree) : P t :=
    let fix all (l : list tree) : Forall P l := match l with [] => Forall_nil _ | c :: r => Forall_cons c (tree_ind' c) (all r) end in
    H t (match t with TBlock l => all l | TAssign _ _ l => all l | TCall _ _ _ l => all l | TOther l => all l end).
End Ind.

Section W.
  Context (s : site).
  Let line := s_line s.
  Let fname := s_fname s.
  Fixpoint walks (sc : scope) (l : list tree) : res (scope * list (list carg)) :=
    match l with
    | [] => Ok (sc, [])
    | t :: r => rbind (walk line fname sc t) (fun a => rbind (walks (fst a) r) (fun b => Ok (fst b, snd a ++ snd b)))
    end.
  Lemma walk_eq sc t :
    walk line fname sc t =
    match t with
    | TBlock l => rbind (walks (Some (match sc with Some m => m | None => [] end)) l) (fun a => Ok (sc, snd a))
    | TAssign rhs lhs l => rbind (assign sc rhs lhs) (fun sc1 => walks sc1 l)
    | TCall n f args l =>
        if matches line fname n f then rbind (args_of sc args) (fun c => rbind (walks sc l) (fun a => Ok (fst a, c :: snd a)))
        else walks sc l
    | TOther l => walks sc l
    end.
  Proof.
    assert (E : forall l sc,
      (fix walks (sc : scope) (l : list tree) : res (scope * list (list carg)) :=
         match l with
         | [] => Ok (sc, [])
         | t :: r => rbind (walk line fname sc t) (fun a => rbind (walks (fst a) r) (fun b => Ok (fst b, snd a ++ snd b)))
         end) sc l = walks sc l).
    { induction l as [|c l IH]; intros sc'; cbn; [reflexivity|]. destruct (walk line fname sc' c); cbn; [|reflexivity]. now rewrite IH. }
    destruct t; cbn; rewrite ?E; try reflexivity.
  Qed.

  (* the map after some assignments *)
  Definition put (m : list (bytes * bytes)) (e : bytes * bytes) := mset beqb m (fst e) (snd e).
  Definition after (sc : scope) (l : list (bytes * bytes)) : scope :=
    match sc with Some m => Some (fold_left put l m) | None => None end.
  Lemma after_app sc l1 l2 : after sc (l1 ++ l2) = after (after sc l1) l2.
  Proof. destruct sc; cbn; [|reflexivity]. now rewrite fold_left_app. Qed.
  Lemma after_nil sc : after sc [] = sc.
  Proof. destruct sc; reflexivity. Qed.
  Definition writable (sc : scope) (l : list (bytes * bytes)) : Prop := sc <> None \/ l = [].
  Lemma writable_app sc l1 l2 : writable sc (l1 ++ l2) -> writable sc l1 /\ writable (after sc l1) l2.
  Proof.
    intros [H|H].
    - split; left; auto. destruct sc; cbn; congruence.
    - apply app_eq_nil in H. destruct H as [-> ->]. split; right; reflexivity.
  Qed.
  Lemma assign_after rhs lhs : forall sc, writable sc (sets rhs lhs) -> assign sc rhs lhs = Ok (after sc (sets rhs lhs)).
  Proof.
    induction lhs as [|[x|] lhs IH]; intros sc Hw; cbn [assign].
    - now rewrite after_nil.
    - change (sets rhs (Some x :: lhs)) with ([(x, rhs)] ++ sets rhs lhs) in *.
      destruct sc as [m|].
      + rewrite IH by (left; discriminate). rewrite after_app. reflexivity.
      + destruct Hw as [Hw|Hw]; [congruence|discriminate].
    - apply (IH sc). exact Hw.
  Qed.
  (* the arguments as they are found *)
  Definition farg (sc : scope) (a : arg) : carg :=
    let x := match a_lit a with Some (Some b) => b | _ => a_src a end in CArg x (lookup sc x).
  Lemma args_found sc l : Forall (fun a => a_lit a <> Some None) l -> args_of sc l = Ok (map (farg sc) l).
  Proof.
    induction 1 as [|a l Ha Hl IH]; cbn [args_of map]; [reflexivity|]. rewrite IH.
    assert (E : arg_of sc a = Ok (farg sc a)); [|rewrite E; reflexivity].
    unfold arg_of, farg. destruct (a_lit a) as [[b|]|]; try reflexivity. exfalso. apply Ha. reflexivity.
  Qed.
  Lemma matches_hereb n f args l : hereb s (TCall n f args l) = matches line fname n f.
  Proof. reflexivity. Qed.
  Lemma hereb_here c : hereb s c = true <-> here s c.
  Proof.
    destruct c; cbn; try (split; [discriminate|tauto]).
    rewrite andb_true_iff, Nat.eqb_eq. split; intros [-> H]; (split; [reflexivity|]).
    - destruct f; try discriminate; apply beqb_eq in H; subst; auto.
    - destruct H as [->| ->]; apply beqb_refl.
  Qed.

  Definition fine (t : tree) : Prop :=
    forall c, within t c -> here s c -> Forall (fun a => a_lit a <> Some None) (call_args c).
  Lemma fine_child t c : fine t -> In c (children t) -> fine c.
  Proof. intros H Hi x Hx. apply H. econstructor; eauto. Qed.
  (* the walk does not panic, leaves the assignments, and finds the calls *)
  Definition goes (sc : scope) (l : list (bytes * bytes)) (n : nat) (found : list arg -> Prop) (r : res (scope * list (list carg))) : Prop :=
    exists cs, r = Ok (after sc l, cs) /\ length cs = n /\
      Forall (fun c => exists args m, found args /\ c = map (farg m) args) cs.
  Lemma list_sum_cons a l : list_sum (a :: l) = a + list_sum l.
  Proof. reflexivity. Qed.
  Lemma walks_goes l : forall sc, (forall t, In t l -> fine t) ->
    Forall (fun t => forall sc, fine t -> writable sc (opens t) ->
      goes sc (opens t) (count s t) (fun args => exists c, within t c /\ here s c /\ args = call_args c) (walk line fname sc t)) l ->
    writable sc (flat_map opens l) ->
    goes sc (flat_map opens l) (list_sum (map (count s) l))
      (fun args => exists t c, In t l /\ within t c /\ here s c /\ args = call_args c) (walks sc l).
  Proof.
    induction l as [|t l IH]; intros sc Hf HF Hw.
    - exists []. cbn. rewrite after_nil. auto.
    - cbn [flat_map] in *. apply writable_app in Hw. destruct Hw as [Hw1 Hw2].
      inversion HF as [|? ? Ht Hl]; subst. destruct (Ht sc (Hf t (or_introl eq_refl)) Hw1) as (cs1 & E1 & L1 & F1).
      destruct (IH (after sc (opens t)) (fun x Hx => Hf x (or_intror Hx)) Hl Hw2) as (cs2 & E2 & L2 & F2).
      exists (cs1 ++ cs2). cbn [walks]. rewrite E1. cbn [rbind fst snd]. rewrite E2. cbn [rbind fst snd]. rewrite after_app.
      split; [reflexivity|]. split; [rewrite app_length; cbn [map]; rewrite list_sum_cons; congruence|].
      apply Forall_app. split; eapply Forall_impl; try eassumption; cbn beta.
      + intros c (args & m & (x & Hx & Hh & ->) & ->). exists (call_args x), m. split; [|reflexivity]. exists t, x. cbn. auto.
      + intros c (args & m & (t' & x & Hi & Hx & Hh & ->) & ->). exists (call_args x), m. split; [|reflexivity]. exists t', x. cbn. auto.
  Qed.
  Lemma walk_goes t : forall sc, fine t -> writable sc (opens t) ->
    goes sc (opens t) (count s t) (fun args => exists c, within t c /\ here s c /\ args = call_args c) (walk line fname sc t).
  Proof.
    induction t as [t IH] using tree_ind'. intros sc Hf Hw.
    assert (Hc : forall t', In t' (children t) -> fine t') by (intros; eapply fine_child; eauto).
    assert (Hup : forall args, (exists t' c, In t' (children t) /\ within t' c /\ here s c /\ args = call_args c) ->
              exists c, within t c /\ here s c /\ args = call_args c).
    { intros args (t' & c & Hi & Hx & Hh & ->). exists c. split; [econstructor; eauto|auto]. }
    rewrite walk_eq. destruct t as [l|rhs lhs l|n f args l|l]; cbn [children] in *.
    - destruct (walks_goes l (Some (match sc with Some m => m | None => [] end)) Hc IH ltac:(left; discriminate)) as (cs & E & L & FF).
      exists cs. rewrite E. cbn [rbind snd opens]. rewrite after_nil. split; [reflexivity|]. split; [exact L|].
      eapply Forall_impl; [|exact FF]. cbn beta. intros c (a & m & Ha & ->). exists a, m. auto.
    - cbn [opens] in *. apply writable_app in Hw. destruct Hw as [Hw1 Hw2]. rewrite (assign_after rhs lhs sc Hw1). cbn [rbind].
      destruct (walks_goes l _ Hc IH Hw2) as (cs & E & L & FF).
      exists cs. rewrite E, after_app. split; [reflexivity|]. split; [exact L|].
      eapply Forall_impl; [|exact FF]. cbn beta. intros c (a & m & Ha & ->). exists a, m. auto.
    - cbn [opens] in *. destruct (walks_goes l sc Hc IH Hw) as (cs & E & L & FF).
      assert (FF' : Forall (fun c => exists a m, (exists x, within (TCall n f args l) x /\ here s x /\ a = call_args x) /\ c = map (farg m) a) cs).
      { eapply Forall_impl; [|exact FF]. cbn beta. intros c (a & m & Ha & ->). exists a, m. auto. }
      pose proof (matches_hereb n f args l) as Em. destruct (matches line fname n f).
      + assert (Hh : here s (TCall n f args l)) by now apply hereb_here.
        rewrite args_found by (apply (Hf (TCall n f args l)); [constructor|assumption]). cbn [rbind]. rewrite E. cbn [rbind fst snd].
        exists (map (farg sc) args :: cs). split; [reflexivity|]. split.
        { cbn [count children]. rewrite Em. cbn [length]. rewrite L. reflexivity. }
        constructor; [|exact FF']. exists args, sc. split; [|reflexivity]. exists (TCall n f args l). split; [constructor|]. auto.
      + exists cs. split; [exact E|]. split; [|exact FF']. cbn [count children]. rewrite Em. exact L.
    - destruct (walks_goes l sc Hc IH Hw) as (cs & E & L & FF).
      exists cs. split; [exact E|]. split; [exact L|]. eapply Forall_impl; [|exact FF]. cbn beta. intros c (a & m & Ha & ->). exists a, m. auto.
  Qed.

  (* Caller on regular source *)
  Lemma count_within t c : within t c -> here s c -> 0 < count s t.
  Proof.
    induction 1 as [t|t c x Hi Hw IH]; intros Hh.
    - destruct t; cbn [count]; rewrite (proj2 (hereb_here _) Hh); lia.
    - specialize (IH Hh). assert (G : 0 < list_sum (map (count s) (children t))).
      { clear Hw Hh. induction (children t) as [|a l IHl]; [contradiction|]. cbn [map]. rewrite list_sum_cons.
        destruct Hi as [->|Hi]; [lia|]. specialize (IHl Hi). lia. }
      destruct t; cbn [count] in *; lia.
  Qed.
  Lemma caller_regular t n : s_file s = Some t -> regular s n t ->
    (Caller s = Fail tt /\ count s t = 0) \/ (exists args m, n < length args /\ Caller s = Good (map (farg m) args)).
  Proof.
    intros Ef (Hg & Hr). unfold Caller. rewrite Ef.
    destruct (walk_goes t None) as (cs & E & L & FF).
    { intros c Hc Hh. apply Hr; auto. }
    { right. exact Hg. }
    unfold line, fname in E. rewrite E. apply Forall_rev in FF. rewrite <- rev_length in L. destruct (rev cs) as [|c r].
    - left. auto.
    - right. inversion FF as [|? ? (args & m & (x & Hx & Hh & ->) & ->) _]; subst. exists (call_args x), m. split; [|reflexivity]. now apply Hr.
  Qed.
  Lemma caller_sourced t c n : s_file s = Some t -> regular s n t -> within t c -> here s c ->
    exists args m, n < length args /\ Caller s = Good (map (farg m) args).
  Proof.
    intros Ef Hr Hw Hh. destruct (caller_regular t n Ef Hr) as [[_ H]|H]; [|exact H].
    pose proof (count_within t c Hw Hh). lia.
  Qed.

  (* ---- the text ---- *)
  Definition seen_as (sc : scope) (m : list (bytes * bytes)) (c : tree) (r : res (scope * list (list carg))) (o : list (bytes * bytes)) : Prop :=
    exists m', r = Ok (after sc o, [map (farg (after (Some m') m)) (call_args c)]) /\ (match sc with Some m0 => m' = m0 | None => m' = [] end).
  Lemma walks_none l : forall sc, (forall t, In t l -> fine t) -> writable sc (flat_map opens l) -> list_sum (map (count s) l) = 0 ->
    walks sc l = Ok (after sc (flat_map opens l), []).
  Proof.
    intros sc Hf Hw H0. destruct (walks_goes l sc Hf) as (cs & E & L & _); auto.
    - rewrite Forall_forall. intros t _ sc'. apply walk_goes.
    - rewrite H0 in L. destruct cs; [|discriminate]. exact E.
  Qed.
  Lemma walks_app l1 l2 : forall sc, walks sc (l1 ++ l2) = rbind (walks sc l1) (fun a => rbind (walks (fst a) l2) (fun b => Ok (fst b, snd a ++ snd b))).
  Proof.
    induction l1 as [|t l IH]; intros sc; cbn.
    - destruct (walks sc l2) as [[a b]|]; reflexivity.
    - destruct (walk line fname sc t) as [[a b]|]; cbn; [|reflexivity]. rewrite IH.
      destruct (walks a l) as [[a' b']|]; cbn; [|reflexivity].
      destruct (walks a' l2) as [[a'' b'']|]; cbn; [|reflexivity]. now rewrite app_assoc.
  Qed.
  Lemma in_sum y l : In y l -> count s y <= list_sum (map (count s) l).
  Proof. induction l; [contradiction|]. cbn [map]. rewrite list_sum_cons. intros [->|Hi]; [lia|]. apply IHl in Hi. lia. Qed.
  Lemma counts l1 t l2 : list_sum (map (count s) (l1 ++ t :: l2)) = list_sum (map (count s) l1) + count s t + list_sum (map (count s) l2).
  Proof. rewrite map_app, list_sum_app. cbn [map]. rewrite list_sum_cons. lia. Qed.
  Lemma count_sees t c m : sees t c m -> here s c -> 0 < count s t.
  Proof.
    induction 1; intros Hh; try specialize (IHsees Hh);
      try (cbn [count children hereb]; rewrite ?counts; lia).
    - apply (count_within c c); [constructor|assumption].
  Qed.
  (* the walk with scope sc (nil at the file) finds the only call with what it sees *)
  Lemma walk_sees t c m : sees t c m -> here s c -> count s t = 1 -> fine t -> forall sc, writable sc (opens t) ->
    exists sc', walk line fname sc t = Ok (after sc (opens t), [map (farg sc') (call_args c)]) /\
      (forall m0, sc = Some m0 -> sc' = after sc m) /\ (sc = None -> (sc' = None /\ m = []) \/ sc' = after (Some []) m).
  Proof.
    intros Hs Hh. induction Hs as [c|l1 t l2 c m Hs IH|rhs lhs l1 t l2 c m Hs IH|n f args l1 t l2 c m Hs IH|l1 t l2 c m Hs IH];
      intros H1 Hf sc Hw.
    - destruct c as [| |n f args l|]; cbn in Hh; try contradiction.
      rewrite walk_eq. pose proof (matches_hereb n f args l) as Em. rewrite (proj2 (hereb_here (TCall n f args l)) Hh) in Em. rewrite <- Em.
      rewrite args_found by (apply (Hf (TCall n f args l)); [constructor|assumption]). cbn [rbind].
      assert (H0 : list_sum (map (count s) l) = 0).
      { cbn [count children] in H1. rewrite (proj2 (hereb_here (TCall n f args l)) Hh) in H1. lia. }
      rewrite walks_none; auto.
      + cbn [rbind fst snd opens call_args]. exists sc. split; [reflexivity|]. split; [intros; now rewrite after_nil|auto].
      + intros x Hx. eapply fine_child; eauto.
    - cbn [count children hereb] in H1. rewrite counts in H1. pose proof (count_sees t c m Hs Hh).
      assert (Hsc : exists sc0, sc0 = Some (match sc with Some m => m | None => [] end) /\ sc0 <> None) by (eexists; split; [reflexivity|discriminate]).
      destruct Hsc as (sc0 & E0 & N0).
      assert (HfC : forall x, In x (l1 ++ t :: l2) -> fine x) by (intros x Hx; eapply fine_child; eauto).
      destruct (IH ltac:(assumption) ltac:(lia) (HfC t ltac:(apply in_elt)) (after sc0 (flat_map opens l1))) as (sc' & E & S1 & S2).
      { left. destruct sc0; [discriminate|congruence]. }
      exists sc'. rewrite walk_eq. rewrite <- E0. rewrite walks_app, walks_none; [|intros x Hx; apply HfC, in_or_app; auto|left; assumption|lia].
      cbn [rbind fst snd walks]. rewrite E. cbn [rbind fst snd]. rewrite walks_none;
        [|intros x Hx; apply HfC, in_or_app; right; right; assumption|left; subst sc0; cbn; discriminate|lia].
      cbn [rbind fst snd opens app]. rewrite after_nil. split; [reflexivity|]. subst sc0. cbn [after] in S1.
      specialize (S1 _ eq_refl). split.
      + intros m0 Em0. subst sc. rewrite S1. cbn [after]. rewrite fold_left_app. reflexivity.
      + intros En. subst sc. right. rewrite S1. cbn [after]. rewrite fold_left_app. reflexivity.
    - cbn [count children hereb] in H1. rewrite counts in H1. pose proof (count_sees t c m Hs Hh).
      assert (HfC : forall x, In x (l1 ++ t :: l2) -> fine x) by (intros x Hx; eapply fine_child; eauto).
      cbn [opens] in *. rewrite flat_map_app in Hw. cbn [flat_map] in Hw.
      apply writable_app in Hw. destruct Hw as [Hw0 Hw]. apply writable_app in Hw. destruct Hw as [Hw1 Hw].
      apply writable_app in Hw. destruct Hw as [Hw2 Hw3].
      destruct (IH ltac:(assumption) ltac:(lia) (HfC t ltac:(apply in_elt)) _ Hw2) as (sc' & E & S1 & S2).
      exists sc'. rewrite walk_eq, (assign_after rhs lhs sc Hw0). cbn [rbind].
      rewrite walks_app, walks_none; [|intros x Hx; apply HfC, in_or_app; auto|assumption|lia].
      cbn [rbind fst snd walks]. rewrite E. cbn [rbind fst snd]. rewrite walks_none;
        [|intros x Hx; apply HfC, in_or_app; right; right; assumption|assumption|lia].
      cbn [rbind fst snd app]. rewrite flat_map_app. cbn [flat_map]. rewrite !after_app. split; [reflexivity|]. split.
      + intros m0 ->. cbn [after] in *. rewrite (S1 _ eq_refl). reflexivity.
      + intros ->. cbn [after] in *. destruct Hw0 as [X|X]; [congruence|]. destruct Hw1 as [Y|Y]; [congruence|]. rewrite X, Y. exact (S2 eq_refl).
    - assert (HH : hereb s (TCall n f args (l1 ++ t :: l2)) = false /\ count s t = 1 /\
        list_sum (map (count s) l1) = 0 /\ list_sum (map (count s) l2) = 0).
      { pose proof (count_sees t c m Hs Hh). cbn [count children] in H1. rewrite counts in H1.
        destruct (hereb s (TCall n f args (l1 ++ t :: l2))); repeat split; lia. }
      destruct HH as (Hb & Ht & H01 & H02).
      assert (HfC : forall x, In x (l1 ++ t :: l2) -> fine x) by (intros x Hx; eapply fine_child; eauto).
      cbn [opens] in *. rewrite flat_map_app in Hw. cbn [flat_map] in Hw.
      apply writable_app in Hw. destruct Hw as [Hw1 Hw].
      apply writable_app in Hw. destruct Hw as [Hw2 Hw3].
      destruct (IH ltac:(assumption) ltac:(lia) (HfC t ltac:(apply in_elt)) _ Hw2) as (sc' & E & S1 & S2).
      exists sc'. rewrite walk_eq. rewrite matches_hereb in Hb. rewrite Hb.
      rewrite walks_app, walks_none; [|intros x Hx; apply HfC, in_or_app; auto|assumption|lia].
      cbn [rbind fst snd walks]. rewrite E. cbn [rbind fst snd]. rewrite walks_none;
        [|intros x Hx; apply HfC, in_or_app; right; right; assumption|assumption|lia].
      cbn [rbind fst snd app]. rewrite flat_map_app. cbn [flat_map]. rewrite !after_app. split; [reflexivity|]. split.
      + intros m0 ->. cbn [after] in *. rewrite (S1 _ eq_refl). reflexivity.
      + intros ->. cbn [after] in *. destruct Hw1 as [Y|Y]; [congruence|]. rewrite Y. exact (S2 eq_refl).
    - cbn [count children hereb] in H1. rewrite counts in H1. pose proof (count_sees t c m Hs Hh).
      assert (HfC : forall x, In x (l1 ++ t :: l2) -> fine x) by (intros x Hx; eapply fine_child; eauto).
      cbn [opens] in *. rewrite flat_map_app in Hw. cbn [flat_map] in Hw.
      apply writable_app in Hw. destruct Hw as [Hw1 Hw].
      apply writable_app in Hw. destruct Hw as [Hw2 Hw3].
      destruct (IH ltac:(assumption) ltac:(lia) (HfC t ltac:(apply in_elt)) _ Hw2) as (sc' & E & S1 & S2).
      exists sc'. rewrite walk_eq.
      rewrite walks_app, walks_none; [|intros x Hx; apply HfC, in_or_app; auto|assumption|lia].
      cbn [rbind fst snd walks]. rewrite E. cbn [rbind fst snd]. rewrite walks_none;
        [|intros x Hx; apply HfC, in_or_app; right; right; assumption|assumption|lia].
      cbn [rbind fst snd app]. rewrite flat_map_app. cbn [flat_map]. rewrite !after_app. split; [reflexivity|]. split.
      + intros m0 ->. cbn [after] in *. rewrite (S1 _ eq_refl). reflexivity.
      + intros ->. cbn [after] in *. destruct Hw1 as [Y|Y]; [congruence|]. rewrite Y. exact (S2 eq_refl).
  Qed.
  (* a map that was never made has nothing, like the empty one; and then nothing was assigned *)
  Lemma put_get m e x : mget beqb (put m e) x = if beqb x (fst e) then Some (snd e) else mget beqb m x.
  Proof.
    unfold put. destruct (beqb x (fst e)) eqn:E.
    - apply beqb_eq in E. subst. now apply mget_mset_eq, beqb_ok.
    - apply mget_mset_ne; [apply beqb_ok|]. clear s line fname. try apply not_eq_sym. intros HH. revert E. rewrite HH, beqb_refl. discriminate.
  Qed.

  Lemma after_get l : forall m x,
    (exists r, mget beqb (fold_left put l m) x = Some r /\ (last_set l x r \/ ((forall r', ~ In (x, r') l) /\ mget beqb m x = Some r))) \/
    (mget beqb (fold_left put l m) x = None /\ (forall r', ~ In (x, r') l) /\ mget beqb m x = None).
  Proof.
    induction l as [|[k v] l IH]; intros m x; cbn [fold_left].
    - destruct (mget beqb m x) as [r|]; [left; exists r; split; [reflexivity|right; split; auto]|right; split; auto].
    - destruct (IH (put m (k, v)) x) as [(r & E & [(l1 & l2 & -> & Hn)|(Hn & Em)])|(E & Hn & Em)].
      + left. exists r. split; [exact E|]. left. exists ((k, v) :: l1), l2. auto.
      + left. exists r. split; [exact E|]. rewrite put_get in Em. cbn [fst snd] in Em. destruct (beqb x k) eqn:Ek.
        * apply beqb_eq in Ek. subst k. injection Em as <-. left. exists [], l. auto.
        * right. split; [|exact Em]. intros r' [H|H]; [|eapply Hn; eauto]. injection H as -> _. rewrite beqb_refl in Ek. discriminate.
      + rewrite put_get in Em. cbn [fst snd] in Em. destruct (beqb x k) eqn:Ek; [discriminate|].
        right. split; [exact E|]. split; [|exact Em]. intros r' [H|H]; [|eapply Hn; eauto]. injection H as -> _. rewrite beqb_refl in Ek. discriminate.
  Qed.
  Lemma last_set_fun m x r r' : last_set m x r -> last_set m x r' -> r = r'.
  Proof.
    intros (a & b & -> & Hb) (a' & b' & E & Hb').
    revert a' E. induction a as [|e a IH]; intros [|e' a'] E; cbn in E.
    - congruence.
    - injection E as <- E. exfalso. apply (Hb r'). rewrite E. apply in_elt.
    - injection E as -> E. exfalso. apply (Hb' r). rewrite <- E. apply in_elt.
    - injection E as _ E. eauto.
  Qed.
  (* what the walker finds for a text x, given the assignments it saw *)
  Lemma lookup_seen sc' m x : (sc' = None /\ m = []) \/ sc' = after (Some []) m ->
    (last_set m x (lookup sc' x) \/ ((forall r, ~ In (x, r) m) /\ lookup sc' x = [])).
  Proof.
    intros [(-> & ->)| ->]; cbn.
    - right. auto.
    - destruct (after_get m [] x) as [(r & E & [H|(_ & H)])|(E & H & _)]; rewrite E; [auto|discriminate|auto].
  Qed.
  Lemma within_inv t x : within t x -> t = x \/ exists y, In y (children t) /\ within y x.
  Proof. intros [?|? y ? Hi Hy]; eauto. Qed.
  Lemma caller_sees t c m : s_file s = Some t -> go_file t -> count s t = 1 -> sees t c m -> here s c ->
    Forall (fun a => a_lit a <> Some None) (call_args c) ->
    exists sc', Caller s = Good (map (farg sc') (call_args c)) /\
      forall x, last_set m x (lookup sc' x) \/ ((forall r, ~ In (x, r) m) /\ lookup sc' x = []).
  Proof.
    intros Ef Hg H1 Hs Hh Hl.
    assert (Hf : fine t).
    { clear Ef Hg. intros x Hx Hxh. enough (E : x = c) by (subst; assumption).
      revert x Hx Hxh. induction Hs as [c|l1 t l2 c m Hs IH|rhs lhs l1 t l2 c m Hs IH|n f args l1 t l2 c m Hs IH|l1 t l2 c m Hs IH]; intros x Hx Hxh.
      all: try pose proof (count_sees t c m Hs Hh) as Hc.
      all: destruct (within_inv _ _ Hx) as [<-|(y & Hi & Hy)]; try reflexivity.
      all: try (cbn in Hxh; contradiction).
      4: { exfalso. cbn [count children] in H1. rewrite (proj2 (hereb_here (TCall n f args (l1 ++ t :: l2))) Hxh), counts in H1. lia. }
      all: pose proof (count_within y x Hy Hxh) as Hyc.
      - exfalso. assert (list_sum (map (count s) (children c)) = 0).
        { destruct c; cbn [count] in H1; rewrite ?(proj2 (hereb_here _) Hh) in H1; try lia; cbn in Hh; contradiction. }
        assert (count s y <= list_sum (map (count s) (children c))); [|lia].
        clear -Hi. induction (children c); [contradiction|]. cbn [map]. rewrite list_sum_cons. destruct Hi as [->|Hi]; [lia|]. apply IHl in Hi. lia.
      - cbn [children count hereb] in *. rewrite counts in H1. apply in_app_or in Hi. destruct Hi as [Hi|[->|Hi]].
        + pose proof (in_sum y l1 Hi). lia.
        + apply IH; auto. lia.
        + pose proof (in_sum y l2 Hi). lia.
      - cbn [children count hereb] in *. rewrite counts in H1. apply in_app_or in Hi. destruct Hi as [Hi|[->|Hi]].
        + pose proof (in_sum y l1 Hi). lia.
        + apply IH; auto. lia.
        + pose proof (in_sum y l2 Hi). lia.
      - cbn [children] in *. cbn [count children] in H1. rewrite counts in H1. apply in_app_or in Hi. destruct Hi as [Hi|[->|Hi]].
        + pose proof (in_sum y l1 Hi). lia.
        + apply IH; auto. lia.
        + pose proof (in_sum y l2 Hi). lia.
      - cbn [children count hereb] in *. rewrite counts in H1. apply in_app_or in Hi. destruct Hi as [Hi|[->|Hi]].
        + pose proof (in_sum y l1 Hi). lia.
        + apply IH; auto. lia.
        + pose proof (in_sum y l2 Hi). lia. }
    destruct (walk_sees t c m Hs Hh H1 Hf None (or_intror Hg)) as (sc' & E & _ & S2).
    exists sc'. split.
    - unfold Caller. rewrite Ef. unfold line, fname in E. rewrite E. reflexivity.
    - intros x. apply lookup_seen. auto.
  Qed.
  Lemma firstline_line1 x : line1 x (firstline x).
  Proof.
    induction x as [|c x IH]; cbn [firstline].
    - split; [intros []|auto].
    - destruct (code c =? 10)%N eqn:E.
      + split; [intros []|]. right. exists x. cbn. f_equal. apply code_inj. apply N.eqb_eq in E. rewrite E. reflexivity.
      + destruct IH as (Hn & Hx). split.
        * intros [H|H]; [|auto]. subst c. discriminate.
        * destruct Hx as [Hx|(r & Hx)]; [left; f_equal; exact Hx|]. right. exists r. exact (f_equal (cons c) Hx).
  Qed.
End W.
