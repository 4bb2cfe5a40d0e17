(* Theorems about a set that several goroutines use (C144). *)
From Coq Require Import Bool Arith List Lia.
From Verif Require Import Prelude PreludeFacts ListsModel ScModel ScSpec.
Import ListNotations.

Section All.
  Context (T : Type) (eqb : T -> T -> bool) (Heq : eqb_ok eqb) (dec : forall x y : T, {x = y} + {x <> y}).
  Notation entry := (nat * @label T * @set_state T)%type.
  Notation sst := (@sst T).
  Notation sstep := (sstep eqb).
  Notation ssteps := (ssteps eqb).

  Definition trues (m : @set_state T) : Prop := NoDup (map fst m) /\ forall k v, mget eqb m k = Some v -> v = true.
  Definition has (m : @set_state T) x : bool := match mget eqb m x with Some _ => true | None => false end.
  Lemma has_in m x : has m x = true <-> In x (map fst m).
  Proof.
    unfold has. pose proof (mget_none eqb Heq m x) as Q. destruct (mget eqb m x) as [v|].
    - split; [intros _|reflexivity]. destruct (in_dec dec x (map fst m)) as [?|N]; auto. apply Q in N. discriminate.
    - split; [discriminate|]. intros I. exfalso. now apply (proj1 Q).
  Qed.
  Lemma step_ok m o b m' : trues m -> set_step eqb m o = (b, m') -> trues m' /\
    (forall x, has m' x = xorb (has m x) (match change dec x (LOp o b) with [] => false | _ => true end)) /\
    (forall x, match change dec x (LOp o b) with [] => True | c :: _ => c = negb (has m x) end) /\
    (match o with SAdd x => b = negb (has m x) | SHas x | SRemove x => b = has m x end).
  Proof.
    intros [N Tr] E. unfold has. destruct o as [t|t|t]; cbn in E.
    - unfold set_Add in E. destruct (mget eqb m t) as [v|] eqn:Et; cbn in E; injection E as <- <-; cbn; rewrite ?Et.
      + repeat split; auto. intros x. now rewrite xorb_false_r.
      + repeat split; auto.
        * now apply (mset_nodup eqb Heq).
        * intros k v. destruct (dec t k) as [->|D]; [rewrite (mget_mset_eq eqb Heq); congruence|]. rewrite (mget_mset_ne eqb Heq) by auto. apply Tr.
        * intros x. destruct (dec x t) as [->|D]; [now rewrite (mget_mset_eq eqb Heq), Et|]. rewrite (mget_mset_ne eqb Heq) by auto. now rewrite xorb_false_r.
        * intros x. destruct (dec x t) as [->|D]; [now rewrite Et|exact Logic.I].
    - unfold set_Has in E. destruct (mget eqb m t) as [v|] eqn:Et; injection E as <- <-; cbn; rewrite ?Et; repeat split; auto; intros x; now rewrite xorb_false_r.
    - unfold set_Remove in E. destruct (mget eqb m t) as [v|] eqn:Et.
      + rewrite (Tr _ _ Et) in E. cbn in E. injection E as <- <-. cbn. rewrite ?Et. repeat split; auto.
        * now apply (mdel_nodup eqb).
        * intros k w. destruct (dec t k) as [->|D]; [rewrite (mget_mdel_eq eqb Heq) by auto; discriminate|]. rewrite (mget_mdel_ne eqb Heq) by auto. apply Tr.
        * intros x. destruct (dec x t) as [->|D]; [now rewrite (mget_mdel_eq eqb Heq), Et by auto|]. rewrite (mget_mdel_ne eqb Heq) by auto. now rewrite xorb_false_r.
        * intros x. destruct (dec x t) as [->|D]; [now rewrite Et|exact Logic.I].
      + injection E as <- <-. cbn. rewrite ?Et. repeat split; auto. intros x. now rewrite xorb_false_r.
  Qed.
  Lemma odd_app (A : Type) (a b : list A) : Nat.odd (length (a ++ b)) = xorb (Nat.odd (length a)) (Nat.odd (length b)).
  Proof. now rewrite app_length, Nat.odd_add. Qed.
  Lemma turns_app b l c : turns b l -> c = xorb b (Nat.odd (length l)) -> turns b (l ++ [c]).
  Proof.
    revert b. induction l as [|x l IH]; intros b H E; cbn [app turns] in *; [split; [rewrite E; cbn; apply xorb_false_r|exact Logic.I]|].
    destruct H as [H1 H2]. split; [exact H1|]. apply IH; [exact H2|]. rewrite E. cbn [length]. rewrite Nat.odd_succ, <- Nat.negb_odd. destruct b, (Nat.odd (length l)); reflexivity.
  Qed.
  Lemma change_one x l : change dec x l = [] \/ exists c, change dec x l = [c].
  Proof. destruct l as [[y|y|y] [|]| | |]; cbn; auto; destruct (dec x y); eauto. Qed.

  (* all the moments of an execution *)
  Inductive linked : list entry -> @set_state T -> Prop :=
  | l_none : linked [] []
  | l_op g o b m m' tr : linked tr m -> set_step eqb m o = (b, m') -> linked ((g, LOp o b, m') :: tr) m'
  | l_all g m tr : linked tr m -> linked ((g, LAll, m) :: tr) m
  | l_visit g m tr : linked tr m -> linked ((g, LVisit, m) :: tr) m
  | l_ret g acc m tr : linked tr m -> linked ((g, LRet acc, m) :: tr) m.
  Lemma linked_all s : ssteps s -> linked (s_tr s) (s_set s).
  Proof. intros H. induction H as [|s s' H IH Hs]; [constructor|]. destruct Hs; cbn; econstructor; eauto. Qed.
  Lemma linked_app a b m : linked (a ++ b) m -> exists m', linked b m'.
  Proof. revert m. induction a as [|e a IH]; intros m H; [eauto|]. inversion H; subst; eauto. Qed.
  Lemma linked_ok tr m : linked tr m -> trues m /\ forall x, turns true (changes dec x tr) /\ has m x = Nat.odd (length (changes dec x tr)).
  Proof.
    intros H. induction H as [|g o b m m' tr H [IH1 IH2] E|g m tr H [IH1 IH2]|g m tr H [IH1 IH2]|g acc m tr H [IH1 IH2]];
      [| |split; [auto|]; intros x; cbn [changes snd fst change]; rewrite app_nil_r; apply IH2..].
    - split; [split; [constructor|discriminate]|]. intros x. split; [exact Logic.I|reflexivity].
    - destruct (step_ok m o b m' IH1 E) as (K1 & K2 & K3 & _). split; [exact K1|]. intros x. destruct (IH2 x) as [Q1 Q2]. cbn [changes fst snd].
      specialize (K2 x). specialize (K3 x). destruct (change_one x (LOp o b)) as [C|[c C]]; rewrite C in *.
      + rewrite app_nil_r. split; [exact Q1|]. rewrite K2, xorb_false_r. exact Q2.
      + split; [apply turns_app; [exact Q1|]|].
        * rewrite K3, Q2. now destruct (Nat.odd _).
        * rewrite K2, odd_app, Q2. reflexivity.
  Qed.

  (* The Adds and Removes of an element that return true take turns, beginning with an Add; at every moment the set has the elements of which the
     last such call was an Add, and each answer is that of the moment before. *)
  Theorem C144_turns : forall s, ssteps s -> (forall x, turns true (changes dec x (s_tr s))) /\
    (forall x new e old, s_tr s = new ++ e :: old -> (In x (map fst (snd e)) <-> Nat.odd (length (changes dec x (e :: old))) = true)) /\
    (forall g o b m new old, s_tr s = new ++ (g, LOp o b, m) :: old ->
      match o with SAdd x => b = negb (Nat.odd (length (changes dec x old))) | SHas x | SRemove x => b = Nat.odd (length (changes dec x old)) end).
  Proof.
    intros s H. pose proof (linked_all s H) as L. split; [|split].
    - intros x. apply (linked_ok _ _ L).
    - intros x new e old E. rewrite E in L. apply linked_app in L as (m & L). rewrite <- has_in.
      assert (Em : m = snd e) by (inversion L; reflexivity). subst m. destruct (linked_ok _ _ L) as [_ Q]. destruct (Q x) as [_ ->]. reflexivity.
    - intros g o b m new old E. rewrite E in L. apply linked_app in L as (m' & L). inversion L as [|g0 o0 b0 m1 m2 tr0 L1 E1| | |]; subst. destruct (linked_ok _ _ L1) as [Q1 Q2].
      destruct (step_ok _ _ _ _ Q1 E1) as (_ & _ & _ & K). destruct o as [x|x|x]; rewrite K, (proj2 (Q2 x)); reflexivity.
  Qed.

  Lemma changes_in x c tr : In c (changes dec x tr) -> exists g m, In (g, LOp (if c then SAdd x else SRemove x) true, m) tr.
  Proof.
    induction tr as [|[[g l] m] tr IH]; [intros []|]. cbn [changes fst snd]. intros H. apply in_app_or in H as [H|H]; [destruct (IH H) as (g' & m' & X); exists g', m'; now right|].
    exists g, m. left. destruct l as [[y|y|y] [|]| | |]; cbn in H; try contradiction; destruct (dec x y) as [->|]; try contradiction; destruct H as [<-|[]]; reflexivity.
  Qed.
  (* As long as nobody removes it, an element that is added, by however many, is new to one of them. *)
  Theorem C144_once : forall s x, ssteps s -> adds x (s_tr s) -> ~ removes x (s_tr s) -> changes dec x (s_tr s) = [true].
  Proof.
    intros s x H (g & b & m & Ha) Hr. destruct (C144_turns s H) as (C1 & _ & C3). specialize (C1 x).
    assert (A : forall c, In c (changes dec x (s_tr s)) -> c = true).
    { intros [] Hc; [reflexivity|]. apply changes_in in Hc as (g' & m' & Hc). exfalso. apply Hr. exists g', true, m'. exact Hc. }
    assert (Ne : changes dec x (s_tr s) <> []).
    { intros Z. apply in_split in Ha as (new & old & E). pose proof (C3 _ _ _ _ _ _ E) as Q. cbn in Q. rewrite E in Z.
      assert (App : forall a b, changes dec x (a ++ b) = changes dec x b ++ changes dec x a).
      { induction a as [|e a IH]; intros b'; cbn [app changes]; [now rewrite app_nil_r|]. now rewrite IH, app_assoc. }
      rewrite App in Z. apply app_eq_nil in Z as [Z _]. cbn [changes fst snd] in Z. apply app_eq_nil in Z as [Z1 Z2]. rewrite Z1 in Q. cbn in Q. subst b.
      cbn in Z2. destruct (dec x x); [discriminate|contradiction]. }
    destruct (changes dec x (s_tr s)) as [|c [|d l]]; [contradiction| |].
    - now rewrite (A c (or_introl eq_refl)).
    - exfalso. destruct C1 as (-> & -> & _). specialize (A false (or_intror (or_introl eq_refl))). discriminate.
  Qed.

  (* ---- All ---- *)
  Record running (s : sst) (g : nat) (ks acc : list T) mid m0 old : Prop := {
    r_tr : s_tr s = mid ++ (g, LAll, m0) :: old;
    r_mid : no_all g mid;
    r_nodup : NoDup (acc ++ ks);
    r_some : forall x, In x acc -> was x mid m0;
    r_none : forall x, ~ In x acc -> In x ks \/ was_not x mid m0 }.
  Definition good (s : sst) : Prop := forall g ks acc, s_in s g = Some (ks, acc) -> exists mid m0 old, running s g ks acc mid m0 old.
  Lemma set_same f g x : set_in (T := T) f g x g = x.
  Proof. unfold set_in. now rewrite Nat.eqb_refl. Qed.
  Lemma set_other f g x y : y <> g -> set_in (T := T) f g x y = f y.
  Proof. intros H. unfold set_in. apply Nat.eqb_neq in H. now rewrite H. Qed.
  Lemma running_more s s' g ks acc mid m0 old e : running s g ks acc mid m0 old -> s_tr s' = e :: s_tr s -> (fst (fst e) = g -> match snd (fst e) with LAll | LRet _ => False | _ => True end) -> running s' g ks acc (e :: mid) m0 old.
  Proof.
    intros [E M D S N] Et He. split; auto.
    - rewrite Et, E. reflexivity.
    - intros x [<-|Hx]; [exact He|exact (M x Hx)].
    - intros x Hx. destruct (S x Hx) as (m & Hm & Em). exists m. split; auto. now right.
    - intros x Hx. destruct (N x Hx) as [H|(m & Hm & Em)]; auto. right. exists m. split; auto. now right.
  Qed.
  Lemma good_step s s' : good s -> sstep s s' -> good s'.
  Proof.
    intros G H. destruct H as [g o s b m Ei Eo|g ks s Ei Nk Hk|g a k b acc s Ei|g acc s Ei]; intros x ks' acc' E; cbn [s_in] in E.
    - destruct (G _ _ _ E) as (mid & m0 & old & R). exists ((g, LOp o b, m) :: mid), m0, old. eapply running_more; [exact R|reflexivity|cbn; auto].
    - destruct (Nat.eq_dec x g) as [->|N].
      + rewrite set_same in E. injection E as <- <-. exists [], (s_set s), (s_tr s). apply Build_running; [reflexivity|intros e []|exact Nk|intros y []|].
        intros y _. destruct (mget eqb (s_set s) y) as [v|] eqn:Ek; [left; eauto|right]. exists (s_set s). split; [now left|]. now apply (mget_none eqb Heq).
      + rewrite set_other in E by auto. destruct (G _ _ _ E) as (mid & m0 & old & R). exists ((g, LAll, s_set s) :: mid), m0, old. eapply running_more; [exact R|reflexivity|cbn; congruence].
    - destruct (Nat.eq_dec x g) as [->|N].
      + rewrite set_same in E. injection E as <- <-. destruct (G _ _ _ Ei) as (mid & m0 & old & R). exists ((g, LVisit, s_set s) :: mid), m0, old.
        pose proof (running_more s (Sst (s_set s) (set_in (s_in s) g (Some (a ++ b, match mget eqb (s_set s) k with Some _ => acc ++ [k] | None => acc end))) ((g, LVisit, s_set s) :: s_tr s))
          g _ _ mid m0 old (g, LVisit, s_set s) R eq_refl ltac:(cbn; auto)) as [E M D S0 N0].
        pose proof (mget_none eqb Heq (s_set s) k) as Qn. assert (Now : In (s_set s) (map snd ((g, @LVisit T, s_set s) :: mid) ++ [m0])) by now left.
        split; [exact E|exact M| | |].
        * destruct (mget eqb (s_set s) k).
          -- rewrite <- app_assoc. cbn [app]. rewrite app_assoc in D. apply NoDup_remove in D as [D1 D2]. rewrite <- app_assoc in D1, D2.
             clear - D1 D2. revert D1 D2. generalize (a ++ b). intros l. induction acc as [|z acc IH]; cbn; intros D1 D2; [constructor; auto|].
             inversion D1; subst. constructor; [|apply IH; auto]. intros X. apply in_app_or in X as [X|[X|X]]; [apply H1, in_or_app; auto|subst; apply D2; auto|apply H1, in_or_app; auto].
          -- rewrite app_assoc in D. apply NoDup_remove_1 in D. now rewrite app_assoc.
        * intros y Hy. destruct (mget eqb (s_set s) k) as [v|] eqn:Ek; [|auto]. apply in_app_or in Hy as [Hy|[<-|[]]]; [auto|]. exists (s_set s). split; [exact Now|].
          destruct (in_dec dec k (map fst (s_set s))) as [?|Z]; auto. apply Qn in Z. discriminate.
        * intros y Hy. destruct (dec y k) as [->|Dk].
          -- right. exists (s_set s). split; [exact Now|]. destruct (mget eqb (s_set s) k); [exfalso; apply Hy, in_or_app; right; now left|now apply Qn].
          -- destruct (N0 y) as [Q|Q]; [destruct (mget eqb (s_set s) k); [intros X; apply Hy, in_or_app; now left|auto]| |now right].
             left. apply in_app_or in Q as [Q|[Q|Q]]; [apply in_or_app; auto|congruence|apply in_or_app; auto].
      + rewrite set_other in E by auto. destruct (G _ _ _ E) as (mid & m0 & old & R). exists ((g, LVisit, s_set s) :: mid), m0, old. eapply running_more; [exact R|reflexivity|cbn; auto].
    - destruct (Nat.eq_dec x g) as [->|N]; [rewrite set_same in E; discriminate|]. rewrite set_other in E by auto.
      destruct (G _ _ _ E) as (mid & m0 & old & R). exists ((g, LRet acc, s_set s) :: mid), m0, old. eapply running_more; [exact R|reflexivity|cbn; congruence].
  Qed.
  Lemma good_all s : ssteps s -> good s.
  Proof. intros H. induction H as [|s s' H IH Hs]; [intros g ks acc [=]|eapply good_step; eauto]. Qed.
  Lemma step_tr s s' : sstep s s' -> exists e, s_tr s' = e :: s_tr s.
  Proof. intros []; eexists; reflexivity. Qed.
  (* What All returns has no element twice, each was in the set at some moment of the call, and what is not in it was not in the set at some
     moment of the call. *)
  Theorem C144_partial : forall s g acc m1 new rest, ssteps s -> s_tr s = new ++ (g, LRet acc, m1) :: rest ->
    exists mid m0 old, rest = mid ++ (g, LAll, m0) :: old /\ no_all g mid /\ NoDup acc /\
      (forall x, In x acc -> was x mid m0) /\ (forall x, ~ In x acc -> was_not x mid m0).
  Proof.
    intros s g acc m1 new rest H. revert new. induction H as [|s s' H IH Hs]; intros new E; [destruct new; discriminate|].
    destruct new as [|e new]; [|destruct (step_tr _ _ Hs) as (e' & Et); rewrite Et in E; injection E as _ E; eauto].
    pose proof (good_all s H) as G. destruct Hs as [? ? s ? ? ? ?|? ? s ? ? ?|? ? ? ? ? s ?|g' acc' s Ei]; try discriminate. injection E as -> -> _ <-.
    destruct (G _ _ _ Ei) as (mid & m0 & old & [E M D S0 N0]). exists mid, m0, old. split; [exact E|]. split; [exact M|]. rewrite app_nil_r in D. split; [exact D|]. split; [exact S0|].
    intros x Hx. destruct (N0 x Hx) as [[]|Q]; auto.
  Qed.
End All.
Print Assumptions C144_turns.
Print Assumptions C144_once.
Print Assumptions C144_partial.

(* All is not a picture of one moment: it can return nothing though the set has an element at each moment of the call. *)
Theorem C144_all_refuted : exists s g m1 rest, ssteps Nat.eqb s /\ s_tr s = (g, LRet [], m1) :: rest /\
  forall mid m0 old, rest = mid ++ (g, LAll, m0) :: old -> no_all g mid -> forall m, In m (map snd mid ++ [m0]) -> m <> [].
Proof.
  pose proof (ss_start Nat.eqb) as H.
  match type of H with ssteps _ ?s => pose proof (ss_more _ _ _ H (s_op Nat.eqb 8 (SAdd 0) s true [(0, true)] eq_refl eq_refl)) as H1 end. cbn [s_set s_in s_tr] in H1.
  assert (Hk : forall k v, mget Nat.eqb [(0, true)] k = Some v -> In k [0]) by (intros k v E; destruct k as [|k]; cbn in *; auto; discriminate).
  assert (Nk : NoDup [0]) by (repeat constructor; intros []).
  match type of H1 with ssteps _ ?s => pose proof (ss_more _ _ _ H1 (s_range Nat.eqb 7 [0] s eq_refl Nk Hk)) as H2 end. cbn [s_set s_in s_tr] in H2.
  match type of H2 with ssteps _ ?s => pose proof (ss_more _ _ _ H2 (s_op Nat.eqb 8 (SAdd 1) s true [(0, true); (1, true)] eq_refl eq_refl)) as H3 end. cbn [s_set s_in s_tr] in H3.
  match type of H3 with ssteps _ ?s => pose proof (ss_more _ _ _ H3 (s_op Nat.eqb 8 (SRemove 0) s true [(1, true)] eq_refl eq_refl)) as H4 end. cbn [s_set s_in s_tr] in H4.
  match type of H4 with ssteps _ ?s => pose proof (ss_more _ _ _ H4 (s_visit Nat.eqb 7 [] 0 [] [] s eq_refl)) as H5 end. cbn [s_set s_in s_tr mget Nat.eqb app] in H5.
  match type of H5 with ssteps _ ?s => pose proof (ss_more _ _ _ H5 (s_ret Nat.eqb 7 [] s eq_refl)) as H6 end. cbn [s_set s_in s_tr] in H6.
  match type of H6 with ssteps _ ?s => exists s end. exists 7. eexists. eexists. split; [exact H6|]. cbn [s_tr]. split; [reflexivity|].
  intros mid m0 old E _ m Hm.
  destruct mid as [|e1 [|e2 [|e3 [|e4 [|e5 mid]]]]]; cbn in E; injection E; intros; subst; try discriminate;
    cbn in Hm; repeat (destruct Hm as [<-|Hm]; [discriminate|]); try contradiction.
  destruct mid; discriminate.
Qed.
Print Assumptions C144_all_refuted.

(* three goroutines add 5, one removes it, another adds it again *)
Example C144_ex : exists s, ssteps Nat.eqb s /\ map (fun e => (fst (fst e), snd (fst e))) (s_tr s) =
  [(4, LRet [5]); (4, LVisit); (4, LAll); (3, LOp (SAdd 5) true); (2, LOp (SHas 5) false); (2, LOp (SRemove 5) true); (2, LOp (SAdd 5) false); (1, LOp (SAdd 5) true)] /\
  changes Nat.eq_dec 5 (s_tr s) = [true; false; true].
Proof.
  pose proof (ss_start Nat.eqb) as H.
  match type of H with ssteps _ ?s => pose proof (ss_more _ _ _ H (s_op Nat.eqb 1 (SAdd 5) s true [(5, true)] eq_refl eq_refl)) as H1 end. cbn [s_set s_in s_tr] in H1.
  match type of H1 with ssteps _ ?s => pose proof (ss_more _ _ _ H1 (s_op Nat.eqb 2 (SAdd 5) s false [(5, true)] eq_refl eq_refl)) as H2 end. cbn [s_set s_in s_tr] in H2.
  match type of H2 with ssteps _ ?s => pose proof (ss_more _ _ _ H2 (s_op Nat.eqb 2 (SRemove 5) s true [] eq_refl eq_refl)) as H3 end. cbn [s_set s_in s_tr] in H3.
  match type of H3 with ssteps _ ?s => pose proof (ss_more _ _ _ H3 (s_op Nat.eqb 2 (SHas 5) s false [] eq_refl eq_refl)) as H4 end. cbn [s_set s_in s_tr] in H4.
  match type of H4 with ssteps _ ?s => pose proof (ss_more _ _ _ H4 (s_op Nat.eqb 3 (SAdd 5) s true [(5, true)] eq_refl eq_refl)) as H5 end. cbn [s_set s_in s_tr] in H5.
  assert (Hk : forall k v, mget Nat.eqb [(5, true)] k = Some v -> In k [5]).
  { intros k v E. cbn in E. destruct (Nat.eqb k 5) eqn:Q; [apply Nat.eqb_eq in Q; subst; now left|discriminate]. }
  assert (Nk : NoDup [5]) by (repeat constructor; intros []).
  match type of H5 with ssteps _ ?s => pose proof (ss_more _ _ _ H5 (s_range Nat.eqb 4 [5] s eq_refl Nk Hk)) as H6 end. cbn [s_set s_in s_tr] in H6.
  match type of H6 with ssteps _ ?s => pose proof (ss_more _ _ _ H6 (s_visit Nat.eqb 4 [] 5 [] [] s eq_refl)) as H7 end. cbn [s_set s_in s_tr mget Nat.eqb app] in H7.
  match type of H7 with ssteps _ ?s => pose proof (ss_more _ _ _ H7 (s_ret Nat.eqb 4 [5] s eq_refl)) as H8 end. cbn [s_set s_in s_tr] in H8.
  match type of H8 with ssteps _ ?s => exists s end. split; [exact H8|]. split; reflexivity.
Qed.
