(* C143: caches and stores that several goroutines use. *)
From Coq Require Import Bool Arith ZArith List Lia.
From Verif Require Import Prelude PreludeFacts LruModel LruSpec LruProps MemModel MemSpec MemProps KvModel KvSpec KvProps LkModel LkSpec.
Import ListNotations.

Section All.
  Context {S O R : Type} (run : S -> O -> R * S) (loads : S -> O -> bool) (s0 : S).
  Notation st := (st S O R).
  Notation step := (step run loads).
  Notation steps := (steps run loads).
  Notation ids := (map (fun e : nat * O * R => fst (fst e))).

  Lemma goto_cases (l : nat -> phase O R) g p h : (h = g /\ goto l g p h = p) \/ (h <> g /\ goto l g p h = l h).
  Proof. unfold goto. destruct (Nat.eqb h g) eqn:E; [apply Nat.eqb_eq in E; auto|apply Nat.eqb_neq in E; auto]. Qed.
  Lemma seq_app s l s1 i o : sequential run s l s1 -> sequential run s (l ++ [(i, o, fst (run s1 o))]) (snd (run s1 o)).
  Proof. revert s. induction l as [|[[j x] r] l IH]; cbn; intros s H; [subst; auto|]. destruct H as [-> H]. auto. Qed.
  Lemma before_app i j l x : before i j l -> before i j (l ++ [x]).
  Proof. intros (a & b & c & ->). exists a, b, (c ++ [x]). now rewrite <- !app_assoc; cbn; rewrite <- app_assoc. Qed.
  Lemma before_last i j l : In i l -> before i j (l ++ [j]).
  Proof. intros H. apply in_split in H as (a & b & ->). exists a, b, []. now rewrite <- app_assoc. Qed.

  Record good (s : st) (l : list (nat * O * R)) : Prop := {
    g_lin : linear run s0 (tr s) l (obj s);
    g_fresh : forall i o, In (Call i o) (tr s) -> i < next s;
    g_phase : forall i, match calls s i with
      | Unused => next s <= i
      | Waiting o _ | Holding o _ _ => In (Call i o) (tr s) /\ ~ In i (ids l)
      | Finished r => i < next s /\ exists o, In (i, o, r) l
      | Over => i < next s /\ exists r, In (Ret i r) (tr s) end;
    g_lock : forall i, (exists o b n, calls s i = Holding o b n) <-> held s = Some i }.
  Lemma good_start : good (start s0) [].
  Proof.
    constructor.
    - constructor; cbn; [reflexivity|constructor|intros ? ? ? []|intros ? ? []|intros [|? ?] ? ? ? ? ? [=]].
    - intros i o [].
    - intros i. cbn. lia.
    - intros i. cbn. split; [intros (? & ? & ? & [=])|discriminate].
  Qed.
  Lemma in_ids (i : nat) (o : O) (r : R) l : In (i, o, r) l -> In i (ids l).
  Proof. intros H. apply in_map_iff. exists (i, o, r). auto. Qed.
  Lemma ids_in i (l : list (nat * O * R)) : In i (ids l) -> exists o r, In (i, o, r) l.
  Proof. intros H. apply in_map_iff in H as ([[j o] r] & <- & H). eauto. Qed.
  (* an event that is neither a call nor a return says nothing *)
  Lemma linear_other tr l s1 e : (forall i o, e <> Call i o) -> (forall i r, e <> Ret i r) -> linear run s0 tr l s1 -> linear run s0 (e :: tr) l s1.
  Proof.
    intros A B [L1 L2 L3 L4 L5]. constructor; auto.
    - intros i o r H. right. eauto.
    - intros i r [H|H]; [now apply B in H|auto].
    - intros [|x new] old i r j o E; [injection E as E _; now apply A in E|]. injection E as _ E. eauto.
  Qed.
  Lemma good_step s s' l : good s l -> step s s' -> exists l', good s' l'.
  Proof.
    intros G H. pose proof G as [L F P K]. destruct H as [o inner s|i o inner s Hc Hh|i o b s Hc|i r s Hc].
    - exists l. assert (Fl : forall j, In j (ids l) -> j < next s) by (intros j Hj; apply ids_in in Hj as (? & ? & Hj); eapply F, l_calls; eauto).
      assert (Hn : calls s (next s) = Unused) by (pose proof (P (next s)) as X; destruct (calls s (next s)) eqn:E; auto; [destruct X as [X _]; apply F in X; lia|destruct X as [X _]; apply F in X; lia|lia|lia]).
      constructor; cbn.
      + destruct L as [L1 L2 L3 L4 L5]. constructor; auto.
        * intros j x r Hj. right. eauto.
        * intros j r [[=]|Hj]. auto.
        * intros [|x new] old j r k x' E Hr Hk; [injection E as <- _ _; exfalso; apply Fl in Hk; lia|]. injection E as _ E. eauto.
      + intros j x [[= <- _]|Hj]; [lia|]. apply F in Hj. lia.
      + intros j. destruct (goto_cases (calls s) (next s) (Waiting o inner) j) as [[-> ->]|[n ->]]; [split; [now left|intros Hj; apply Fl in Hj; lia]|].
        specialize (P j). destruct (calls s j); [lia|destruct P; auto|destruct P; auto|destruct P; split; [lia|auto]|destruct P as [? (r & ?)]; split; [lia|eauto]].
      + intros j. destruct (goto_cases (calls s) (next s) (Waiting o inner) j) as [[-> ->]|[n ->]]; [|apply K]. split; [intros (? & ? & ? & [=])|]. intros Hj. apply K in Hj as (? & ? & ? & Hj). congruence.
    - exists l. pose proof (P i) as Pi. rewrite Hc in Pi. destruct Pi as [P1 P2].
      assert (I : forall e, In e (tr s) -> In e (if loads (obj s) o then Load i :: tr s else tr s)) by (intros e He; destruct (loads (obj s) o); [now right|exact He]).
      constructor; cbn.
      + destruct (loads (obj s) o); [|exact L]. apply linear_other; [discriminate|discriminate|exact L].
      + intros j x Hj. apply (F j x). destruct (loads (obj s) o); [destruct Hj as [[=]|Hj]; exact Hj|exact Hj].
      + intros j. match goal with |- context [goto _ i ?c j] => destruct (goto_cases (calls s) i c j) as [[-> ->]|[n ->]] end; [auto|].
        specialize (P j). destruct (calls s j); auto; [destruct P; auto|destruct P; auto|destruct P as [? (r & ?)]; split; [auto|eauto]].
      + intros j. match goal with |- context [goto _ i ?c j] => destruct (goto_cases (calls s) i c j) as [[-> ->]|[n ->]] end; [split; eauto|].
        rewrite K, Hh. split; [discriminate|congruence].
    - pose proof (P i) as Pi. rewrite Hc in Pi. destruct Pi as [P1 P2]. set (r := fst (run (obj s) o)). exists (l ++ [(i, o, r)]).
      assert (I : forall e, In e (tr s) -> In e (if b then Loaded i :: tr s else tr s)) by (intros e He; destruct b; [now right|exact He]).
      assert (J : forall e, (forall x, e <> Loaded x) -> In e (if b then Loaded i :: tr s else tr s) -> In e (tr s)) by (intros e He Hi; destruct b; [destruct Hi as [<-|Hi]; [now contradiction (He i)|exact Hi]|exact Hi]).
      assert (Eids : ids (l ++ [(i, o, r)]) = ids l ++ [i]) by (now rewrite map_app).
      constructor; cbn.
      + assert (Q : linear run s0 (tr s) (l ++ [(i, o, r)]) (snd (run (obj s) o))).
        { destruct L as [L1 L2 L3 L4 L5]. constructor.
          - now apply seq_app.
          - rewrite Eids. apply NoDup_rev in L2. rewrite <- (rev_involutive (ids l ++ [i])). apply NoDup_rev. rewrite rev_app_distr. cbn. constructor; [now rewrite <- in_rev|exact L2].
          - intros j x y Hj. apply in_app_or in Hj as [Hj|[[= <- <- _]|[]]]; eauto.
          - intros j y Hj. destruct (L4 j y Hj) as (x & Hx). exists x. apply in_or_app. now left.
          - intros new old j y k x E Hr Hk. rewrite Eids in *. apply in_app_or in Hk as [Hk|[<-|[]]]; [apply before_app; eauto|].
            apply before_last. assert (Hj : In (Ret j y) (tr s)) by (rewrite E; apply in_or_app; right; now right). destruct (L4 j y Hj) as (x' & Hx). eapply in_ids; eauto. }
        destruct b; [|exact Q]. apply linear_other; [discriminate|discriminate|exact Q].
      + intros j x Hj. apply J in Hj; [eauto|discriminate].
      + intros j. destruct (goto_cases (calls s) i (Finished r) j) as [[-> ->]|[n ->]]; [split; [eauto|exists o; apply in_or_app; right; now left]|].
        specialize (P j). rewrite Eids. destruct (calls s j); auto.
        * destruct P as [A B]. split; [auto|]. intros X. apply in_app_or in X as [X|[X|[]]]; auto.
        * destruct P as [A B]. split; [auto|]. intros X. apply in_app_or in X as [X|[X|[]]]; auto.
        * destruct P as [A (x & B)]. split; [auto|]. exists x. apply in_or_app. now left.
        * destruct P as [A (x & B)]. split; [auto|]. exists x. auto.
      + intros j. destruct (goto_cases (calls s) i (Finished r) j) as [[-> ->]|[n ->]]; [split; [intros (? & ? & ? & [=])|discriminate]|].
        split; [|discriminate]. intros X. apply K in X. assert (Y : held s = Some i) by (apply K; eauto). congruence.
    - exists l. pose proof (P i) as Pi. rewrite Hc in Pi. destruct Pi as [P1 (o & P2)]. constructor; cbn.
      + destruct L as [L1 L2 L3 L4 L5]. constructor; auto.
        * intros j x y Hj. right. eauto.
        * intros j y [[= <- <-]|Hj]; eauto.
        * intros [|z new] old j y k x E; [discriminate|]. injection E as _ E. eauto.
      + intros j x [[=]|Hj]. eauto.
      + intros j. destruct (goto_cases (calls s) i Over j) as [[-> ->]|[n ->]]; [split; [auto|exists r; now left]|].
        specialize (P j). destruct (calls s j); auto; [destruct P; auto|destruct P; auto|destruct P as [? (y & ?)]; split; [auto|eauto]].
      + intros j. destruct (goto_cases (calls s) i Over j) as [[-> ->]|[n ->]]; [|apply K]. split; [intros (? & ? & ? & [=])|]. intros Hj. apply K in Hj as (? & ? & ? & Hj). congruence.
  Qed.
  Lemma good_all s : steps (start s0) s -> exists l, good s l.
  Proof. intros H. remember (start s0) as a. induction H as [s|s s1 s2 H IH Hs]; subst; [exists []; apply good_start|]. destruct (IH eq_refl) as (l & G). eapply good_step; eauto. Qed.
  (* Every execution is as if the calls had been made one after the other. *)
  Theorem C143_linear : forall s, steps (start s0) s -> exists l, linear run s0 (tr s) l (obj s).
  Proof. intros s H. destruct (good_all s H) as (l & G). exists l. apply (g_lin s l G). Qed.

  (* the lock is held from the look at the cache to the end of the load: who says that it loaded did, and nobody else *)
  Lemma told_all (told : R -> option bool) : (forall s o b, told (fst (run s o)) = Some b -> loads s o = b) -> forall s, steps (start s0) s ->
    (forall i, match calls s i with
      | Unused | Waiting _ _ => ~ In (Load i) (tr s)
      | Holding o b _ => (In (Load i) (tr s) <-> b = true) /\ b = loads (obj s) o
      | Finished r => forall b, told r = Some b -> (In (Load i) (tr s) <-> b = true)
      | Over => True end) /\
    (forall i r, In (Ret i r) (tr s) -> calls s i = Over /\ forall b, told r = Some b -> (In (Load i) (tr s) <-> b = true)).
  Proof.
    intros Ht s H. remember (start s0) as z. induction H as [z|z s1 s2 H IH Hs]; subst.
    { split; [intros i []|intros i r []]. }
    specialize (IH eq_refl). destruct IH as [I1 I2]. destruct (good_all s1 H) as (l & [_ F P K]).
    destruct Hs as [o inner s|i o inner s Hc Hh|i o b s Hc|i r s Hc]; cbn [calls tr obj].
    - assert (Hn : calls s (next s) = Unused) by (pose proof (P (next s)) as X; destruct (calls s (next s)) eqn:E; auto; [destruct X as [X _]; apply F in X; lia|destruct X as [X _]; apply F in X; lia|lia|lia]).
      assert (T : forall j, In (Load j) (Call (next s) o :: tr s) <-> In (Load j) (tr s)) by (intros j; cbn; split; [intros [[=]|X]; exact X|auto]).
      split.
      + intros j. destruct (goto_cases (calls s) (next s) (Waiting o inner) j) as [[-> ->]|[Hj ->]].
        * rewrite T. specialize (I1 (next s)). now rewrite Hn in I1.
        * specialize (I1 j). destruct (calls s j); try rewrite T; auto. intros b Hb. rewrite T. auto.
      + intros j q [[=]|X]. destruct (I2 j q X) as [E1 E2]. destruct (goto_cases (calls s) (next s) (Waiting o inner) j) as [[-> _]|[Hj ->]]; [congruence|].
        split; [exact E1|]. intros b Hb. rewrite T. auto.
    - assert (Hl : ~ In (Load i) (tr s)) by (specialize (I1 i); now rewrite Hc in I1).
      assert (T : forall j, j <> i -> (In (Load j) (if loads (obj s) o then Load i :: tr s else tr s) <-> In (Load j) (tr s))).
      { intros j Hj. destruct (loads (obj s) o); [|reflexivity]. cbn. split; [intros [[= X]|X]; [congruence|exact X]|auto]. }
      split.
      + intros j. destruct (goto_cases (calls s) i (Holding o (loads (obj s) o) (if loads (obj s) o then inner else [])) j) as [[-> ->]|[Hj ->]].
        * split; [|reflexivity]. destruct (loads (obj s) o); cbn; split; auto; try discriminate; intros X; contradiction.
        * specialize (I1 j). destruct (calls s j); try rewrite (T j Hj); auto. intros b Hb. rewrite (T j Hj). auto.
      + intros j q X. assert (X' : In (Ret j q) (tr s)) by (destruct (loads (obj s) o); [destruct X as [[=]|X]|]; exact X). destruct (I2 j q X') as [E1 E2].
        destruct (goto_cases (calls s) i (Holding o (loads (obj s) o) (if loads (obj s) o then inner else [])) j) as [[-> _]|[Hj ->]]; [congruence|].
        split; [exact E1|]. intros b Hb. rewrite (T j Hj). auto.
    - assert (T : forall j, In (Load j) (if b then Loaded i :: tr s else tr s) <-> In (Load j) (tr s)).
      { intros j. destruct b; [|reflexivity]. cbn. split; [intros [[=]|X]; exact X|auto]. }
      assert (Hi : held s = Some i) by (apply K; eauto). pose proof (I1 i) as Ii. rewrite Hc in Ii. destruct Ii as [Ii1 Ii2].
      split.
      + intros j. destruct (goto_cases (calls s) i (Finished (fst (run (obj s) o))) j) as [[-> ->]|[Hj ->]].
        * intros b' Hb. rewrite T. apply Ht in Hb. rewrite <- Hb, <- Ii2. exact Ii1.
        * specialize (I1 j). destruct (calls s j) eqn:Ej; try rewrite T; auto; [|intros b' Hb; rewrite T; auto].
          exfalso. apply Hj. assert (held s = Some j) by (apply K; eauto). congruence.
      + intros j q X. assert (X' : In (Ret j q) (tr s)) by (destruct b; [destruct X as [[=]|X]|]; exact X). destruct (I2 j q X') as [E1 E2].
        destruct (goto_cases (calls s) i (Finished (fst (run (obj s) o))) j) as [[-> _]|[Hj ->]]; [congruence|].
        split; [exact E1|]. intros b' Hb. rewrite T. auto.
    - assert (T : forall j, In (Load j) (Ret i r :: tr s) <-> In (Load j) (tr s)) by (intros j; cbn; split; [intros [[=]|X]; exact X|auto]).
      split.
      + intros j. destruct (goto_cases (calls s) i Over j) as [[-> ->]|[Hj ->]]; [exact Logic.I|].
        specialize (I1 j). destruct (calls s j); try rewrite T; auto. intros b' Hb. rewrite T. auto.
      + intros j q [[= <- <-]|X].
        * destruct (goto_cases (calls s) i Over i) as [[_ ->]|[Hj _]]; [|congruence]. split; [reflexivity|]. intros b Hb. rewrite T. specialize (I1 i). rewrite Hc in I1. auto.
        * destruct (I2 j q X) as [E1 E2]. destruct (goto_cases (calls s) i Over j) as [[-> ->]|[Hj ->]]; (split; [auto|]; intros b Hb; rewrite T; auto).
  Qed.

  Lemma steps_trans a b c : steps a b -> steps b c -> steps a c.
  Proof. intros A H. induction H as [x|x y z H IH Hs]; [exact A|]. eapply steps_more; [apply IH; exact A|exact Hs]. Qed.
  Lemma step_one a b : step a b -> steps a b.
  Proof. intros H. econstructor; [constructor|exact H]. Qed.
  (* steps of calls that were made already *)
  Definition weight (p : phase O R) : nat := match p with Waiting _ _ => 3 | Holding _ _ _ => 2 | Finished _ => 1 | _ => 0 end.
  Definition total (c : nat -> phase O R) (n : nat) : nat := list_sum (map (fun i => weight (c i)) (seq 0 n)).
  Lemma total_ext c c' n : (forall i, i < n -> weight (c i) = weight (c' i)) -> total c n = total c' n.
  Proof. intros H. unfold total. f_equal. apply map_ext_in. intros i Hi. apply in_seq in Hi. apply H. lia. Qed.
  Lemma total_S c n : total c (Datatypes.S n) = total c n + weight (c n).
  Proof. unfold total. rewrite seq_S, map_app. cbn. rewrite list_sum_app. cbn. lia. Qed.
  Lemma total_goto c n i p : i < n -> weight (c i) > weight p -> total (goto c i p) n < total c n.
  Proof.
    intros Hi Hw. induction n as [|n IH]; [lia|]. rewrite !total_S. destruct (goto_cases c i p n) as [[-> ->]|[ne E]].
    - assert (total (goto c i p) i = total c i); [|lia]. apply total_ext. intros j Hj. destruct (goto_cases c i p j) as [[-> _]|[_ ->]]; [lia|reflexivity].
    - rewrite E. assert (i < n) by lia. specialize (IH H). lia.
  Qed.
  Lemma total_zero c n : total c n = 0 -> forall i, i < n -> weight (c i) = 0.
  Proof. induction n as [|n IH]; intros H i Hi; [lia|]. rewrite total_S in H. destruct (Nat.eq_dec i n) as [->|ne]; [lia|apply IH; lia]. Qed.
  Lemma weight_some c n : total c n > 0 -> exists i, i < n /\ weight (c i) > 0.
  Proof. induction n as [|n IH]; intros H; [cbn in H; lia|]. rewrite total_S in H. destruct (weight (c n)) eqn:E; [destruct IH as (i & ? & ?); [lia|]; exists i; split; [lia|auto]|exists n; split; lia]. Qed.
  Lemma calls_kept s s' : steps s s' -> forall e, In e (tr s) -> In e (tr s').
  Proof. induction 1 as [|s s1 s2 H IH Hs]; auto. intros e He. apply IH in He. destruct Hs; cbn; auto; destruct (loads _ _) || destruct b; cbn; auto. Qed.
  Definition same_calls (s s' : st) : Prop := next s' = next s /\ forall i o, In (Call i o) (tr s') -> In (Call i o) (tr s).
  Lemma advance s l : good s l -> simple s -> total (calls s) (next s) > 0 ->
    exists s' l', step s s' /\ good s' l' /\ simple s' /\ same_calls s s' /\ total (calls s') (next s') < total (calls s) (next s).
  Proof.
    intros G Si T. pose proof G as [L F P K].
    (* what a step gives *)
    assert (Fin : forall i s' c, step s s' -> next s' = next s -> (forall j o, In (Call j o) (tr s') -> In (Call j o) (tr s)) -> calls s' = goto (calls s) i c -> i < next s -> weight (calls s i) > weight c ->
      match c with Waiting _ n | Holding _ _ n => n = [] | _ => True end ->
      exists s' l', step s s' /\ good s' l' /\ simple s' /\ same_calls s s' /\ total (calls s') (next s') < total (calls s) (next s)).
    { intros i s' c Hs Hn Ht Hc Hi Hw Hp. destruct (good_step _ _ _ G Hs) as (l' & G'). exists s', l'. split; [exact Hs|split; [exact G'|split; [|split; [split; [exact Hn|exact Ht]|]]]].
      - intros j. rewrite Hc. destruct (goto_cases (calls s) i c j) as [[-> ->]|[n ->]]; [exact Hp|apply Si].
      - rewrite Hc, Hn. now apply total_goto. }
    assert (Fl : forall i o, In (Call i o) (tr s) -> i < next s) by exact F.
    destruct (held s) as [h|] eqn:Eh.
    - destruct (proj2 (K h) eq_refl) as (o & b & n & Hc). pose proof (Si h) as Sh. rewrite Hc in Sh. subst n. pose proof (P h) as Ph. rewrite Hc in Ph.
      eapply (Fin h); [apply (work run loads h o b s Hc)|reflexivity| |reflexivity|eapply F, Ph|rewrite Hc; cbn; lia|exact Logic.I].
      cbn. intros j x. destruct b; auto. intros [[=]|Hj]; auto.
    - destruct (weight_some _ _ T) as (i & Hi & Hw). pose proof (P i) as Pi. destruct (calls s i) as [|o n|o b n|r|] eqn:Hc; cbn in Hw; try lia.
      + pose proof (Si i) as Sh. rewrite Hc in Sh. subst n.
        eapply (Fin i); [apply (take run loads i o [] s Hc Eh)|reflexivity| |reflexivity|exact Hi|rewrite Hc; cbn; lia|now destruct (loads (obj s) o)].
        cbn. intros j x. destruct (loads (obj s) o); auto. intros [[=]|Hj]; auto.
      + exfalso. assert (X : None = Some i) by (apply K; eauto). discriminate X.
      + eapply (Fin i); [apply (ret run loads i r s Hc)|reflexivity| |reflexivity|exact Hi|rewrite Hc; cbn; lia|exact Logic.I].
        cbn. intros j x [[=]|Hj]; auto.
  Qed.
  (* Full statement: no call waits for ever.  Missing: loaders that call the object *)
  Theorem C143_progress_partial : forall s, steps (start s0) s -> simple s -> exists s', steps s s' /\ all_returned (tr s') /\ forall i o, In (Call i o) (tr s') -> In (Call i o) (tr s).
  Proof.
    intros s H Si. destruct (good_all s H) as (l & G). remember (total (calls s) (next s)) as n eqn:En. assert (Hn : total (calls s) (next s) <= n) by lia. clear En H.
    revert s l G Si Hn. induction n as [|n IH]; intros s l G Si Hn.
    - exists s. split; [constructor|split; [|auto]]. intros i o Hi. pose proof (g_fresh s l G i o Hi) as Hlt. assert (W : weight (calls s i) = 0) by (eapply total_zero; eauto; lia).
      pose proof (g_phase s l G i) as P. destruct (calls s i); cbn in W; try lia. apply P.
    - destruct (Nat.eq_dec (total (calls s) (next s)) 0) as [Z|Z]; [apply (IH s l G Si); lia|].
      destruct (advance s l G Si) as (s' & l' & Hs & G' & Si' & [_ Sc] & Hl); [lia|]. destruct (IH s' l' G' Si') as (s2 & H2 & A2 & C2); [lia|].
      exists s2. split; [eapply steps_trans; [apply step_one; exact Hs|exact H2]|split; [exact A2|auto]].
  Qed.

  Lemma reach s s' : steps (start s0) s -> steps s s' -> steps (start s0) s'.
  Proof. apply steps_trans. Qed.
  (* while i has the lock and does not finish, nothing comes of the other calls *)
  Lemma stuck s i o b n : steps (start s0) s -> calls s i = Holding o b n -> (forall j r, calls s j <> Finished r) -> (forall j r, ~ In (Ret j r) (tr s)) ->
    forall s', steps s s' -> (n = [] /\ b = true /\ In (Loaded i) (tr s')) \/ (n = [] /\ b = false) \/ (calls s' i = Holding o b n /\ (forall j r, calls s' j <> Finished r) /\ (forall j r, ~ In (Ret j r) (tr s'))).
  Proof.
    intros Hr Hc Hf Ht s' H. induction H as [s|s s1 s2 H IH Hs]; [auto|].
    destruct (IH Hr Hc Hf Ht) as [(A1 & A2 & A3)|[A|(A & B & C)]]; [left; split; [auto|split; [auto|]]; apply (calls_kept s1 s2); [now apply step_one|auto]|auto|]. clear IH Hc Hf Ht.
    destruct (good_all s1 (reach _ _ Hr H)) as (l & [L F P K]). assert (Hh : held s1 = Some i) by (apply K; eauto).
    destruct Hs as [o' inner s1|j o' inner s1 Hj Hn|j o' b' s1 Hj|j r s1 Hj]; cbn.
    - right; right. pose proof (P i) as Pi. rewrite A in Pi. destruct Pi as [Pi _]. apply F in Pi. split; [|split].
      + destruct (goto_cases (calls s1) (next s1) (Waiting o' inner) i) as [[E _]|[_ E]]; [lia|now rewrite E].
      + intros j r. destruct (goto_cases (calls s1) (next s1) (Waiting o' inner) j) as [[_ E]|[_ E]]; rewrite E; [discriminate|apply B].
      + intros j r [[=]|X]. now apply C in X.
    - congruence.
    - assert (j = i) by (assert (held s1 = Some j) by (apply K; eauto); congruence). subst j. rewrite A in Hj. injection Hj as <- <- ->. destruct b; [left; auto with datatypes|right; left; auto].
    - now apply B in Hj.
  Qed.
  (* Full statement: a loader may use the object.  The call never returns, and none after it does *)
  Theorem C143_loader_refuted : forall o x, loads s0 o = true -> exists s, steps (start s0) s /\ tr s = [Load 0; Call 0 o] /\ calls s 0 = Holding o true [x] /\
    forall s', steps s s' -> forall i r, ~ In (Ret i r) (tr s').
  Proof.
    intros o x Hl. pose proof (step_one _ _ (call run loads o [x] (start s0))) as H1. cbn in H1.
    assert (H2 : exists s, steps (start s0) s /\ tr s = [Load 0; Call 0 o] /\ calls s 0 = Holding o true [x] /\ forall j r, calls s j <> Finished r).
    { eexists. split; [eapply steps_more; [exact H1|]; eapply (take run loads 0 o [x]); reflexivity|]. cbn. rewrite Hl. split; [reflexivity|]. split; [reflexivity|]. intros [|j] r; unfold goto; cbn; discriminate. }
    destruct H2 as (s & Hs & Ht & Hc & Hf). exists s. split; [exact Hs|]. split; [exact Ht|]. split; [exact Hc|]. intros s' H i r.
    destruct (stuck s 0 o true [x] Hs Hc Hf) with (s' := s') as [(A & _)|[(A & _)|(_ & _ & A)]]; auto; try discriminate.
    rewrite Ht. intros j y [X|[X|[]]]; discriminate X.
  Qed.
  (* Full statement: a load does not delay calls that do not need it *)
  Theorem C143_delay_refuted : forall o o2, loads s0 o = true -> exists s, steps (start s0) s /\ tr s = [Call 1 o2; Load 0; Call 0 o] /\ simple s /\
    forall s', steps s s' -> forall r, In (Ret 1 r) (tr s') -> In (Loaded 0) (tr s').
  Proof.
    intros o o2 Hl. pose proof (step_one _ _ (call run loads o [] (start s0))) as H1. cbn in H1.
    assert (H2 : exists s, steps (start s0) s /\ next s = 1 /\ tr s = [Load 0; Call 0 o] /\ calls s 0 = Holding o true [] /\ forall j, j <> 0 -> calls s j = Unused).
    { eexists. split; [eapply steps_more; [exact H1|]; eapply (take run loads 0 o []); reflexivity|]. cbn. rewrite Hl. repeat (split; [reflexivity|]). intros [|j] r; unfold goto; cbn; congruence. }
    destruct H2 as (s & Hs & Hn & Ht & Hc & Hf). pose proof (steps_more _ _ _ _ _ Hs (call run loads o2 [] s)) as H3. rewrite Hn, Ht in H3.
    match type of H3 with LkModel.steps _ _ _ ?x => set (s3 := x) in H3 end. exists s3. split; [exact H3|]. split; [reflexivity|].
    assert (Hc3 : calls s3 0 = Holding o true []) by (cbn; unfold goto; cbn; exact Hc).
    assert (Hf3 : forall j, j <> 0 -> calls s3 j = Unused \/ calls s3 j = Waiting o2 []) by (intros j Hj; cbn; unfold goto; destruct (Nat.eqb j 1); auto).
    split; [intros [|j]; [now rewrite Hc3|destruct (Hf3 (Datatypes.S j)) as [X|X]; [lia|rewrite X; exact Logic.I|now rewrite X]]|].
    intros s' H r Hr. destruct (stuck s3 0 o true [] H3 Hc3) with (s' := s') as [(_ & _ & A)|[(_ & A)|(_ & _ & A)]]; auto; try discriminate.
    - intros [|j] y; [rewrite Hc3; discriminate|destruct (Hf3 (Datatypes.S j)) as [X|X]; [lia|rewrite X; discriminate|rewrite X; discriminate]].
    - intros j y [X|[X|[X|[]]]]; discriminate X.
    - now apply A in Hr.
  Qed.
End All.


Lemma mem_sequential {K V E} (eqb : K -> K -> bool) : forall (l : list (nat * mop K V E * option (mresult K V E))) m m', sequential (mem_run eqb) m l m' -> mrun eqb m (ops l) = (answers l, m').
Proof.
  induction l as [|[[i o] r] l IH]; intros m m' H; cbn in H; [now subst|]. destruct H as [-> H]. unfold ops, answers in *. cbn. destruct o as [k ld|k]; cbn in *.
  - destruct (mGet eqb m k ld) as [r m1] eqn:Eg. cbn in *. now rewrite (IH m1 m' H).
  - now rewrite (IH _ m' H).
Qed.
(* the answers of a Mem cache to calls of several goroutines are those of C11 *)
Theorem C143_mem : forall (K V E : Type) (eqb : K -> K -> bool), eqb_ok eqb -> forall (dec : forall x y : K, {x = y} + {x <> y}) s,
  steps (mem_run eqb) mem_loads (start (@NewMem K V)) s -> exists l : list (nat * mop K V E * option (mresult K V E)), linear (mem_run eqb) NewMem (tr s) l (obj s) /\
    forall a i k ld r b, l = a ++ (i, MGet k ld, r) :: b -> r = Some (expected (cached dec None k (ops a)) k ld).
Proof.
  intros K V E eqb He dec s H. destruct (C143_linear _ _ _ s H) as (l & L). exists l. split; [exact L|]. intros a i k ld r b El.
  pose proof (mem_sequential eqb l _ _ (l_run _ _ _ _ _ L)) as Q. pose proof (C11_mem K V E eqb He dec (ops a) (ops b) k ld) as X.
  assert (Eo : ops l = ops a ++ MGet k ld :: ops b) by (rewrite El; unfold ops; now rewrite map_app). rewrite <- Eo, Q in X. cbn [fst] in X.
  rewrite El in X. unfold answers, ops in X. rewrite map_app, map_length, nth_error_app2 in X by now rewrite map_length. rewrite map_length, Nat.sub_diag in X. cbn in X. now injection X as ->.
Qed.
Lemma lru_sequential {K V E} (eqb : K -> K -> bool) : forall (l : list (nat * LruModel.op K V E * res (option (get_result K V E)))) m m' rs c, sequential (lru_run eqb) m l m' -> LruModel.run eqb m (ops l) = Ok (rs, c) ->
  c = m' /\ answers l = map (@Ok _) rs.
Proof.
  induction l as [|[[i o] r] l IH]; intros m m' rs c H Hr; cbn in H; [cbn in Hr; injection Hr as <- <-; now subst|]. destruct H as [-> H]. unfold ops, answers in *. cbn in *. unfold lru_run in *.
  destruct (LruModel.step eqb m o) as [[r m1]|] eqn:Es; cbn in *; [|discriminate]. destruct (LruModel.run eqb m1 (map (fun e => snd (fst e)) l)) as [[rs1 c1]|] eqn:Er; cbn in Hr; [|discriminate].
  injection Hr as <- <-. destruct (IH _ _ _ _ H Er) as [-> ->]. auto.
Qed.
Lemma cached_app {K V E} dec k : forall (a b : list (mop K V E)) x, cached dec x k (a ++ b) = cached dec (cached dec x k a) k b.
Proof. induction a as [|[k' ld|k'] a IH]; intros b x; cbn; auto. Qed.
Lemma cached_some {K V E} (dec : forall x y : K, {x = y} + {x <> y}) k v : forall l : list (mop K V E), ~ In (MInvalidate k) l -> cached dec (Some v) k l = Some v.
Proof.
  induction l as [|[k' ld|k'] l IH]; intros H; cbn; auto.
  - assert (Hn : ~ In (MInvalidate k) l) by (intros X; apply H; now right). destruct (dec k k'); [destruct (mlerr ld)|]; auto.
  - destruct (dec k k') as [->|n]; [exfalso; apply H; now left|]. apply IH. intros X. apply H. now right.
Qed.
(* goroutines that get the same key get the same value, and one of them loads it *)
Theorem C143_same : forall (K V E : Type) (eqb : K -> K -> bool), eqb_ok eqb -> (forall x y : K, {x = y} + {x <> y}) -> forall s k,
  steps (mem_run eqb) mem_loads (start (@NewMem K V)) s -> (forall i, ~ In (Call i (MInvalidate k)) (tr s)) -> (forall i (ld : mloaded V E), In (Call i (MGet k ld)) (tr s) -> mlerr ld = None) ->
  forall i j ld1 ld2 r1 r2, i <> j -> In (Call i (MGet k ld1)) (tr s) -> In (Call j (MGet k ld2)) (tr s) -> In (Ret i r1) (tr s) -> In (Ret j r2) (tr s) ->
  exists a b, r1 = Some a /\ r2 = Some b /\ mval a = mval b /\ merr a = None /\ merr b = None /\ (mhit a = HIT \/ mhit b = HIT).
Proof.
  intros K V E eqb He dec s k H Hi Hl.
  assert (Main : forall l, linear (mem_run eqb) NewMem (tr s) l (obj s) -> (forall a i k ld r b, l = a ++ (i, MGet k ld, r) :: b -> r = Some (expected (cached dec None k (ops a)) k ld)) ->
    forall a i ld1 r1 b j ld2 r2 c, l = a ++ (i, MGet k ld1, r1) :: b ++ (j, MGet k ld2, r2) :: c ->
    exists x y, r1 = Some x /\ r2 = Some y /\ mval x = mval y /\ merr x = None /\ merr y = None /\ mhit y = HIT).
  { intros l L A a i ld1 r1 b j ld2 r2 c El. pose proof (A a i k ld1 r1 _ El) as E1.
    assert (El2 : l = (a ++ (i, MGet k ld1, r1) :: b) ++ (j, MGet k ld2, r2) :: c) by (now rewrite <- app_assoc). pose proof (A _ j k ld2 r2 _ El2) as E2.
    assert (Ne : mlerr ld1 = None) by (apply (Hl i); eapply (l_calls _ _ _ _ _ L); rewrite El; apply in_or_app; right; now left).
    assert (Nb : ~ In (MInvalidate k) (ops b)).
    { intros X. unfold ops in X. apply in_map_iff in X as ([[z o] r] & Ho & X). cbn in Ho. subst o. apply (Hi z). eapply (l_calls _ _ _ _ _ L). rewrite El. apply in_or_app. right. right. apply in_or_app. left. exact X. }
    assert (Eo : ops (a ++ (i, MGet k ld1, r1) :: b) = ops a ++ MGet k ld1 :: ops b) by (unfold ops; now rewrite map_app). rewrite Eo, cached_app in E2. cbn in E2. destruct (dec k k) as [_|n]; [|now contradiction n].
    unfold expected in E1, E2. rewrite Ne in *. destruct (cached dec None k (ops a)) as [v|]; rewrite cached_some in E2 by exact Nb; subst; eexists; eexists; repeat split. }
  intros i j ld1 ld2 r1 r2 Ne C1 C2 R1 R2. destruct (C143_mem K V E eqb He dec s H) as (l & L & A).
  assert (Uniq : forall l : list (nat * mop K V E * option (mresult K V E)), steps (mem_run eqb) mem_loads (start (@NewMem K V)) s -> forall i o o', In (Call i o) (tr s) -> In (Call i o') (tr s) -> o = o').
  { intros _ H0. clear - H0 He. remember (start (@NewMem K V)) as z. induction H0 as [z|z s1 s2 H0 IH Hs]; subst; [intros ? ? ? []|]. specialize (IH eq_refl).
    destruct (good_all (mem_run eqb) mem_loads NewMem s1 H0) as (l & [_ F _ _]).
    destruct Hs; cbn; auto.
    - intros i a b [[= <- <-]|X] [[= Y]|Y]; auto; [apply F in Y; lia|apply F in X; lia|eauto].
    - destruct (mem_loads (obj s) o); auto. intros j a c [[=]|X] [[=]|Y]. eauto.
    - destruct b; auto. intros j a c [[=]|X] [[=]|Y]. eauto.
    - intros j a c [[=]|X] [[=]|Y]. eauto. }
  assert (I1 : In (i, MGet k ld1, r1) l) by (destruct (l_rets _ _ _ _ _ L i r1 R1) as (o & Ho); assert (o = MGet k ld1) by (eapply (Uniq []); eauto; eapply (l_calls _ _ _ _ _ L); eauto); now subst).
  assert (I2 : In (j, MGet k ld2, r2) l) by (destruct (l_rets _ _ _ _ _ L j r2 R2) as (o & Ho); assert (o = MGet k ld2) by (eapply (Uniq []); eauto; eapply (l_calls _ _ _ _ _ L); eauto); now subst).
  apply in_split in I1 as (a & b & El). rewrite El in I2. apply in_app_or in I2 as [I2|[I2|I2]].
  - apply in_split in I2 as (a1 & a2 & ->). rewrite <- app_assoc in El. cbn in El. destruct (Main l L A _ _ _ _ _ _ _ _ _ El) as (x & y & -> & -> & X). exists y, x. intuition.
  - congruence.
  - apply in_split in I2 as (b1 & b2 & ->). destruct (Main l L A _ _ _ _ _ _ _ _ _ El) as (x & y & -> & -> & X). exists x, y. intuition.
Qed.
(* A loader runs for a call that returned exactly when it did not say HIT: with C143_same, once for a key. *)
Theorem C143_loads : forall (K V E : Type) (eqb : K -> K -> bool),
  (forall s, steps (mem_run eqb) mem_loads (start (@NewMem K V)) s -> forall i (r : mresult K V E), In (Ret i (Some r)) (tr s) -> (In (Load i) (tr s) <-> mhit r <> HIT)) /\
  (forall max s, steps (lru_run eqb) lru_loads (start (@NewLRU K V max)) s -> forall i (r : get_result K V E), In (Ret i (Ok (Some r))) (tr s) -> (In (Load i) (tr s) <-> rhit r <> HIT)).
Proof.
  intros K V E eqb. set (hit := fun h => match h with HIT => false | _ => true end).
  assert (Q : forall h, hit h = true <-> h <> HIT) by (intros []; cbn; split; congruence).
  split.
  - intros s H i r Hr. rewrite <- Q.
    destruct (told_all (mem_run eqb) mem_loads NewMem (fun r : option (mresult K V E) => match r with Some x => Some (hit (mhit x)) | None => None end)) with (s := s) as [_ X]; auto.
    + intros m [k ld|k] b; cbn; [|discriminate]. unfold mGet. destruct (m k); cbn; [congruence|]. destruct (mlerr ld); cbn; congruence.
    + destruct (X i _ Hr) as [_ Y]. apply Y. reflexivity.
  - intros max s H i r Hr. rewrite <- Q.
    destruct (told_all (lru_run eqb) lru_loads (NewLRU max) (fun r : res (option (get_result K V E)) => match r with Ok (Some x) => Some (hit (rhit x)) | _ => None end)) with (s := s) as [_ X]; auto.
    + intros c [k now ld|k] b; unfold lru_run; cbn.
      * unfold Get. destruct (hindex (lheap c) k) as [n|].
        -- destruct (nth_error _ n); cbn; [|discriminate]. destruct (Fix _ _ n); cbn; [congruence|discriminate].
        -- destruct (lerr ld); cbn [rbind fst]; [cbn; congruence|]. destruct (lsize ld =? 0)%Z; cbn [rbind fst]; [cbn; congruence|].
           destruct (Push _ (lheap c) _) as [h|]; cbn [rbind fst]; [|discriminate]. destruct (evict _ _ _) as [c'|]; cbn [rbind fst]; [|discriminate]. cbn. congruence.
      * destruct (Invalidate _ c k); cbn; discriminate.
    + destruct (X i _ Hr) as [_ Y]. apply Y. reflexivity.
Qed.
Print Assumptions C143_loads.
(* the answers of an LRU cache to calls of several goroutines are those of C07 to C10 *)
Theorem C143_lru : forall (K V E : Type) (eqb : K -> K -> bool), eqb_ok eqb -> (forall x y : K, {x = y} + {x <> y}) -> forall max s, (0 <= max)%Z ->
  steps (lru_run eqb) lru_loads (start (@NewLRU K V max)) s -> (forall i (o : LruModel.op K V E), In (Call i o) (tr s) -> call_ok o) ->
  exists l rs, linear (lru_run eqb) (NewLRU max) (tr s) l (obj s) /\ LruModel.run eqb (NewLRU max) (ops l) = Ok (rs, obj s) /\ answers l = map (@Ok _) rs /\ (LruSpec.total (residents (obj s)) <= max)%Z.
Proof.
  intros K V E eqb He dec max s Hm H Ho. destruct (C143_linear _ _ _ s H) as (l & L).
  assert (Fa : Forall call_ok (ops l)) by (apply Forall_forall; intros o Hi; unfold ops in Hi; apply in_map_iff in Hi as ([[i o'] r] & <- & Hi); eapply Ho, (l_calls _ _ _ _ _ L); eauto).
  destruct (C08_budget K V E eqb He dec max (ops l) Hm Fa) as (rs & c & Er & _ & _ & Hb & _). destruct (lru_sequential eqb l _ _ rs c (l_run _ _ _ _ _ L) Er) as [-> Ea]. eauto 8.
Qed.
Lemma kv_sequential : forall a i k r b s s', sequential kv_run s (a ++ (i, KGet k, r) :: b) s' -> r = Some (kvGet (fold_left kvstep (writing (ops a)) s) k).
Proof. induction a as [|[[j o] q] a IH]; intros i k r b s s' H; cbn in H; [now destruct H|]. destruct H as [_ H]. rewrite (IH _ _ _ _ _ _ H). destruct o; reflexivity. Qed.
(* the answers of the store to calls of several goroutines are those of C14 *)
Theorem C143_store : forall s, steps kv_run (fun _ _ => false) (start NewMemKeyValue) s ->
  exists l, linear kv_run NewMemKeyValue (tr s) l (obj s) /\ forall a i k r b, l = a ++ (i, KGet k, r) :: b -> r = Some (last_write (writing (ops a)) k).
Proof.
  intros s H. destruct (C143_linear _ _ _ s H) as (l & L). exists l. split; [exact L|]. intros a i k r b El. pose proof (l_run _ _ _ _ _ L) as Q. rewrite El in Q.
  rewrite (kv_sequential _ _ _ _ _ _ _ Q). f_equal. apply C14_store.
Qed.

(* two goroutines get key 1, which the first loads while the second waits, and a third gets key 2, while a loader that does not use the cache runs *)
Definition g1 : mop nat nat nat := MGet 1 (MLoaded 7 None).
Definition g2 : mop nat nat nat := MGet 1 (MLoaded 8 None).
Example C143_ex : exists s, steps (mem_run Nat.eqb) mem_loads (start NewMem) s /\ simple s /\ (forall i, ~ In (Call i (MInvalidate 1)) (tr s)) /\
  tr s = [Ret 1 (Some (MResult 7 HIT None [])); Ret 0 (Some (MResult 7 MISS None [1])); Loaded 0; Call 1 g2; Load 0; Call 0 g1].
Proof.
  pose proof (steps_none (@mem_run nat nat nat Nat.eqb) mem_loads (start (@NewMem nat nat))) as H.
  match type of H with LkModel.steps _ _ _ ?s => pose proof (steps_more _ _ _ _ _ H (call _ _ g1 [] s)) as H1 end. cbn [obj held calls next tr start] in H1. clear H.
  match type of H1 with LkModel.steps _ _ _ ?s => pose proof (steps_more _ _ _ _ _ H1 (take _ _ 0 g1 [] s eq_refl eq_refl)) as H2 end. cbn [obj held calls next tr start mem_loads g1 NewMem] in H2. clear H1.
  match type of H2 with LkModel.steps _ _ _ ?s => pose proof (steps_more _ _ _ _ _ H2 (call _ _ g2 [] s)) as H3 end. cbn [obj held calls next tr] in H3. clear H2.
  match type of H3 with LkModel.steps _ _ _ ?s => pose proof (steps_more _ _ _ _ _ H3 (work _ _ 0 g1 true s eq_refl)) as H4 end. cbn [obj held calls next tr] in H4. clear H3.
  match type of H4 with LkModel.steps _ _ _ ?s => pose proof (steps_more _ _ _ _ _ H4 (ret _ _ 0 _ s eq_refl)) as H5 end. cbn [obj held calls next tr] in H5. clear H4.
  match type of H5 with LkModel.steps _ _ _ ?s => pose proof (steps_more _ _ _ _ _ H5 (take _ _ 1 g2 [] s eq_refl eq_refl)) as H6 end. cbn [obj held calls next tr] in H6. clear H5.
  match type of H6 with LkModel.steps _ _ _ ?s => pose proof (steps_more _ _ _ _ _ H6 (work _ _ 1 g2 false s eq_refl)) as H7 end. cbn [obj held calls next tr] in H7. clear H6.
  match type of H7 with LkModel.steps _ _ _ ?s => pose proof (steps_more _ _ _ _ _ H7 (ret _ _ 1 _ s eq_refl)) as H8 end. cbn [obj held calls next tr] in H8. clear H7.
  eexists. split; [exact H8|]. cbn [tr calls]. split; [|split; [|reflexivity]].
  - intros [|[|i]]; unfold goto; cbn; auto.
  - intros i X. cbn in X. intuition discriminate.
Qed.
Print Assumptions C143_linear.
Print Assumptions C143_progress_partial.
Print Assumptions C143_loader_refuted.
Print Assumptions C143_delay_refuted.
Print Assumptions C143_mem.
Print Assumptions C143_same.
Print Assumptions C143_lru.
Print Assumptions C143_store.
