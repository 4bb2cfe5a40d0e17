(* C119: requests share only what the registered object refers to. *)
From Coq Require Import Bool Arith ZArith List Lia.
From Verif Require Import Prelude IsoModel IsoSpec IsoProofs.
Import ListNotations.

(* C119: whatever the operations do and in whatever order, memory that two requests can get at is public: the registered object
   refers to it, or a request put it there. *)
Theorem C119_shared : forall s0 ls s j k a, starts s0 -> steps s0 ls s -> sees s j a -> sees s k a -> j = k \/ public s0 ls a.
Proof.
  intros s0 ls s j k a T H J K. destruct (inv_steps s0 ls s T H) as (P & V & Q). destruct (i_one _ _ V j k a J K); auto.
Qed.
Print Assumptions C119_shared.

(* C119: what others do changes nothing that a request can get at, except public memory. *)
Theorem C119_others : forall s0 ls s l s' k a, starts s0 -> steps s0 ls s -> step s l s' -> ~ by_request l k -> sees s k a ->
  sees s' k a \/ public s0 ls a.
Proof.
  intros s0 ls s l s' k a T H S1 NB (rs & K & q & Q & R). destruct (inv_steps s0 ls s T H) as (P & V & QP). destruct V as [V1 V2 V3 V4 V5 V6 V7].
  destruct S1 as [h r ks vs|h r ks vs j js ws J F|h r ks vs j js c i w J A W|h r ks vs c i w A W]; cbn [mem reg kinds vars by_request] in *.
  - left. exists rs. split; [cbn; rewrite nth_error_app1; [exact K|apply nth_error_Some; rewrite K; discriminate]|]. exists q. split; [exact Q|]. cbn. apply reach_ext; [exact V1|exact (V3 _ _ _ K Q)|exact R].
  - left. exists rs. split; [cbn; rewrite upd_nth_error; assert (D : Nat.eqb k j = false) by (apply Nat.eqb_neq; auto); rewrite D; exact K|]. exists q. split; [exact Q|]. cbn. apply reach_ext; [exact V1|exact (V3 _ _ _ K Q)|exact R].
  - assert (Z : reach (store h c i w) q a \/ P a); [|destruct Z; [left; exists rs; split; [exact K|exists q; auto]|right; auto]].
    induction R as [|x y R IH I]; [left; constructor|]. destruct IH as [IH|IH]; [|right; exact (V6 _ _ IH I)].
    destruct (Nat.eq_dec x c) as [->|D].
    + destruct (V7 k j c) as [E|PC]; [exists rs; split; [exact K|exists q; auto]|exists js; auto|destruct (NB (eq_sym E))|right; exact (V6 _ _ PC I)].
    + left. econstructor; [exact IH|]. rewrite cell_store_other by exact D. exact I.
  - assert (PC : P c) by exact (closed_reach P h r c V6 V4 A).
    assert (Z : reach (store h c i w) q a \/ P a); [|destruct Z; [left; exists rs; split; [exact K|exists q; auto]|right; auto]].
    induction R as [|x y R IH I]; [left; constructor|]. destruct IH as [IH|IH]; [|right; exact (V6 _ _ IH I)].
    destruct (Nat.eq_dec x c) as [->|D]; [right; exact (V6 _ _ PC I)|].
    left. econstructor; [exact IH|]. rewrite cell_store_other by exact D. exact I.
Qed.
Print Assumptions C119_others.
Theorem C119_unchanged : forall s0 ls s l s' k a, starts s0 -> steps s0 ls s -> step s l s' -> ~ by_request l k -> sees s k a ->
  cell (mem s') a = cell (mem s) a \/ public s0 ls a.
Proof.
  intros s0 ls s l s' k a T H S1 NB KA. destruct (inv_steps s0 ls s T H) as (P & V & QP). destruct V as [V1 V2 V3 V4 V5 V6 V7].
  assert (L : a < length (mem s)) by (destruct KA as (rs & K & q & Q & R); exact (reach_lt _ q a V1 (V3 _ _ _ K Q) R)).
  destruct S1 as [h r ks vs|h r ks vs j js ws J F|h r ks vs j js c i w J A W|h r ks vs c i w A W]; cbn [mem reg kinds vars by_request] in *.
  - left. apply cell_ext. exact L.
  - left. apply cell_ext. exact L.
  - destruct (Nat.eq_dec a c) as [->|D]; [|left; apply cell_store_other; exact D].
    destruct (V7 k j c KA) as [E|PC]; [exists js; auto|destruct (NB (eq_sym E))|right; auto].
  - destruct (Nat.eq_dec a c) as [->|D]; [|left; apply cell_store_other; exact D].
    right. apply QP. exact (closed_reach P h r c V6 V4 A).
Qed.
Print Assumptions C119_unchanged.

(* C119: a request begins with an object of its own, whose fields are those of the registered object or zero; all else that it sees is public. *)
Theorem C119_begins : forall s0 ls s s' k, starts s0 -> steps s0 ls s -> step s Recv s' -> newest s k ->
  exists o, nth_error (vars s') k = Some [o] /\ (forall j, j <> k -> ~ sees s' j o) /\
    (forall i f, nth_error (kinds s0) i = Some f ->
       nth_error (cell (mem s') o) i = Some (match f with FInit => nth i (cell (mem s) (reg s0)) (Plain 0) | FOther => Plain 0 end)) /\
    forall a, sees s' k a -> a = o \/ public s0 ls a.
Proof.
  intros s0 ls s s' k T H S1 ->. destruct (inv_steps s0 ls s T H) as (P & V & QP). destruct V as [V1 V2 V3 V4 V5 V6 V7].
  destruct (steps_reg _ _ _ H) as [RG KD]. inversion S1 as [h r ks vs E1 E2 E3| | |]. subst s s'. cbn [mem reg kinds vars] in *. subst r ks. exists (length h).
  assert (NK : nth_error (vs ++ [[length h]]) (length vs) = Some [length h]) by (rewrite nth_error_app2, Nat.sub_diag by lia; reflexivity).
  split; [exact NK|]. split; [|split].
  - intros j D (rs & J & q & Q & R). cbn in J, R. assert (L : j < length vs \/ length vs <= j) by lia. destruct L as [L|L].
    + rewrite nth_error_app1 in J by exact L. apply reach_ext in R; [|exact V1|exact (V3 _ _ _ J Q)]. pose proof (reach_lt h q _ V1 (V3 _ _ _ J Q) R). lia.
    + rewrite nth_error_app2 in J by exact L. destruct (j - length vs) as [|m] eqn:Z; [lia|]. destruct m; discriminate J.
  - intros i f Hi. rewrite cell_new. clear - Hi. revert i Hi. generalize (cell h (reg s0)) as ws. induction (kinds s0) as [|g ks IH]; intros ws [|i] Hi; cbn in Hi; try discriminate.
    + injection Hi as <-. cbn. destruct g; [|reflexivity]. destruct ws; reflexivity.
    + cbn. rewrite (IH (tl ws) i Hi). destruct f; [|reflexivity]. destruct ws; [destruct i; reflexivity|reflexivity].
  - intros a (rs & J & q & Q & R). cbn in J, R. rewrite NK in J. injection J as <-. destruct Q as [<-|[]].
    assert (Z : a = length h \/ P a); [|destruct Z; auto]. induction R as [|y z R IH I]; [auto|]. right. destruct IH as [->|IH].
    + rewrite cell_new in I. apply fresh_in in I. exact (V6 _ _ V4 I).
    + rewrite (cell_ext h _ y (V5 _ IH)) in I. exact (V6 _ _ IH I).
Qed.
Print Assumptions C119_begins.

(* C119: so without references in the registered object, requests share nothing at all. *)
Theorem C119_plain : forall s0 ls s j k a, starts s0 -> (forall b, ~ In (Ref b) (cell (mem s0) (reg s0))) -> (forall a i w, ~ In (Own a i w) ls) ->
  steps s0 ls s -> sees s j a -> sees s k a -> j = k /\ a <> reg s0.
Proof.
  intros s0 ls s j k a T NR NO H J K.
  assert (Z : inv (fun a => a = reg s0) s /\ (forall j, ~ sees s j (reg s0)) /\ cell (mem s) (reg s0) = cell (mem s0) (reg s0)).
  { clear J K. induction H as [|ls s1 l s2 H IH S1].
    - destruct T as (N & L & _ & W). split; [|split; [|reflexivity]].
      + constructor; try assumption.
        * intros i rs r I. rewrite N in I. destruct i; discriminate I.
        * reflexivity.
        * intros x ->. exact L.
        * intros x y -> I. destruct (NR y I).
        * intros i i' x (rs & I & _). rewrite N in I. destruct i; discriminate I.
      + intros i (rs & I & _). rewrite N in I. destruct i; discriminate I.
    - destruct IH as (V & NS & C). { intros x i w I. apply (NO x i w). apply in_app_iff. auto. }
      destruct (steps_reg _ _ _ H) as [RG KD].
      assert (NOl : forall x i w, l <> Own x i w) by (intros x i w ->; apply (NO x i w); apply in_app_iff; right; left; reflexivity).
      pose proof (inv_step _ _ _ _ V S1) as V'. destruct V as [V1 V2 V3 V4 V5 V6 V7].
      assert (RL : reg s0 < length (mem s1)) by (rewrite <- RG; exact V2).
      assert (M : forall x, made l s1 (fun a => a = reg s0) x -> x = reg s0).
      { intros x [X|X]; [exact X|]. destruct l as [|q ws|q c i [z|b]|c i w]; try contradiction. destruct X as [-> _]. exfalso.
        inversion S1 as [| |h r ks vs q0 rs c0 i0 w0 Q A W E1 E2 E3|]. subst. cbn in *. apply (NS q). exists rs. auto. }
      assert (V2' : inv (fun a => a = reg s0) s2).
      { destruct V' as [A1 A2 A3 A4 A5 A6 A7]. constructor; try assumption.
        - apply M. exact A4.
        - intros x ->. apply A5. left. reflexivity.
        - intros x y -> I. apply M. refine (A6 _ _ _ I). left. reflexivity.
        - intros i i' x I I'. destruct (A7 i i' x I I') as [E|E]; auto. }
      split; [exact V2'|]. split.
      + intros i S2. destruct S1 as [h r ks vs|h r ks vs q rs ws Q F|h r ks vs q rs c i0 w Q A W|h r ks vs c i0 w A W]; cbn [mem reg kinds vars by_request] in *.
        * destruct S2 as (rs & I & q & Q & R). cbn in I, R. assert (L : i < length vs \/ length vs <= i) by lia. destruct L as [L|L].
          -- rewrite nth_error_app1 in I by exact L. apply reach_ext in R; [|exact V1|exact (V3 _ _ _ I Q)]. apply (NS i). exists rs. split; [exact I|]. exists q. auto.
          -- rewrite nth_error_app2 in I by exact L. destruct (i - length vs) as [|m]; cbn in I; [|destruct m; discriminate]. injection I as <-. destruct Q as [<-|[]].
             assert (B : forall x, reach (h ++ [fresh ks (cell h r)]) (length h) x -> x = length h).
             { intros x X. induction X as [|y z X IH I]; [reflexivity|]. subst y. rewrite cell_new in I. apply fresh_in in I. subst r. rewrite C in I. destruct (NR _ I). }
             specialize (B _ R). lia.
        * destruct S2 as (rs' & I & q' & Q' & R). cbn in I, R. rewrite upd_nth_error in I. destruct (Nat.eqb_spec i q) as [->|D].
          -- destruct (q <? length vs); [|discriminate]. injection I as <-. destruct Q' as [<-|Q'].
             ++ assert (B : forall x, reach (h ++ [ws]) (length h) x -> x = length h \/ reachable h rs x).
                { intros x X. induction X as [|y z X IH I]; [auto|]. right. destruct IH as [->|IH].
                  - rewrite cell_new in I. rewrite Forall_forall in F. exact (F _ I).
                  - assert (LY : y < length h) by (destruct IH as (p & P1 & P2); exact (reach_lt h p y V1 (V3 _ _ _ Q P1) P2)). rewrite (cell_ext h ws y LY) in I.
                    destruct IH as (p & P1 & P2). exists p. split; [exact P1|]. econstructor; eauto. }
                destruct (B _ R) as [E|E]; [lia|]. apply (NS q). exists rs. auto.
             ++ apply reach_ext in R; [|exact V1|exact (V3 _ _ _ Q Q')]. apply (NS q). exists rs. split; [exact Q|]. exists q'. auto.
          -- apply reach_ext in R; [|exact V1|exact (V3 _ _ _ I Q')]. apply (NS i). exists rs'. split; [exact I|]. exists q'. auto.
        * destruct S2 as (rs' & I & q' & Q' & R). cbn in I, R. destruct (reach_store_has h rs c i0 w q' _ A W R) as [R'|[R1 R2]].
          -- apply (NS i). exists rs'. split; [exact I|]. exists q'. auto.
          -- apply (NS q). exists rs. auto.
        * destruct (NOl c i0 w eq_refl).
      + rewrite <- C. destruct S1 as [h r ks vs|h r ks vs q rs ws Q F|h r ks vs q rs c i0 w Q A W|h r ks vs c i0 w A W]; cbn [mem reg kinds vars by_request] in *.
        * apply cell_ext. exact RL.
        * apply cell_ext. exact RL.
        * apply cell_store_other. intros E. apply (NS q). rewrite E. exists rs. auto.
        * destruct (NOl c i0 w eq_refl). }
  destruct Z as (V & NS & _). destruct (i_one _ _ V j k a J K) as [E|E].
  - split; [exact E|]. intros ->. exact (NS _ J).
  - exfalso. rewrite E in J. exact (NS _ J).
Qed.
Print Assumptions C119_plain.

(* A registered object with a plain field, a reference and an out field; two requests.  The second sees what the first wrote into the memory
   that the registered object refers to, and not what the first has for itself. *)
Example C119_ex : let s0 := St [[Plain 5; Ref 1; Plain 9]; [Plain 7]] 0 [FInit; FInit; FOther] [] in
  let ls := [Recv; Recv; New 0 [Plain 3]; Store 0 2 2 (Ref 4); Store 0 1 0 (Plain 8)] in
  exists s, starts s0 /\ steps s0 ls s /\ cell (mem s) 3 = [Plain 5; Ref 1; Plain 0] /\ sees s 1 1 /\ cell (mem s) 1 = [Plain 8] /\
    sees s 0 1 /\ sees s 0 4 /\ ~ sees s 1 4 /\ public s0 ls 1.
Proof.
  eexists. split; [|split; [|split; [|split; [|split; [|split; [|split; [|split]]]]]]].
  - unfold starts. cbn. split; [reflexivity|]. split; [lia|]. split; [reflexivity|]. intros [|[|[|a]]] b I; cbn in I; repeat (destruct I as [I|I]; [try discriminate I; injection I as <-; lia|]); contradiction.
  - change [Recv; Recv; New 0 [Plain 3]; Store 0 2 2 (Ref 4); Store 0 1 0 (Plain 8)] with (((((([] ++ [Recv]) ++ [Recv]) ++ [New 0 [Plain 3]]) ++ [Store 0 2 2 (Ref 4)]) ++ [Store 0 1 0 (Plain 8)])).
    eapply steps_snoc; [eapply steps_snoc; [eapply steps_snoc; [eapply steps_snoc; [eapply steps_snoc; [apply steps_nil|apply s_recv]|apply s_recv]|eapply s_new; [reflexivity|repeat constructor]]|
      eapply s_store; [reflexivity|exists 2; split; [cbn; auto|constructor]|exists 4; split; [cbn; auto|constructor]]]|
      eapply s_store; [reflexivity|exists 2; split; [cbn; auto|]|exact Logic.I]].
    eapply reach_next; [constructor|cbn; auto].
  - reflexivity.
  - exists [3]. split; [reflexivity|]. exists 3. split; [cbn; auto|]. eapply reach_next; [constructor|cbn; auto].
  - reflexivity.
  - exists [4; 2]. split; [reflexivity|]. exists 2. split; [cbn; auto|]. eapply reach_next; [constructor|cbn; auto].
  - exists [4; 2]. split; [reflexivity|]. exists 4. split; [cbn; auto|constructor].
  - intros (rs & J & q & Q & R). cbn in J. injection J as <-. destruct Q as [<-|[]].
    assert (B : forall x, reach (mem (St (store (store ((([[Plain 5; Ref 1; Plain 9]; [Plain 7]] ++ [fresh [FInit; FInit; FOther] [Plain 5; Ref 1; Plain 9]]) ++ [fresh [FInit; FInit; FOther] [Plain 5; Ref 1; Plain 9]]) ++ [[Plain 3]]) 2 2 (Ref 4)) 1 0 (Plain 8)) 0 [FInit; FInit; FOther] [[4; 2]; [3]])) 3 x -> x = 3 \/ x = 1).
    { intros x X. induction X as [|y z X IH I]; [auto|]. destruct IH as [->| ->]; cbn in I; repeat (destruct I as [I|I]; [try discriminate I; injection I as <-; auto|]); contradiction. }
    destruct (B 4 R); discriminate.
  -
    change [Recv; Recv; New 0 [Plain 3]; Store 0 2 2 (Ref 4); Store 0 1 0 (Plain 8)] with (((((([] ++ [Recv]) ++ [Recv]) ++ [New 0 [Plain 3]]) ++ [Store 0 2 2 (Ref 4)]) ++ [Store 0 1 0 (Plain 8)])).
    do 5 apply pub_old. eapply pub_reg; [apply steps_nil|]. eapply reach_next; [constructor|cbn; auto].
Qed.
