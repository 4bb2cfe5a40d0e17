(* C161: UnmarshalNode of sync.Map by several goroutines. *)
From Coq Require Import Bool Ascii String Arith List Lia.
From Verif Require Import Prelude PreludeFacts DurModel KvProofs UmModel UmSpec.
Import ListNotations.

Section P.
  Context {V : Type} (m0 : @doc V).
  Notation get := (mget beqb).
  Lemma given_app (a b : list (event V)) : given (a ++ b) = given a ++ given b.
  Proof. apply flat_map_app. Qed.
  (* what is still to be stored is from a document; a key that was never deleted has been written, or all documents that have it have still to write it; there are no other values *)
  Definition inv (l : list (event V)) (s : state V) : Prop :=
    (forall t d, left s t = Some d -> NoDup (map fst d) /\ exists d', In d' (given l) /\ incl d d') /\
    (forall k, ~ In (Delete k) l -> (exists d v, In d (given l) /\ In (k, v) d /\ get (content s) k = Some v) \/
       (get (content s) k = get m0 k /\ forall d v, In d (given l) -> In (k, v) d -> exists t d' v', left s t = Some d' /\ In (k, v') d')) /\
    (forall k v, get (content s) k = Some v -> get m0 k = Some v \/ exists d, In d (given l) /\ In (k, v) d) /\ NoDup (map fst (content s)).
  Lemma at_same p t x : @at_ V p t x t = x.
  Proof. unfold at_. now rewrite Nat.eqb_refl. Qed.
  Lemma at_other p t x u : u <> t -> @at_ V p t x u = p u.
  Proof. intros H. unfold at_. now apply Nat.eqb_neq in H as ->. Qed.
  Lemma at_some p t d u d' : @at_ V p t (Some d) u = Some d' -> u = t /\ d' = d \/ u <> t /\ p u = Some d'.
  Proof. unfold at_. destruct (Nat.eqb_spec u t) as [->|N]; intros H; [left; split; congruence|right; auto]. Qed.
  Lemma inv_run l s : NoDup (map fst m0) -> run m0 l s -> inv l s.
  Proof.
    intros N0. assert (W : forall l e k, ~ In (Delete k) (l ++ [e]) -> ~ In (@Delete V k) l /\ e <> Delete k) by (intros l' e k H; split; [intros Q; apply H, in_or_app; now left|intros ->; apply H, in_or_app; right; now left]).
    induction 1 as [|l s t d R (I1 & I2 & I3 & I4) N D|l s t R (I1 & I2 & I3 & I4) N|l s t d k v R (I1 & I2 & I3 & I4) N G|l s t R (I1 & I2 & I3 & I4) N|l s k v R (I1 & I2 & I3 & I4)|l s k R (I1 & I2 & I3 & I4)|l s k R (I1 & I2 & I3 & I4)];
      unfold inv; rewrite ?given_app; cbn [content UmModel.left].
    - split; [discriminate|]. split; [|split; [auto|exact N0]]. intros k _. right. split; [reflexivity|]. intros d v [].
    - change (given [Begin t (Some d)]) with [d]. split; [|split; [|split; [|exact I4]]].
      + intros u d' H. apply at_some in H as [[-> ->]|[Hu H]]; [split; [exact D|]; exists d; split; [apply in_or_app; right; now left|apply incl_refl]|].
        destruct (I1 u d' H) as (A & e & E & Q). split; [exact A|]. exists e. split; [apply in_or_app; now left|exact Q].
      + intros k Hk. apply W in Hk as [Hk _]. destruct (I2 k Hk) as [(e & v & E & Q & C)|[C Q]]; [left; exists e, v; split; [apply in_or_app; now left|auto]|]. right. split; [exact C|].
        intros e v He Hv. apply in_app_or in He as [He|[<-|[]]].
        * destruct (Q e v He Hv) as (u & d' & v' & U & X). exists u, d', v'. split; [|exact X]. rewrite at_other; [exact U|]. intros ->. congruence.
        * exists t, d, v. split; [apply at_same|exact Hv].
      + intros k v H. destruct (I3 k v H) as [T|(e & E & Q)]; [left; exact T|right; exists e; split; [apply in_or_app; now left|exact Q]].
    - change (given [Begin t None]) with (@nil (@doc V)). rewrite app_nil_r. split; [exact I1|]. split; [intros k Hk; apply W in Hk as [Hk _]; exact (I2 k Hk)|]. split; [exact I3|exact I4].
    - change (given [Round t]) with (@nil (@doc V)). rewrite app_nil_r. destruct (I1 t d N) as (D & e & E & Q). assert (Kv : In (k, v) d) by (apply (mget_in beqb beqb_ok); auto). split; [|split; [|split; [|now apply (mset_nodup beqb beqb_ok)]]].
      + intros u d' H. apply at_some in H as [[-> ->]|[Hu H]]; [|exact (I1 u d' H)]. split; [now apply (mdel_nodup beqb)|]. exists e. split; [exact E|]. intros x Hx. apply Q. eapply (mdel_in beqb); eauto.
      + intros k' Hk. apply W in Hk as [Hk _]. destruct (list_eq_dec ascii_dec k k') as [<-|Nk].
        * left. exists e, v. split; [exact E|]. split; [now apply Q|]. apply (mget_mset_eq beqb beqb_ok).
        * rewrite (mget_mset_ne beqb beqb_ok) by exact Nk. destruct (I2 k' Hk) as [T|[C U]]; [left; exact T|right; split; [exact C|]]. intros f w Hf Hw. destruct (U f w Hf Hw) as (u & d' & v' & L & X).
          destruct (Nat.eq_dec u t) as [->|Nu]; [|exists u, d', v'; split; [now rewrite at_other|exact X]]. assert (d' = d) by congruence. subst d'. exists t, (mdel beqb d k), v'. split; [apply at_same|].
          apply (mget_in beqb beqb_ok); [now apply (mdel_nodup beqb)|]. rewrite (mget_mdel_ne beqb beqb_ok) by exact Nk. now apply (mget_in beqb beqb_ok).
      + intros k' w H. destruct (list_eq_dec ascii_dec k k') as [<-|Nk]; [|rewrite (mget_mset_ne beqb beqb_ok) in H by exact Nk; exact (I3 k' w H)].
        rewrite (mget_mset_eq beqb beqb_ok) in H. injection H as <-. right. exists e. split; [exact E|now apply Q].
    - change (given [Return t]) with (@nil (@doc V)). rewrite app_nil_r. split; [|split; [|split; [exact I3|exact I4]]].
      + intros u d' H. unfold at_ in H. destruct (Nat.eqb u t); [discriminate|exact (I1 u d' H)].
      + intros k Hk. apply W in Hk as [Hk _]. destruct (I2 k Hk) as [T|[C U]]; [left; exact T|right; split; [exact C|]]. intros f w Hf Hw. destruct (U f w Hf Hw) as (u & d' & v' & L & X). exists u, d', v'. split; [|exact X]. rewrite at_other; [exact L|].
        intros ->. assert (d' = []) by congruence. subst d'. destruct X.
    - change (given [Store k v]) with [[(k, v)]]. split; [|split; [|split; [|now apply (mset_nodup beqb beqb_ok)]]].
      + intros u d' H. destruct (I1 u d' H) as (A & e & E & Q). split; [exact A|]. exists e. split; [apply in_or_app; now left|exact Q].
      + intros k' Hk. apply W in Hk as [Hk _]. destruct (list_eq_dec ascii_dec k k') as [<-|Nk].
        * left. exists [(k, v)], v. split; [apply in_or_app; right; now left|]. split; [now left|]. apply (mget_mset_eq beqb beqb_ok).
        * rewrite (mget_mset_ne beqb beqb_ok) by exact Nk. destruct (I2 k' Hk) as [(e & w & E & Q & C)|[C U]]; [left; exists e, w; split; [apply in_or_app; now left|auto]|right; split; [exact C|]].
          intros f w Hf Hw. apply in_app_or in Hf as [Hf|[<-|[]]]; [exact (U f w Hf Hw)|]. destruct Hw as [Hw|[]]. congruence.
      + intros k' w H. destruct (list_eq_dec ascii_dec k k') as [<-|Nk].
        * rewrite (mget_mset_eq beqb beqb_ok) in H. injection H as <-. right. exists [(k, v)]. split; [apply in_or_app; right; now left|now left].
        * rewrite (mget_mset_ne beqb beqb_ok) in H by exact Nk. destruct (I3 k' w H) as [T|(e & E & Q)]; [left; exact T|right; exists e; split; [apply in_or_app; now left|exact Q]].
    - change (given [Delete k]) with (@nil (@doc V)). rewrite app_nil_r. split; [exact I1|]. split; [|split; [|now apply (mdel_nodup beqb)]].
      + intros k' Hk. apply W in Hk as [Hk Ne]. rewrite (mget_mdel_ne beqb beqb_ok) by congruence. exact (I2 k' Hk).
      + intros k' w H. destruct (list_eq_dec ascii_dec k k') as [<-|Nk]; [rewrite (mget_mdel_eq beqb beqb_ok) in H by exact I4; discriminate|]. rewrite (mget_mdel_ne beqb beqb_ok) in H by exact Nk. exact (I3 k' w H).
    - change (given [Load k (get (content s) k)]) with (@nil (@doc V)). rewrite app_nil_r. split; [exact I1|]. split; [intros k' Hk; apply W in Hk as [Hk _]; exact (I2 k' Hk)|]. split; [exact I3|exact I4].
  Qed.
End P.

(* C161, what holds: once all calls have returned, a key that is in a document and was not deleted meanwhile has the value that one of the documents has for it, all other keys that were not deleted are as
   they were, and documents that could not be read have changed nothing (they are not among those given). *)
Theorem C161_partial : forall (V : Type) (m0 : doc) (l : list (event V)) s, NoDup (map fst m0) -> run m0 l s -> quiet s -> forall k, ~ In (Delete k) l ->
  (forall d v, In d (given l) -> In (k, v) d -> exists d' v', In d' (given l) /\ In (k, v') d' /\ mget beqb (content s) k = Some v') /\
  ((forall d v, In d (given l) -> ~ In (k, v) d) -> mget beqb (content s) k = mget beqb m0 k).
Proof.
  intros V m0 l s N0 R Q k Hk. destruct (inv_run m0 l s N0 R) as (_ & I2 & _). split.
  - intros d v Hd Hv. destruct (I2 k Hk) as [(d' & v' & T)|[_ U]]; [eauto|]. destruct (U d v Hd Hv) as (t & d' & v' & L & _). rewrite (Q t) in L. discriminate.
  - intros N. destruct (I2 k Hk) as [(d' & v' & A & C & _)|[C _]]; [|exact C]. destruct (N d' v' A C).
Qed.
Print Assumptions C161_partial.
(* C161: if the documents agree where they share keys, in particular if there is one only, the map then has all that is in them, as after merging them one after the other in whatever order. *)
Theorem C161_agree : forall (V : Type) (m0 : doc) (l : list (event V)) s, NoDup (map fst m0) -> run m0 l s -> quiet s -> agree (given l) ->
  forall d k v, In d (given l) -> In (k, v) d -> ~ In (Delete k) l -> mget beqb (content s) k = Some v.
Proof. intros V m0 l s N0 R Q A d k v Hd Hv Hk. destruct (proj1 (C161_partial V m0 l s N0 R Q k Hk) d v Hd Hv) as (d' & v' & D & W & ->). f_equal. exact (A d' d k v' v D Hd W Hv). Qed.
Print Assumptions C161_agree.
(* C161: while calls run, nothing else can be seen than values from before and from the documents that calls have begun with. *)
Theorem C161_seen : forall (V : Type) (m0 : doc) (l : list (event V)) s k v, NoDup (map fst m0) -> run m0 l s -> In (Load k (Some v)) l -> mget beqb m0 k = Some v \/ exists d, In d (given l) /\ In (k, v) d.
Proof.
  intros V m0 l s k v N0 R. induction R as [|l s t d R IH N D|l s t R IH N|l s t d k' v' R IH N G|l s t R IH N|l s k' v' R IH|l s k' R IH|l s k' R IH]; intros H; [destruct H|..];
    rewrite given_app; (apply in_app_or in H as [H|[H|[]]]; [destruct (IH H) as [T|(e & E & Q)]; [left; exact T|right; exists e; split; [apply in_or_app; now left|exact Q]]|]); try discriminate.
  injection H as -> H. destruct (inv_run m0 l s N0 R) as (_ & _ & I3 & _). destruct (I3 k v H) as [T|(e & E & Q)]; [left; exact T|right; exists e; split; [apply in_or_app; now left|exact Q]].
Qed.
Print Assumptions C161_seen.

(* C161: a key that was deleted and that is in none of the documents is gone, and stays so. *)
Theorem C161_deleted : forall (V : Type) (m0 : doc) (l : list (event V)) s k, NoDup (map fst m0) -> run m0 l s -> In (Delete k) l -> (forall d v, In d (given l) -> ~ In (k, v) d) -> mget beqb (content s) k = None.
Proof.
  intros V m0 l s k N0 R. induction R as [|l s t d R IH N D|l s t R IH N|l s t d k' v' R IH N G|l s t R IH N|l s k' v' R IH|l s k' R IH|l s k' R IH]; intros H U; [destruct H|..];
    assert (U' : forall d v, In d (given l) -> ~ In (k, v) d) by (intros e w E; apply (U e w); rewrite given_app; apply in_or_app; now left);
    apply in_app_or in H as [H|[H|[]]]; try discriminate; cbn [content]; try exact (IH H U').
  - destruct (inv_run m0 l s N0 R) as (I1 & _). destruct (I1 t d N) as (D & e & E & Q). rewrite (mget_mset_ne beqb beqb_ok); [exact (IH H U')|]. intros ->. apply (U' e v' E), Q. now apply (mget_in beqb beqb_ok).
  - rewrite (mget_mset_ne beqb beqb_ok); [exact (IH H U')|]. intros ->. apply (U [(k, v')] v'); [rewrite given_app; apply in_or_app; right; now left|now left].
  - destruct (inv_run m0 l s N0 R) as (_ & _ & _ & I4). destruct (list_eq_dec ascii_dec k' k) as [->|Nk]; [now apply (mget_mdel_eq beqb beqb_ok)|rewrite (mget_mdel_ne beqb beqb_ok) by exact Nk; exact (IH H U')].
  - injection H as ->. destruct (inv_run m0 l s N0 R) as (_ & _ & _ & I4). now apply (mget_mdel_eq beqb beqb_ok).
Qed.
Print Assumptions C161_deleted.
Example C161_deleted_ex : exists s, run [(B "z", 0); (B "y", 7)] [Begin 1 (Some [(B "a", 1)]); Delete (B "z"); Round 1; Return 1] s /\ quiet s /\ content s = [(B "y", 7); (B "a", 1)].
Proof.
  eexists. split; [|split].
  - change [Begin 1 (Some [(B "a", 1)]); Delete (B "z"); Round 1; Return 1] with ((((@nil (event nat) ++ [Begin 1 (Some [(B "a", 1)])]) ++ [Delete (B "z")]) ++ [Round 1]) ++ [Return 1]).
    eapply run_return; [eapply (run_round _ _ _ 1 _ (B "a") 1); [apply run_delete; eapply run_begin; [apply run_start|reflexivity|cbn; constructor; [intros []|constructor]]|reflexivity|reflexivity]|reflexivity].
  - intros [|[|t]]; reflexivity.
  - reflexivity.
Qed.

(* C161, false as stated: two calls at once can leave a mix of both documents, which no order of the two makes. *)
Theorem C161_mixed_refuted : exists (d1 d2 : @doc nat) l s, run [] l s /\ quiet s /\ given l = [d1; d2] /\
  (forall m, merged [] d1 m -> ~ merged m d2 (content s)) /\ (forall m, merged [] d2 m -> ~ merged m d1 (content s)).
Proof.
  set (d1 := [(B "a", 1); (B "b", 1)]). set (d2 := [(B "a", 2); (B "b", 2)]).
  assert (R : exists s, run [] [Begin 1 (Some d1); Begin 2 (Some d2); Round 1; Round 2; Round 2; Round 1; Return 1; Return 2] s /\ quiet s /\ content s = [(B "a", 2); (B "b", 1)]).
  { assert (D : forall x, NoDup (map fst [(B "a", x); (B "b", x : nat)])) by (intros x; cbn; constructor; [intros [H|[]]; discriminate|constructor; [intros []|constructor]]).
    eexists. split.
    - change [Begin 1 (Some d1); Begin 2 (Some d2); Round 1; Round 2; Round 2; Round 1; Return 1; Return 2] with ((((((((@nil (event nat) ++ [Begin 1 (Some d1)]) ++ [Begin 2 (Some d2)]) ++ [Round 1]) ++ [Round 2]) ++ [Round 2]) ++ [Round 1]) ++ [Return 1]) ++ [Return 2]).
      eapply run_return; [eapply run_return; [eapply (run_round _ _ _ 1 _ (B "b") 1); [eapply (run_round _ _ _ 2 _ (B "b") 2); [eapply (run_round _ _ _ 2 _ (B "a") 2); [eapply (run_round _ _ _ 1 _ (B "a") 1); [eapply run_begin; [eapply run_begin; [apply run_start|reflexivity|apply D]|reflexivity|apply D]|reflexivity|reflexivity]|reflexivity|reflexivity]|reflexivity|reflexivity]|reflexivity|reflexivity]|reflexivity]|reflexivity].
    - split; [intros [|[|[|t]]]; reflexivity|reflexivity]. }
  destruct R as (s & R & Q & C). exists d1, d2. eexists. exists s. split; [exact R|]. split; [exact Q|]. split; [reflexivity|]. rewrite C. split; intros m _ H; [specialize (H (B "b"))|specialize (H (B "a"))]; vm_compute in H; discriminate.
Qed.
Print Assumptions C161_mixed_refuted.
(* C161, false as stated: who reads during a call can get a new value and then an old one. *)
Theorem C161_half_refuted : exists (d m0 : @doc nat) l s, run m0 l s /\ given l = [d] /\ l = [Begin 1 (Some d); Round 1; Load (B "a") (Some 2); Load (B "b") (Some 1); Round 1; Return 1] /\
  mget beqb d (B "a") = Some 2 /\ mget beqb d (B "b") = Some 2 /\ mget beqb m0 (B "a") = Some 1 /\ mget beqb m0 (B "b") = Some 1.
Proof.
  set (d := [(B "a", 2); (B "b", 2)]). set (m0 := [(B "a", 1); (B "b", 1)]). exists d, m0. eexists. eexists. split; [|split; [|split; [reflexivity|repeat split; reflexivity]]]; [|reflexivity].
  change [Begin 1 (Some d); Round 1; Load (B "a") (Some 2); Load (B "b") (Some 1); Round 1; Return 1] with ((((((@nil (event nat) ++ [Begin 1 (Some d)]) ++ [Round 1]) ++ [Load (B "a") (Some 2)]) ++ [Load (B "b") (Some 1)]) ++ [Round 1]) ++ [Return 1]).
  set (s := State (V := nat) [(B "a", 2); (B "b", 1)] (at_ (at_ (fun _ => None) 1 (Some d)) 1 (Some [(B "b", 2)]))).
  assert (R : run m0 (([] ++ [Begin 1 (Some d)]) ++ [Round 1]) s).
  { apply (run_round m0 _ (State m0 (at_ (fun _ => None) 1 (Some d))) 1 d (B "a") 2); [|reflexivity|reflexivity]. apply (run_begin m0 [] (State m0 (fun _ => None))); [apply run_start|reflexivity|].
    cbn. constructor; [intros [H|[]]; discriminate|constructor; [intros []|constructor]]. }
  eapply run_return; [eapply (run_round _ _ s 1 _ (B "b") 2); [exact (run_load m0 _ s (B "b") (run_load m0 _ s (B "a") R))|reflexivity|reflexivity]|reflexivity].
Qed.
Print Assumptions C161_half_refuted.

(* two documents that agree, one that cannot be read, and a Store at once *)
Example C161_ex : NoDup (map fst [(B "z", 0)]) /\ exists s, run [(B "z", 0)] [Begin 1 (Some [(B "a", 1); (B "b", 2)]); Begin 3 None; Begin 2 (Some [(B "a", 1)]); Round 1; Store (B "c") 3; Round 2; Round 1; Return 2; Return 1] s /\
  quiet s /\ content s = [(B "z", 0); (B "b", 2); (B "c", 3); (B "a", 1)] /\ agree (given [Begin 1 (Some [(B "a", 1); (B "b", 2)]); Begin 3 None; Begin 2 (Some [(B "a", 1)]); Round 1; Store (B "c") 3]).
Proof.
  split; [repeat constructor; intros []|]. eexists. split; [|split; [|split]].
  - change [Begin 1 (Some [(B "a", 1); (B "b", 2)]); Begin 3 None; Begin 2 (Some [(B "a", 1)]); Round 1; Store (B "c") 3; Round 2; Round 1; Return 2; Return 1] with
      (((((((((@nil (event nat) ++ [Begin 1 (Some [(B "a", 1); (B "b", 2)])]) ++ [Begin 3 None]) ++ [Begin 2 (Some [(B "a", 1)])]) ++ [Round 1]) ++ [Store (B "c") 3]) ++ [Round 2]) ++ [Round 1]) ++ [Return 2]) ++ [Return 1]).
    eapply run_return; [eapply run_return; [eapply (run_round _ _ _ 1 _ (B "a") 1); [eapply (run_round _ _ _ 2 _ (B "a") 1); [apply run_store; eapply (run_round _ _ _ 1 _ (B "b") 2); [eapply run_begin; [apply run_fail; [eapply run_begin; [apply run_start|reflexivity|]|reflexivity]|reflexivity|]|reflexivity|reflexivity]|reflexivity|reflexivity]|reflexivity|reflexivity]|reflexivity]|reflexivity].
    + cbn. constructor; [intros [H|[]]; discriminate|constructor; [intros []|constructor]].
    + cbn. constructor; [intros []|constructor].
  - intros [|[|[|[|t]]]]; reflexivity.
  - reflexivity.
  - intros d d' k v v' H1 H2 H3 H4. cbn [given flat_map app] in H1, H2. destruct H1 as [<-|[<-|[<-|[]]]]; destruct H2 as [<-|[<-|[<-|[]]]]; cbn [In] in H3, H4;
      repeat (match goal with H : _ \/ _ |- _ => destruct H | H : False |- _ => destruct H | H : (_, _) = (_, _) |- _ => injection H; clear H; intros; subst end); auto; discriminate.
Qed.
