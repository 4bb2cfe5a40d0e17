(* C148: the example service and several clients. *)
From Coq Require Import Bool Ascii String Arith NArith ZArith Lia List.
From Verif Require Import Prelude PreludeFacts DurModel DurProofs EncModel FlModel ExModel ExSpec ExProps.
Import ListNotations.

Lemma runs_snoc c : forall cs s, runs s (cs ++ [c]) = (fst (runs s cs) ++ [fst (do (snd (runs s cs)) c)], snd (do (snd (runs s cs)) c)).
Proof.
  induction cs as [|d cs IH]; intros s; cbn [app runs].
  - cbn [fst snd app]. destruct (do s c) as [a s1]. reflexivity.
  - destruct (do s d) as [a s1]. rewrite IH. destruct (runs s1 cs) as [l s2]. reflexivity.
Qed.
Definition inv (s : store) (w : world) : Prop :=
  runs s (map fst (w_log w)) = (map snd (w_log w), w_map w) /\
  (forall i j, i <> j -> idle (w_req w i) \/ idle (w_req w j)) /\
  (forall i k v p, w_req w i = Between k v p \/ w_req w i = Writing k v p -> p = look (w_map w) k).
Lemma inv_step s i w w' : inv s w -> step i w w' -> (forall j, j <> i -> idle (w_req w j)) -> inv s w'.
Proof.
  intros (H1 & H2 & H3) St Ho. assert (X : forall p w0, w_map w0 = w_map w -> w_log w0 = w_log w -> w_req w0 = (fun j => if Nat.eqb j i then p else w_req w j) ->
    (forall k v q, p = Between k v q \/ p = Writing k v q -> q = look (w_map w) k) -> inv s w0).
  { intros p w0 E1 E2 E3 Hp. unfold inv. rewrite E1, E2, E3. split; [exact H1|]. split.
    - intros a b Hab. destruct (Nat.eqb_spec a i) as [->|Ha]; [|left; auto]. destruct (Nat.eqb_spec b i) as [->|Hb]; [congruence|right; auto].
    - intros a k v q. destruct (Nat.eqb_spec a i); [apply Hp|apply H3]. }
  assert (Y : forall c a m, do (w_map w) c = (a, m) -> inv s (end_ (World m (w_req w) (w_log w)) i c a)).
  { intros c a m E. unfold inv, end_. cbn [w_map w_req w_log]. rewrite !map_app. cbn [map fst snd]. rewrite runs_snoc, H1. cbn [fst snd]. rewrite E. split; [reflexivity|]. split.
    - intros x y Hxy. destruct (Nat.eqb_spec x i); [left; exact Logic.I|left; auto].
    - intros x k v q. destruct (Nat.eqb_spec x i) as [|Hx]; [intros [Q|Q]; discriminate|]. intros Q. exfalso. pose proof (Ho x Hx) as Hi. destruct Q as [Q|Q]; rewrite Q in Hi; exact Hi. }
  destruct St as [i w c E|i w k E|i w k v E|i w k v p E|i w k v p E].
  - apply (X (Reading c)); try reflexivity. intros k v q [Q|Q]; discriminate.
  - apply (Y (Get k) (look (w_map w) k) (w_map w)). reflexivity.
  - apply (X (Between k v (look (w_map w) k))); try reflexivity. intros k0 v0 q [[= -> -> <-]|Q]; [reflexivity|discriminate].
  - apply (X (Writing k v p)); try reflexivity. intros k0 v0 q [Q|[= -> -> ->]]; [discriminate|]. now apply (H3 i k0 v0 q); left.
  - apply Y. cbn [do]. f_equal. symmetry. apply (H3 i k v p). now right.
Qed.
(* Requests that do not overlap: each returns what it returns when they are made one after the other, in the order in which they end; the map is never
   written and used at once. *)
Theorem C148_partial : forall (s : store) (cs : nat -> call) (w : world), serial (start s cs) w ->
  ~ clash w /\ map snd (w_log w) = fst (runs s (map fst (w_log w))) /\ w_map w = snd (runs s (map fst (w_log w))).
Proof.
  intros s cs w H. assert (I0 : inv s w).
  { remember (start s cs) as w0 eqn:E. induction H as [w|w w1 i w2 H IH St Ho]; [|exact (inv_step s i w1 w2 (IH E) St Ho)]. subst. unfold inv, start. cbn [w_log w_map w_req map runs].
    split; [reflexivity|]. split; [left; exact Logic.I|]. intros i k v p [Q|Q]; discriminate. }
  destruct I0 as (H1 & H2 & _). split; [|rewrite H1; auto]. intros (i & j & Hij & (k & v & p & Ei) & Hj). destruct (H2 i j Hij) as [X|X]; [now rewrite Ei in X|]. destruct Hj as [(k' & v' & p' & Ej)|(c & Ej)]; now rewrite Ej in X.
Qed.
(* Requests that overlap: of any two that store under one key, both may be told the same previous value, which neither order gives; and the map may be
   written by both at once. *)
Theorem C148_refuted : forall (s : store) (k : bytes) (v1 v2 : gany) (cs : nat -> call), cs 0 = Set_ k v1 -> cs 1 = Set_ k v2 -> v1 <> look s k -> v2 <> look s k ->
  (exists w, steps (start s cs) w /\ w_log w = [(cs 0, look s k); (cs 1, look s k)] /\
    fst (runs s [cs 0; cs 1]) <> [look s k; look s k] /\ fst (runs s [cs 1; cs 0]) <> [look s k; look s k]) /\
  exists w, steps (start s cs) w /\ clash w.
Proof.
  intros s k v1 v2 cs C0 C1 N1 N2.
  pose proof (here (start s cs)) as H0.
  assert (A : steps (start s cs) (put (put (put (put (start s cs) 0 (Reading (Set_ k v1))) 1 (Reading (Set_ k v2))) 0 (Between k v1 (look s k))) 1 (Between k v2 (look s k)))).
  { assert (T0 : w_req (start s cs) 0 = Todo (Set_ k v1)) by (cbn; now rewrite C0). pose proof (more _ _ 0 _ H0 (s_begin 0 _ _ T0)) as A1.
    assert (T1 : w_req (put (start s cs) 0 (Reading (Set_ k v1))) 1 = Todo (Set_ k v2)) by (cbn; now rewrite C1). pose proof (more _ _ 1 _ A1 (s_begin 1 _ _ T1)) as A2.
    pose proof (more _ _ 0 _ A2 (s_prev 0 (put (put (start s cs) 0 (Reading (Set_ k v1))) 1 (Reading (Set_ k v2))) k v1 eq_refl)) as A3.
    exact (more _ _ 1 _ A3 (s_prev 1 (put (put (put (start s cs) 0 (Reading (Set_ k v1))) 1 (Reading (Set_ k v2))) 0 (Between k v1 (look s k))) k v2 eq_refl)). }
  set (w4 := put (put (put (put _ _ _) _ _) _ _) _ _) in A. set (w5 := put w4 0 (Writing k v1 (look s k))). assert (A5 : steps (start s cs) w5) by exact (more _ _ 0 _ A (s_write 0 w4 k v1 (look s k) eq_refl)).
  split.
  - set (w6 := end_ (World (mset beqb (w_map w5) k v1) (w_req w5) (w_log w5)) 0 (Set_ k v1) (look s k)). assert (A6 : steps (start s cs) w6) by exact (more _ _ 0 _ A5 (s_set 0 w5 k v1 (look s k) eq_refl)).
    set (w7 := put w6 1 (Writing k v2 (look s k))). assert (A7 : steps (start s cs) w7) by exact (more _ _ 1 _ A6 (s_write 1 w6 k v2 (look s k) eq_refl)).
    set (w8 := end_ (World (mset beqb (w_map w7) k v2) (w_req w7) (w_log w7)) 1 (Set_ k v2) (look s k)). assert (A8 : steps (start s cs) w8) by exact (more _ _ 1 _ A7 (s_set 1 w7 k v2 (look s k) eq_refl)).
    exists w8. split; [exact A8|]. rewrite C0, C1. split; [reflexivity|]. cbn [runs do fst]. rewrite !look_set, !beqb_refl. split; congruence.
  - set (w6 := put w5 1 (Writing k v2 (look s k))). exists w6. split; [exact (more _ _ 1 _ A5 (s_write 1 w5 k v2 (look s k) eq_refl))|].
    exists 0, 1. split; [discriminate|]. split; [exists k, v1, (look s k); reflexivity|]. left. exists k, v2, (look s k). reflexivity.
Qed.
Print Assumptions C148_partial.
Print Assumptions C148_refuted.

Example C148_ex : let s := [(B "true", ABool true)] in let cs := fun i => if Nat.eqb i 0 then Set_ (B "k") (AText (B "a")) else Get (B "k") in
  exists w, serial (start s cs) w /\ w_log w = [(cs 0, ANil); (cs 1, AText (B "a"))] /\ ANil = look s (B "k") /\ AText (B "a") <> look s (B "k").
Proof.
  intros s cs. set (k := B "k"). set (v := AText (B "a")).
  set (w1 := put (start s cs) 0 (Reading (Set_ k v))). set (w2 := put w1 0 (Between k v ANil)). set (w3 := put w2 0 (Writing k v ANil)).
  set (w4 := end_ (World (mset beqb (w_map w3) k v) (w_req w3) (w_log w3)) 0 (Set_ k v) ANil). set (w5 := put w4 1 (Reading (Get k))).
  assert (T : forall (f : nat -> place) p, (forall j, j <> 0 -> f j = Todo (cs j)) -> forall j, j <> 0 -> (fun j => if Nat.eqb j 0 then p else f j) j = Todo (cs j)).
  { intros f p Hf j Hj. cbv beta. destruct (Nat.eqb_spec j 0); [congruence|auto]. }
  assert (R0 : forall j, j <> 0 -> w_req (start s cs) j = Todo (cs j)) by reflexivity.
  assert (R1 : forall j, j <> 0 -> w_req w1 j = Todo (cs j)) by (apply T; exact R0). assert (R2 : forall j, j <> 0 -> w_req w2 j = Todo (cs j)) by (apply T; exact R1).
  assert (R3 : forall j, j <> 0 -> w_req w3 j = Todo (cs j)) by (apply T; exact R2). assert (R4 : forall j, j <> 0 -> w_req w4 j = Todo (cs j)) by (apply T; exact R3).
  assert (Id : forall w, (forall j, j <> 0 -> w_req w j = Todo (cs j)) -> forall j, j <> 0 -> idle (w_req w j)) by (intros w Hw j Hj; rewrite Hw by exact Hj; exact Logic.I).
  assert (Id4 : forall j, j <> 1 -> idle (w_req w4 j)). { intros [|j] Hj; [exact Logic.I|]. apply (Id w4 R4). discriminate. }
  assert (Id5 : forall j, j <> 1 -> idle (w_req w5 j)). { intros j Hj. unfold w5, put. cbn [w_req]. destruct (Nat.eqb_spec j 1); [congruence|now apply Id4]. }
  assert (A1 : serial (start s cs) w1) by exact (s_more _ _ 0 _ (s_here _) (s_begin 0 (start s cs) (Set_ k v) eq_refl) (Id _ R0)).
  assert (A2 : serial (start s cs) w2) by exact (s_more _ _ 0 _ A1 (s_prev 0 w1 k v eq_refl) (Id _ R1)).
  assert (A3 : serial (start s cs) w3) by exact (s_more _ _ 0 _ A2 (s_write 0 w2 k v ANil eq_refl) (Id _ R2)).
  assert (A4 : serial (start s cs) w4) by exact (s_more _ _ 0 _ A3 (s_set 0 w3 k v ANil eq_refl) (Id _ R3)).
  assert (A5 : serial (start s cs) w5) by exact (s_more _ _ 1 _ A4 (s_begin 1 w4 (Get k) eq_refl) Id4).
  eexists. split; [exact (s_more _ _ 1 _ A5 (s_got 1 w5 k eq_refl) Id5)|]. split; [reflexivity|]. split; [reflexivity|discriminate].
Qed.
