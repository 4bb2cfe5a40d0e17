(* C123: unknown fields are reported to UnhandledFields. *)
From Coq Require Import Bool Ascii String Arith NArith ZArith List Lia.
From Verif Require Import Prelude PreludeFacts Utf8Model DecModel DurModel DurProofs EncModel JsonModel JsonSpec MarModel MarSpec MarFacts UfModel UfSpec UfProofs UfEnum.
Import ListNotations.

(* Whatever append does to the arrays (grow): if Unmarshal succeeds, UnhandledFields was called once for each unknown field at any depth,
   saw the path to it and got its node, and refused none.  Full statement: for all nodes; proved for those without the key "" (C34). *)
Theorem C123_reported_partial : forall grow f2i f2u g t n old r cs h,
  tags_ok t -> fields_distinct t -> distinct_keys n -> no_empty n -> hasty t old -> mUnmarshal grow f2i f2u (Some g) t n old = (UOk r, cs, h) ->
  exists L : list (list step * bytes * node), NoDup (map fst L) /\ (forall s k x, In (s, k, x) L <-> Unknown t n s k x) /\
    map (fun c => (m_seen c, m_node c)) cs = map (fun e => (path_to (fst (fst e)) (snd (fst e)), snd e)) L /\
    forall c, In c cs -> g (m_seen c) (m_node c) = false.
Proof.
  intros grow f2i f2u g t n old r cs h TO FD DK NE HT H. unfold mUnmarshal in H. destruct (append grow [[]] (Sl 0 0) PRoot) as [h0 p] eqn:E.
  destruct (start_ok grow h0 p E) as (K & R & _). pose proof (munm_ok grow f2i f2u (Some g) t p n old h0 K) as Q. unfold refines in Q. rewrite H in Q. destruct Q as [Q _]. rewrite R in Q.
  destruct (all_enum f2i f2u g t TO FD [PRoot] n old r _ DK NE (shaped_hasty t old HT) Q) as (L & [N I] & EL). exists L. split; [exact N|]. split; [exact I|]. split.
  - transitivity (map strip cs); [apply map_ext; intros c; reflexivity|]. rewrite EL. apply map_ext. intros [[s k] x]. reflexivity.
  - intros c J. apply (accepted f2i f2u g _ _ _ _ _ _ Q (strip c)). apply in_map. exact J.
Qed.
Print Assumptions C123_reported_partial.
(* If the type holds no maps, the path tells where the field is. *)
Theorem C123_where_partial : forall t n s k x s' k' x', no_maps t -> Unknown t n s k x -> Unknown t n s' k' x' -> path_to s k = path_to s' k' -> s = s' /\ k = k'.
Proof.
  assert (NM : forall t n s k x, Unknown t n s k x -> no_maps t -> forall a, In a s -> match a with SEntry _ => False | _ => True end).
  { intros t n s k x U. induction U as [fs n m k x H|fs n m f t name o y s k x H HI HT HM U IH|t n s k x U IH|t l i y s k x H U IH|t j l i y s k x H U IH|t j n m w y s k x H HI U IH]; intros N a J; cbn [no_maps] in N.
    - destruct J.
    - destruct J as [<-|J]; [exact I|]. apply (IH); [|exact J]. clear - N HI. induction fs as [|e fs IHf]; [destruct HI|]. destruct N as [N1 N2]. destruct HI as [->|HI]; [exact N1|exact (IHf HI N2)].
    - exact (IH N a J).
    - destruct J as [<-|J]; [exact I|exact (IH N a J)].
    - destruct J as [<-|J]; [exact I|exact (IH N a J)].
    - destruct N. }
  intros t n s k x s' k' x' N U U' E. unfold path_to in E. apply app_inv_head in E. apply app_inj_tail in E. destruct E as [E Ek]. injection Ek as <-. split; [|reflexivity].
  pose proof (NM _ _ _ _ _ U N) as A. pose proof (NM _ _ _ _ _ U' N) as A'. clear - E A A'. revert s' E A'. induction s as [|a s IH]; intros [|b s'] E A'; try discriminate; [reflexivity|].
  cbn in E. injection E as E1 E2. f_equal; [|apply IH; [intros c J; apply A; right; exact J|exact E2|intros c J; apply A'; right; exact J]].
  pose proof (A a (or_introl eq_refl)). pose proof (A' b (or_introl eq_refl)). destruct a, b; try contradiction; try discriminate; injection E1 as ->; reflexivity.
Qed.
Print Assumptions C123_where_partial.
(* With a map it does not: unknown fields of different entries have the same path. *)
Theorem C123_where_refuted : exists t n k x x', let s := [SEntry (B "a")] in let s' := [SEntry (B "b")] in
  tags_ok t /\ Unknown t n s k x /\ Unknown t n s' k x' /\ s <> s' /\ path_to s k = path_to s' k /\
  forall grow f2i f2u, exists r cs h, mUnmarshal grow f2i f2u (Some (fun _ _ => false)) t n VNil = (UOk r, cs, h) /\ map m_seen cs = [path_to s k; path_to s k].
Proof.
  exists (TMap KTStr (TStruct [])), (NMap [(B "a", NMap [(B "zz", NInt 1)]); (B "b", NMap [(B "zz", NInt 2)])]), (B "zz"), (NInt 1), (NInt 2). cbv zeta.
  split; [exact I|]. split.
  { eapply u_entry; [left; reflexivity|left; reflexivity|]. eapply u_here; [left; reflexivity|left; reflexivity|]. intros f t o []. }
  split.
  { eapply u_entry; [left; reflexivity|right; left; reflexivity|]. eapply u_here; [left; reflexivity|left; reflexivity|]. intros f t o []. }
  split; [discriminate|]. split; [reflexivity|]. intros grow f2i f2u. set (t := TMap KTStr (TStruct [])). set (n := NMap _). 
  pose proof (fun h0 p E => munm_ok grow f2i f2u (Some (fun _ _ => false)) t p n VNil h0 (proj1 (start_ok grow h0 p E))) as Q. unfold mUnmarshal.
  destruct (append grow [[]] (Sl 0 0) PRoot) as [h0 p] eqn:E. specialize (Q h0 p eq_refl). destruct (start_ok grow h0 p E) as (_ & R & _). rewrite R in Q. unfold refines in Q.
  destruct (munm grow f2i f2u (Some (fun _ _ => false)) t p n VNil h0) as [[u cs] h]. destruct Q as [Q _]. cbn in Q. injection Q as <- Q. eexists. exists cs, h. split; [reflexivity|].
  transitivity (map fst (map strip cs)); [rewrite map_map; reflexivity|]. rewrite <- Q. reflexivity.
Qed.
Print Assumptions C123_where_refuted.
(* The slice that the function gets is no copy.  It stays as it is to the end of Unmarshal if it has 2, 3, 5, 9, ... elements: *)
Theorem C123_kept_partial : forall f2i f2u uf t n old u cs h c i, mUnmarshal double f2i f2u uf t n old = (u, cs, h) -> In c cs ->
  length (m_seen c) = S (2 ^ i) -> read h (m_path c) = m_seen c.
Proof.
  intros f2i f2u uf t n old u cs h c i H J L. unfold mUnmarshal in H. destruct (append double [[]] (Sl 0 0) PRoot) as [h0 p] eqn:E.
  destruct (start_ok double h0 p E) as (K & R & _). pose proof (munm_ok double f2i f2u uf t p n old h0 K) as Q. unfold refines in Q. rewrite H in Q. destruct Q as [_ [_ G]].
  apply G; [exact J|]. exists (2 ^ i). split; [exact L|]. apply capof_pow.
Qed.
Print Assumptions C123_kept_partial.
(* but else the next call for the same struct writes over it: here for all keys and nodes. *)
Theorem C123_kept_refuted : exists t, tags_ok t /\ forall f2i f2u k k' x x', k <> k' ->
  exists r c c' h, mUnmarshal double f2i f2u (Some (fun _ _ => false)) t (NMap [(B "a", NMap [(B "b", NMap [(k, x); (k', x')])])]) (zero t) = (UOk r, [c; c'], h) /\
    m_seen c = path_to [SField (B "A"); SField (B "B")] k /\ m_node c = x /\ read h (m_path c) = path_to [SField (B "A"); SField (B "B")] k'.
Proof.
  assert (T : forall s, f_tag (Fld s true (B "a")) = B "a") by reflexivity.
  exists (TStruct [(Fld (B "A") true (B "a"), TStruct [(Fld (B "B") true (B "b"), TStruct [])])]). split.
  - cbn [tags_ok fold_right fst snd]. split; [right; exists (B "a"), false; apply tagged_vis; reflexivity|]. split; [|exact I]. split; [right; exists (B "b"), false; apply tagged_vis; reflexivity|]. split; exact I.
  - intros f2i f2u k k' x x' N. eexists. eexists. eexists. eexists. split; [reflexivity|]. split; [reflexivity|]. split; reflexivity.
Qed.
Print Assumptions C123_kept_refuted.
Example C123_ex : let t := TStruct [(Fld (B "A") true (B "a"), TSlice (TStruct [(Fld (B "N") true [], TInt W64)]))] in
  let n := NMap [(B "zz", NInt 1); (B "a", NList [NMap [(B "N", NInt 7)]; NMap [(B "M", NInt 8)]])] in
  tags_ok t /\ fields_distinct t /\ distinct_keys n /\ no_empty n /\ no_maps t /\ hasty t (zero t) /\ Unknown t n [SField (B "A"); SElem 1] (B "M") (NInt 8) /\
  exists cs h, mUnmarshal double (fun _ => 0%Z) (fun _ => 0%Z) (Some (fun _ _ => false)) t n (zero t) =
    (UOk (VStruct [VList [VStruct [VNum 7]; VStruct [VNum 0]]]), cs, h) /\ map m_seen cs = [path_to [SField (B "A"); SElem 1] (B "M"); path_to [] (B "zz")] /\ map m_node cs = [NInt 8; NInt 1] /\
    map (fun c => read h (m_path c)) cs = map m_seen cs.
Proof.
  cbv zeta. split.
  { cbn [tags_ok fold_right fst snd]. split; [right; exists (B "a"), false; apply tagged_vis; reflexivity|]. split; [|exact I]. split; [right; exists (B "N"), false; apply tagged_vis; reflexivity|]. split; exact I. }
  split.
  { cbn [fields_distinct fold_right snd]. split; [intros [|[|i]] [|[|j]] f g t u E1 E2; try discriminate; reflexivity|]. split; [|exact I]. split; [|split; exact I]. intros [|[|i]] [|[|j]] f g t u E1 E2; try discriminate; reflexivity. }
  split. { cbn. repeat split; repeat constructor; cbn; try tauto; intros [H|[]]; discriminate. }
  split. { cbn. repeat split; discriminate. }
  split. { cbn. tauto. } split. { cbn. tauto. }
  split.
  { eapply (u_field _ _ _ (Fld (B "A") true (B "a")) _ (B "a") false); [left; reflexivity|left; reflexivity|apply tagged_vis; reflexivity|right; left; reflexivity|].
    eapply u_slice; [reflexivity|]. eapply u_here; [left; reflexivity|left; reflexivity|]. intros f t o [H|[]] T. injection H as <- <-. apply tagged_vis in T. discriminate. }
  eexists. eexists. split; [reflexivity|]. repeat split; reflexivity.
Qed.
