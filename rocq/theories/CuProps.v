(* C124-C126: types with methods of their own. *)
From Coq Require Import Bool Ascii String Arith NArith ZArith Lia List Sorted Permutation.
From Verif Require KvSpec.
From Verif Require Import Prelude PreludeFacts Utf8Model DecModel DurModel DurProofs EncModel JsonModel JsonSpec MarModel MarSpec MarFacts MarProofs MarOrder CuModel CuSpec CuProofs.
Import ListNotations.

(* ---- C124 ---- *)
(* Where methods are declared for values, or types occur behind pointers: Marshal succeeds exactly with what the methods write.
   Full statement: for all types. *)
Theorem C124_partial : forall decls run_node run_json t v n, chas t v -> by_value decls run_node run_json t ->
  (cmar decls run_node run_json t v = MOk n <-> Writes decls run_node run_json t v n /\ no_nil decls run_node run_json t v).
Proof.
  intros decls rn rj t v n HT BV. pose proof (both decls rn rj t v n HT BV) as [S1 C1]. split.
  - intros H. pose proof (ok_no_nil decls rn rj t v n HT H). auto.
  - intros [H N]. auto.
Qed.
Print Assumptions C124_partial.
(* A method that is declared for pointers does not write the values that are stored as such, whatever it does. *)
Theorem C124_refuted : forall decls run_node run_json id u v, d_node (decls id) = Some ByPtr -> d_json (decls id) <> Some ByVal ->
  cmar decls run_node run_json (CNamed id u) v = cmar decls run_node run_json u v /\
  forall n, Writes decls run_node run_json (CNamed id u) v n <-> run_node id (Some v) = MOk n.
Proof.
  intros decls rn rj id u v H J. split.
  - rewrite cmar_named. cbn [by_method]. rewrite H. cbn [in_set]. destruct (d_json (decls id)) as [[]|]; cbn [in_set]; try reflexivity. congruence.
  - intros n. split; intros W.
    + inversion W as [| | |id' u' w' r' f' n' W' R E1 E2 E3|id' u' w' n' [P' _] H2 E1 E2 E3| | | | | | | | ]; subst; [|congruence]. inversion W'; subst; [exact R|congruence].
    + apply (w_method _ _ _ id u v ByPtr (rn id) n); [constructor; exact H|exact W].
Qed.
Print Assumptions C124_refuted.
(* So a sync.Map that is a field of a struct is always written as {}. *)
Theorem C124_syncmap_refuted : forall decls run_node run_json id, decls id = smap_decl -> run_node id = smap_node ->
  let t := CStruct [(Fld (B "M") true [], CNamed id smap)] in
  (forall l, cmar decls run_node run_json t (VStruct [smap_val l]) = MOk (NPairs [((B "M", B "M"), NPairs [])])) /\
  (forall s z, Writes decls run_node run_json t (VStruct [smap_val [(KStr s, VNum z)]]) (NPairs [((B "M", B "M"), NMap [(s, NInt z)])])).
Proof.
  intros decls rn rj id D R t. split.
  - intros l. unfold t. rewrite cmar_struct. cbn [map fst snd cmar_fields f_exported]. change (parseTag (Fld (B "M") true [])) with (Ok (Tag (B "M") false false)). cbn [g_skip].
    rewrite (proj1 (C124_refuted decls rn rj id smap (smap_val l) ltac:(rewrite D; reflexivity) ltac:(rewrite D; discriminate))). reflexivity.
  - intros s z. constructor. eapply (f_field _ _ _ (Fld (B "M") true []) _ _ _ _ _ (B "M") false); [apply tagged_vis; reflexivity| |discriminate|constructor].
    apply (w_method _ _ _ id smap _ ByPtr smap_node); [rewrite <- R; constructor; rewrite D; reflexivity|reflexivity].
Qed.
Print Assumptions C124_syncmap_refuted.

(* ---- C125 ---- *)
Theorem C125_partial : forall decls run_node run_json, (forall id w, run_node id w <> MPanic) -> (forall id w, run_json id w <> MPanic) ->
  forall t v, ctags t -> chas t v -> no_nil decls run_node run_json t v -> cmar decls run_node run_json t v <> MPanic.
Proof. exact no_panic. Qed.
Print Assumptions C125_partial.
(* ... and with such a nil it never succeeds. *)
Theorem C125_only : forall decls run_node run_json t v n, chas t v -> cmar decls run_node run_json t v = MOk n -> no_nil decls run_node run_json t v.
Proof. exact ok_no_nil. Qed.
Print Assumptions C125_only.
(* A nil pointer to any type whose method is declared for values makes it panic: here as a field, where null from outside puts it. *)
Theorem C125_refuted : forall decls run_node run_json run_unode run_ujson f2i f2u id f u, writer decls run_node run_json id ByVal f ->
  let t := CStruct [(Fld (B "T") true [], CPtr (CNamed id u))] in
  cunm decls run_unode run_ujson f2i f2u t (NMap [(B "T", NNil)]) (czero t) = UOk (VStruct [VNil]) /\
  cunm decls run_unode run_ujson f2i f2u t (NMap []) (czero t) = UOk (VStruct [VNil]) /\
  cmar decls run_node run_json t (VStruct [VNil]) = MPanic.
Proof.
  intros decls rn rj ru rju f2i f2u id f u W t. split; [reflexivity|]. split; [reflexivity|].
  unfold t. rewrite cmar_struct. cbn [map fst snd cmar_fields f_exported]. change (parseTag (Fld (B "T") true [])) with (Ok (Tag (B "T") false false)). cbn [g_skip].
  rewrite cmar_ptr. rewrite (method_ptr decls rn rj id u ByVal f VNil W). reflexivity.
Qed.
Print Assumptions C125_refuted.

(* A nil pointer to a sync.Map makes it panic too, in the method. *)
Theorem C125_nil_map : forall decls run_node run_json id, decls id = smap_decl -> run_node id = smap_node ->
  cmar decls run_node run_json (CPtr (CNamed id smap)) VNil = MPanic.
Proof. intros decls rn rj id D R. rewrite cmar_ptr. cbn [by_method]. rewrite D. cbn [smap_decl d_node through]. rewrite R. reflexivity. Qed.
Print Assumptions C125_nil_map.

(* ---- C126 ---- *)
Theorem C126_partial : forall decls run_node run_json run_unode run_ujson f2i f2u t v n,
  chas t v -> by_value decls run_node run_json t -> ctags t -> cnames t -> comes_back decls run_node run_json run_unode run_ujson t v ->
  cmar decls run_node run_json t v = MOk n -> cunm decls run_unode run_ujson f2i f2u t n (czero t) = UOk v.
Proof. exact back. Qed.
Print Assumptions C126_partial.

Definition smap_ok (l : list (key * val)) : Prop := hasty (TMap KTStr (TInt W64)) (VMap l).
Lemma smap_inverse f2i f2u l n : smap_ok l -> smap_node (Some (smap_val l)) = MOk n -> smap_unode f2i f2u n (smap_val []) = UOk (smap_val l).
Proof.
  intros HL H. assert (C : content (smap_val l) = l) by (destruct l; reflexivity). unfold smap_node in H. rewrite C in H.
  destruct (round_trip f2i f2u None (TMap KTStr (TInt W64)) (VMap l) I HL) as (n0 & M & R). rewrite M in H. injection H as <-.
  assert (K : keeps (TMap KTStr (TInt W64)) (VMap l)). { cbn [keeps]. apply Forall_forall. intros [k v] _. cbn [fst snd]. destruct k, v; auto. }
  apply (R n0 (KvSpec.ro_same n0)) in K. unfold Unmarshal in K. unfold smap_unode. change (zero (TMap KTStr (TInt W64))) with VNil in K. rewrite K. cbn [fst]. cbn [content smap_val]. f_equal. f_equal.
  destruct HL as [SL _]. destruct (fold_kset l [] ltac:(constructor) (sorted_nodup l SL)) as [S1 P1]. apply kle_unique; [exact S1|apply sorted_kle; exact SL|exact P1].
Qed.
Lemma smap_not_null v n : smap_node (Some v) = MOk n -> n <> NNil.
Proof.
  unfold smap_node. change (mar (TMap KTStr (TInt W64)) (VMap (content v))) with (rbind (mar_entries KTStr (mar (TInt W64)) [] (content v)) (fun m => Ok (NMap m))).
  destruct (mar_entries KTStr (mar (TInt W64)) [] (content v)) as [l|]; cbn [rbind]; intros H; [|discriminate H]. assert (E : n = NMap l) by congruence. rewrite E. discriminate.
Qed.
Lemma smap_has l : smap_ok l -> chas smap (smap_val l).
Proof.
  intros [SL FL]. unfold smap, smap_val. cbn [chas fieldwise]. split; [|exact I]. destruct l as [|e l]; [exact I|]. split; [exact SL|]. eapply Forall_impl; [|exact FL]. intros [k v] [H1 H2]. split; [exact H1|]. cbn [snd] in *. destruct v; exact H2.
Qed.
(* Behind a pointer, a sync.Map comes back with its content. *)
Theorem C126_syncmap : forall decls run_node run_json run_unode run_ujson f2i f2u id l n, decls id = smap_decl -> run_node id = smap_node -> run_unode id = smap_unode f2i f2u ->
  let t := CStruct [(Fld (B "M") true [], CPtr (CNamed id smap))] in smap_ok l ->
  cmar decls run_node run_json t (VStruct [VPtr (smap_val l)]) = MOk n -> cunm decls run_unode run_ujson f2i f2u t n (czero t) = UOk (VStruct [VPtr (smap_val l)]).
Proof.
  intros decls rn rj ru rju f2i f2u id l n D RN RU t HL H. assert (W : forall r f, writer decls rn rj id r f -> f = smap_node) by (intros r f W; destruct W as [r W|r W1 W2]; [exact RN|rewrite D in W1; discriminate]).
  apply (C126_partial decls rn rj ru rju f2i f2u t (VStruct [VPtr (smap_val l)]) n); [| | | | |exact H].
  - cbn [t chas fieldwise]. split; [apply smap_has; exact HL|exact I].
  - cbn [t by_value fold_right fst snd]. split; [|exact I]. right. intros [P _]. rewrite D in P. discriminate.
  - cbn [t ctags fold_right fst snd smap]. split; [right; exists (B "M"), false; apply tagged_vis; reflexivity|]. split; [|exact I]. split; [left; left; reflexivity|split; exact I].
  - cbn [t cnames fold_right fst snd smap]. split; [|split; [discriminate|split; [|exact I]]].
    + intros [|[|i]] [|[|j]] f g t1 u1 name o o' E1 E2 _ _; try discriminate; reflexivity.
    + split; [|split; [discriminate|split; exact I]]. intros [|[|i]] [|[|j]] f g t1 u1 name o o' E1 E2 _ _; try discriminate; reflexivity.
  - cbn [t comes_back fieldwise]. split; [|exact I]. split; [intros [Q|Q]; discriminate Q|]. intros name o T.
    assert (Q : comes_back decls rn rj ru rju (CNamed id smap) (smap_val l)).
    { cbn [comes_back smap_val]. split; [intros [P _]; rewrite D in P; discriminate|]. intros r f Wf. exists (smap_unode f2i f2u). split; [rewrite <- RU; constructor; rewrite D; reflexivity|]. intros m Hm. rewrite (W r f Wf) in Hm. apply (smap_inverse f2i f2u l m HL Hm). }
    split; [split; [exact Q|]|].
    + intros m Wm. inversion Wm as [| | |id' u' w' r' f' n' W' R E1 E2 E3|id' u' w' n' [P' _] H2 E1 E2 E3| | | | | | | | ]; subst; [|rewrite D in P'; discriminate]. rewrite (W r' f' W') in R. exact (smap_not_null _ _ R).
    + intros m -> _ _. apply tagged_vis in T. discriminate T.
Qed.
Print Assumptions C126_syncmap.
(* As a field of a struct it comes back empty. *)
Theorem C126_refuted : forall decls run_node run_json run_unode run_ujson f2i f2u id, decls id = smap_decl -> run_node id = smap_node -> run_unode id = smap_unode f2i f2u ->
  let t := CStruct [(Fld (B "M") true [], CNamed id smap)] in
  forall l, exists n, cmar decls run_node run_json t (VStruct [smap_val l]) = MOk n /\ cunm decls run_unode run_ujson f2i f2u t n (czero t) = UOk (VStruct [smap_val []]).
Proof.
  intros decls rn rj ru rju f2i f2u id D RN RU t l. eexists. split; [apply (C124_syncmap_refuted decls rn rj id D RN)|]. unfold t. cbn [cunm czero map fst snd smap]. cbn. rewrite D. cbn. rewrite RU. reflexivity.
Qed.
Print Assumptions C126_refuted.
(* Into a sync.Map with content it is merged: the other keys stay. *)
Theorem C126_merge_refuted : forall decls run_unode run_ujson f2i f2u id k z s y, decls id = smap_decl -> run_unode id = smap_unode f2i f2u ->
  k <> s -> bltb k s = true -> int_range W64 z ->
  let t := CStruct [(Fld (B "M") true [], CNamed id smap)] in
  cunm decls run_unode run_ujson f2i f2u t (NMap [(B "M", NMap [(s, NInt z)])]) (VStruct [smap_val [(KStr k, y)]]) = UOk (VStruct [smap_val [(KStr k, y); (KStr s, VNum z)]]).
Proof.
  intros decls ru rju f2i f2u id k z s y D RU N L R t. assert (A : bltb s k = false).
  { destruct (bltb s k) eqn:A; [|reflexivity]. pose proof (kltb_trans (KStr k) (KStr s) (KStr k) L A) as Q. rewrite kltb_irrefl in Q. discriminate. }
  assert (M : smap_unode f2i f2u (NMap [(s, NInt z)]) (smap_val [(KStr k, y)]) = UOk (smap_val [(KStr k, y); (KStr s, VNum z)])).
  { unfold smap_unode. cbn [unm unm_entries ukey unm_num kset fst snd]. rewrite swrap_id by exact R. cbn [smap_val content fold_left kset kltb fst snd]. rewrite A, L. reflexivity. }
  unfold t. cbn [cunm map fst snd cunm_fields f_exported]. change (parseTag (Fld (B "M") true [])) with (Ok (Tag (B "M") false false)). cbn [g_json].
  change (mget beqb [(B "M", NMap [(s, NInt z)])] (B "M")) with (Some (NMap [(s, NInt z)])). rewrite D. cbn [smap_decl d_unode]. rewrite RU, M. reflexivity.
Qed.
Print Assumptions C126_merge_refuted.

(* Two declared types: 0 is sync.Map, 1 is a number with MarshalJSON on the value that writes it as text, and UnmarshalJSON. *)
Definition decls0 (id : nat) : decl := match id with 0 => smap_decl | 1 => Decl None (Some ByVal) false true | _ => Decl None None false false end.
Definition node0 (id : nat) (v : option val) : mout node := match id with 0 => match smap_node v with MOk n => MOk n | _ => MErr end | _ => MErr end.
Definition json0 (id : nat) (v : option val) : mout node := match v with Some (VNum z) => MOk (NStr (decz z)) | _ => MErr end.
Definition unode0 (id : nat) : node -> val -> ures := smap_unode (fun _ => 0%Z) (fun _ => 0%Z).
Definition ujson0 (id : nat) (n : node) (old : val) : ures := match n with NStr s => match parse_int s with Some z => UOk (VNum z) | None => UErr old end | _ => UErr old end.
Definition num : cty := CNamed 1 CInt.
Definition t0 : cty := CStruct [(Fld (B "A") true [], num); (Fld (B "P") true (B "p,omitempty"), CPtr num); (Fld (B "L") true (B "l"), CSlice num); (Fld (B "M") true [], CPtr (CNamed 0 smap))].
Definition v0 : val := VStruct [VNum 7; VPtr (VNum (-1)); VList [VNum 1; VNum 2]; VPtr (smap_val [(KStr (B "k"), VNum 3)])].
Definition n0 : node := NPairs [((B "A", B "A"), NStr (B "7")); ((B "P", B "p"), NStr (B "-1")); ((B "L", B "l"), NList [NStr (B "1"); NStr (B "2")]); ((B "M", B "M"), NMap [(B "k", NInt 3)])].
Lemma num_writer : forall r f, writer decls0 node0 json0 1 r f -> r = ByVal /\ f = json0 1.
Proof. intros r f [r' H|r' H1 H2]; [discriminate H|]. injection H2 as <-. auto. Qed.
Lemma v0_has : chas t0 v0.
Proof. cbn. unfold int_range. cbn. repeat split; repeat constructor; try lia. Qed.
Lemma t0_by_value : by_value decls0 node0 json0 t0.
Proof.
  cbn [t0 by_value fold_right fst snd num]. split; [right; split; [intros r f W; apply (num_writer r f W)|intros _; exact I]|]. split; [right; intros _; exact I|].
  split; [right; split; [intros r f W; apply (num_writer r f W)|intros _; exact I]|]. split; [|exact I]. right. intros [P _]. discriminate P.
Qed.
Lemma v0_no_nil : no_nil decls0 node0 json0 t0 v0.
Proof.
  cbn [t0 v0 no_nil fieldwise num]. repeat split; right; try (intros _ _; exact I); try (intros _; exact I); [repeat constructor|]. intros [P _]. discriminate P.
Qed.
Example C124_ex : chas t0 v0 /\ by_value decls0 node0 json0 t0 /\ no_nil decls0 node0 json0 t0 v0 /\ cmar decls0 node0 json0 t0 v0 = MOk n0 /\ Writes decls0 node0 json0 t0 v0 n0.
Proof.
  split; [exact v0_has|]. split; [exact t0_by_value|]. split; [exact v0_no_nil|]. assert (H : cmar decls0 node0 json0 t0 v0 = MOk n0) by reflexivity. split; [exact H|].
  apply (C124_partial decls0 node0 json0 t0 v0 n0 v0_has t0_by_value). exact H.
Qed.
Lemma t0_tags : ctags t0.
Proof.
  cbn [t0 ctags fold_right fst snd num smap]. split; [right; exists (B "A"), false; apply tagged_vis; reflexivity|]. split; [exact I|]. split; [right; exists (B "p"), true; apply tagged_vis; reflexivity|]. split; [exact I|].
  split; [right; exists (B "l"), false; apply tagged_vis; reflexivity|]. split; [exact I|]. split; [right; exists (B "M"), false; apply tagged_vis; reflexivity|]. split; [|exact I]. split; [left; left; reflexivity|split; exact I].
Qed.
Example C125_ex : (forall id w, node0 id w <> MPanic) /\ (forall id w, json0 id w <> MPanic) /\ ctags t0 /\ chas t0 v0 /\ no_nil decls0 node0 json0 t0 v0 /\
  writer decls0 node0 json0 1 ByVal (json0 1) /\ cmar decls0 node0 json0 t0 (VStruct [VNum 7; VNil; VNil; VPtr (smap_val [])]) = MPanic.
Proof.
  split; [intros [|id] w; [unfold node0; destruct (smap_node w); discriminate|discriminate]|]. split; [intros id [[]|]; discriminate|].
  split; [exact t0_tags|]. split; [exact v0_has|]. split; [exact v0_no_nil|]. split; [apply writes_json; reflexivity|reflexivity].
Qed.
Lemma num_back z : int_range W64 z -> comes_back decls0 node0 json0 unode0 ujson0 num (VNum z).
Proof.
  intros R. cbn [num comes_back]. split; [intros [_ P]; discriminate P|]. intros r f W. destruct (num_writer r f W) as [_ ->]. exists (ujson0 1). split; [apply reads_json; reflexivity|].
  intros n H. assert (E : n = NStr (decz z)) by (unfold json0 in H; congruence). rewrite E. unfold ujson0. rewrite parse_int_decz by exact R. reflexivity.
Qed.
Lemma num_text v n : Writes decls0 node0 json0 num v n -> exists z, n = NStr (decz z).
Proof.
  intros W. inversion W as [| | |id' u' w' r' f' n' W' R E1 E2 E3|id' u' w' n' [_ P'] H2 E1 E2 E3| | | | | | | | ]; subst; [|discriminate P']. destruct (num_writer _ _ W') as [_ ->]. unfold json0 in R. destruct v; try discriminate R. injection R as <-. eauto.
Qed.
Lemma decz_some z : decz z <> [].
Proof. unfold decz. destruct z as [|p|p]; [discriminate| |discriminate]. destruct (dec_cons (N.pos p)) as (c & s & E & _). cbn [Z.ltb Z.compare Z.abs_N Z.to_N]. intros Q. apply (f_equal (@length ascii)) in Q. unfold bytes in *. change (length (dec (N.pos p)) = 0) in Q. rewrite E in Q. discriminate. Qed.
Example C126_ex : comes_back decls0 node0 json0 unode0 ujson0 t0 v0 /\ cnames t0 /\ cunm decls0 unode0 ujson0 (fun _ => 0%Z) (fun _ => 0%Z) t0 n0 (czero t0) = UOk v0.
Proof.
  assert (C : comes_back decls0 node0 json0 unode0 ujson0 t0 v0).
  { cbn [t0 v0 comes_back fieldwise]. split; [|split; [|split; [|split; [|exact I]]]]; (split; [intros [Q|Q]; discriminate Q|]); intros name o T; apply tagged_vis in T; injection T as <- <-.
    - split; [apply num_back; unfold int_range; cbn; lia|discriminate].
    - split; [split; [apply num_back; unfold int_range; cbn; lia|]|].
      + intros n W. destruct (num_text _ _ W) as [z ->]. discriminate.
      + intros n _ W BN. inversion W as [| | | | | | |t' v' n' W' E1 E2 E3| | | | | ]; subst. destruct (num_text _ _ W') as [z ->]. destruct BN as [Q|[Q|[Q|[Q|(g & Q & _)]]]]; try discriminate Q. injection Q as Q. destruct (decz_some z Q).
    - split; [|discriminate]. constructor; [apply num_back; unfold int_range; cbn; lia|]. constructor; [apply num_back; unfold int_range; cbn; lia|constructor].
    - split; [|discriminate]. split.
      + cbn [smap_val]. split; [intros [P _]; discriminate P|]. intros r f W. exists (unode0 0). split; [constructor; reflexivity|]. intros n H. inversion W as [r' W1|r' W1 W2]; subst; [|discriminate W1].
        assert (E : n = NMap [(B "k", NInt 3)]) by (change (MOk (NMap [(B "k", NInt 3)]) = MOk n) in H; congruence). rewrite E. reflexivity.
      + intros n W. inversion W as [| | |id' u' w' r' f' n' W' R E1 E2 E3|id' u' w' n' [P' _] H2 E1 E2 E3| | | | | | | | ]; subst; [|discriminate P']. inversion W' as [r'' W1|r'' W1 W2]; subst; [|discriminate W1]. intros E. subst n. change (MOk (NMap [(B "k", NInt 3)]) = MOk NNil) in R. discriminate R. }
  assert (N : cnames t0).
  { assert (DN : distinct_names [(Fld (B "m") false [], CMap CInt)]) by (intros [|[|i]] [|[|j]] f g t1 u1 name o o' E1 E2 _ _; try discriminate; reflexivity).
    cbn [t0 cnames fold_right fst snd num smap]. split; [|repeat split; try discriminate; exact DN]. intros i j f g t1 u1 name o o' E1 E2 T1 T2.
    destruct i as [|[|[|[|i]]]]; try (destruct i; discriminate E1); destruct j as [|[|[|[|j]]]]; try (destruct j; discriminate E2); try reflexivity; injection E1 as <- _; injection E2 as <- _; apply tagged_vis in T1; apply tagged_vis in T2; exfalso;
    assert (Some name = Some name) by reflexivity; revert T1 T2; cbv; intros T1 T2; congruence. }
  split; [exact C|]. split; [exact N|]. apply (C126_partial decls0 node0 json0 unode0 ujson0 _ _ t0 v0 n0 v0_has t0_by_value t0_tags N C). reflexivity.
Qed.
