(* The frames of http/ws as they are written, and as they are read: C111. *)
From Coq Require Import Bool Ascii String Arith NArith ZArith Lia List Permutation.
From Verif Require Import Prelude PreludeFacts Utf8Model DecModel DurModel DurProofs EncModel KvProofs JsonModel JsonSpec JsonProps CtxModel ErrModel MarModel WsModel WsSpec WsBad TcModel TcSpec.
Import ListNotations.

Lemma void_empty n : void (Some n) <-> is_empty n = true.
Proof.
  destruct n as [|b|z|f|s|s|t|u|l|l|l]; cbn [void is_empty]; try (split; [intros []|discriminate]); try tauto.
  - now rewrite Z.eqb_eq.
  - rewrite orb_true_iff, !beqb_eq. tauto.
  - destruct s; split; try discriminate; try tauto; intros [].
  - destruct s; split; try discriminate; try tauto; intros [].
Qed.
Lemma pairs_depth l d : Forall (fun e : bytes * bytes * node => ndepth (snd e) <= d) l -> ndepth (NPairs l) <= S d.
Proof. intros HF. cbn [ndepth]. apply le_n_S. induction HF as [|e l He _ IH]; cbn [fold_right]; lia. Qed.
Lemma pairs_good l : Forall (fun e : bytes * bytes * node => valid_utf8 (snd (fst e)) = true /\ good_node (snd e)) l -> good_node (NPairs l).
Proof. intros HF. cbn [good_node]. induction HF as [|e l [H1 H2] _ IH]; cbn [fold_right]; auto. Qed.
Lemma opt_all (P : bytes * bytes * node -> Prop) a b n : P ((a, b), n) -> Forall P (opt_field a b n).
Proof. unfold opt_field. destruct (is_empty n); auto. Qed.

Definition data_node (f : frame) : node := match f_data f with Some n => n | None => NNil end.
Lemma frame_good f : sendable f -> good_node (frame_node f) /\ (N.of_nat (ndepth (frame_node f)) <= 10000)%N.
Proof.
  intros (H1 & H2 & H3 & H4). fold (data_node f). split.
  - apply pairs_good. repeat first [apply opt_all|apply Forall_app; split|apply Forall_cons]; cbn [fst snd good_node]; split; auto; try (vm_compute; reflexivity).
    destruct (f_data f); [apply H4|exact Logic.I].
  - assert (Hd : (N.of_nat (ndepth (data_node f)) <= 9999)%N) by (unfold data_node; destruct (f_data f); [apply H4|cbn; lia]).
    assert (Hx : ndepth (frame_node f) <= S (ndepth (data_node f))); [|lia]. apply pairs_depth.
    repeat first [apply opt_all|apply Forall_app; split|apply Forall_cons]; cbn [fst snd ndepth]; try lia. fold (data_node f). lia.
Qed.
(* the members of a frame *)
Definition mem (f : frame) (k : bytes) : option node :=
  if beqb k (B "channel") then (match f_chan f with [] => None | c => Some (NStr c) end)
  else if beqb k (B "path") then (match f_path f with [] => None | c => Some (NStr c) end)
  else if beqb k (B "type") then Some (NStr (f_type f))
  else if beqb k (B "data") then arrived (f_data f) else None.
Lemma beqb_sym (a b : bytes) : beqb a b = beqb b a.
Proof. destruct (beqb a b) eqn:E; destruct (beqb b a) eqn:F; auto; [apply beqb_eq in E|apply beqb_eq in F]; subst; now rewrite beqb_refl in *. Qed.
Lemma frame_last f k : last_value (match frame_node f with NPairs l => l | _ => [] end) k = mem f k.
Proof.
  unfold frame_node, last_value, mem. fold (data_node f). clear.
  assert (E : arrived (f_data f) = if is_empty (data_node f) then None else Some (data_node f)) by (unfold arrived, data_node; destruct (f_data f); reflexivity).
  rewrite E. unfold opt_field. destruct (f_chan f) as [|c1 r1]; destruct (f_path f) as [|c2 r2]; cbn [is_empty]; destruct (is_empty (data_node f)); cbn [rev app find fst snd];
    rewrite ?(beqb_sym _ k); destruct (beqb k (B "channel")) eqn:E1; try (apply beqb_eq in E1; subst k; reflexivity);
    destruct (beqb k (B "path")) eqn:E2; try (apply beqb_eq in E2; subst k; reflexivity);
    destruct (beqb k (B "type")) eqn:E3; try (apply beqb_eq in E3; subst k; reflexivity);
    destruct (beqb k (B "data")) eqn:E4; try (apply beqb_eq in E4; subst k); reflexivity.
Qed.
Lemma keys_eq (m : list (bytes * node)) : forall l, Forall2 (fun a b => fst a = fst b /\ reads_as (snd a) (snd b)) m l -> map fst l = map fst m.
Proof. induction 1 as [|a b m l [E _] _ IH]; cbn; [reflexivity|]. now rewrite IH, E. Qed.
Lemma mget_rel (m : list (bytes * node)) k : forall l, Forall2 (fun a b => fst a = fst b /\ reads_as (snd a) (snd b)) m l ->
  match mget beqb m k, mget beqb l k with Some x, Some y => reads_as x y | None, None => True | _, _ => False end.
Proof. induction 1 as [|[a x] [b y] m l [E R] _ IH]; cbn in *; [exact Logic.I|]. subst b. destruct (beqb k a); auto. Qed.

(* C111: the text that is written is an object with the texts of the frame, where a missing one is empty, and with Data as JSON has it,
   if it is there; it is there unless it is null, zero or an empty text.  Nothing else is in it. *)
Theorem C111_wire : forall f, sendable f -> exists j m, wire f = Ok j /\ Decode j = Good (Some (NMap m)) /\
  text_of m (B "channel") (f_chan f) /\ text_of m (B "path") (f_path f) /\ text_of m (B "type") (f_type f) /\
  (match mget beqb m (B "data") with Some x => exists n, f_data f = Some n /\ reads_as n x /\ ~ void (f_data f) | None => void (f_data f) end) /\
  NoDup (map fst m) /\ incl (map fst m) (map B ["channel"; "path"; "type"; "data"]%string).
Proof.
  intros f Hf. destruct (frame_good f Hf) as [Hg Hd]. destruct (C29_round_trip false false _ Hg Hd) as (j & n & Ej & En & Hr).
  pose proof (frame_last f) as HL. unfold wire. destruct (frame_node f) as [| | | | | | | | | |l] eqn:Efn; try discriminate Efn. inversion Hr as [| | | | | | | | | |l0 m l' Nd Hm F2 E1 E2]; subst.
  exists j, l'. split; [exact Ej|]. split; [exact En|].
  assert (G : forall k, match mem f k, mget beqb l' k with Some x, Some y => reads_as x y | None, None => True | _, _ => False end).
  { intros k. pose proof (mget_rel m k l' F2) as Hk. replace (mem f k) with (mget beqb m k); [exact Hk|]. rewrite <- HL.
    destruct (last_value l k) as [v|] eqn:Ev.
    - apply (mget_in beqb beqb_ok); [exact Nd|]. now apply Hm.
    - destruct (mget beqb m k) as [v|] eqn:Em; [|reflexivity]. apply (mget_in beqb beqb_ok) in Em; [|exact Nd]. apply Hm in Em. congruence. }
  assert (T : forall k s, mem f k = match s with [] => None | _ => Some (NStr s) end -> text_of l' k s).
  { intros k s Hk. specialize (G k). rewrite Hk in G. unfold text_of. destruct s as [|c s]; destruct (mget beqb l' k) as [y|]; try contradiction; auto. left. inversion G. reflexivity. }
  split; [apply T; unfold mem; cbn; destruct (f_chan f); reflexivity|]. split; [apply T; unfold mem; cbn; destruct (f_path f); reflexivity|]. split.
  { specialize (G (B "type")). change (mem f (B "type")) with (Some (NStr (f_type f))) in G. destruct (mget beqb l' (B "type")) as [y|] eqn:Ey; [|contradiction]. left. rewrite Ey. now inversion G. }
  split.
  { specialize (G (B "data")). change (mem f (B "data")) with (arrived (f_data f)) in G. destruct (mget beqb l' (B "data")) as [y|]; unfold arrived in G; destruct (f_data f) as [n|]; try contradiction; try exact Logic.I.
    - destruct (is_empty n) eqn:Ee; [contradiction|]. exists n. split; [reflexivity|]. split; [exact G|]. intros Hv. apply void_empty in Hv. congruence.
    - destruct (is_empty n) eqn:Ee; [now apply void_empty|contradiction]. }
  rewrite (keys_eq m l' F2). split; [exact Nd|]. intros k Hk. apply in_map_iff in Hk. destruct Hk as ([k' v] & <- & Hi). cbn [fst]. apply Hm in Hi. rewrite HL in Hi. unfold mem in Hi.
  destruct (beqb k' (B "channel")) eqn:K1; [apply beqb_eq in K1; subst; cbn; auto|]. destruct (beqb k' (B "path")) eqn:K2; [apply beqb_eq in K2; subst; cbn; auto|].
  destruct (beqb k' (B "type")) eqn:K3; [apply beqb_eq in K3; subst; cbn; auto|]. destruct (beqb k' (B "data")) eqn:K4; [apply beqb_eq in K4; subst; cbn; auto|discriminate].
Qed.
Print Assumptions C111_wire.

(* C111: read by this package, it is the same frame, with Data as JSON has it. *)
Theorem C111_read : forall f2i f2u f, sendable f -> exists j n d, wire f = Ok j /\ Decode j = Good n /\
  frame_of f2i f2u n = Some (Frame (f_chan f) (f_path f) (f_type f) d) /\
  match d with Some x => exists n0, f_data f = Some n0 /\ reads_as n0 x | None => void (f_data f) end.
Proof.
  intros f2i f2u f Hf. destruct (C111_wire f Hf) as (j & m & Ej & Ed & Tc & Tp & Tt & Hd & _). exists j, (Some (NMap m)), (mget beqb m (B "data")).
  split; [exact Ej|]. split; [exact Ed|]. split.
  - apply frame_is; [now exists j|].
    assert (K : forall k s, text_of m k s -> frame_text (mget beqb m k) s) by (intros k s [->|[-> ->]]; constructor). constructor; auto.
  - destruct (mget beqb m (B "data")) as [x|]; [|exact Hd]. destruct Hd as (n0 & E & R & _). eauto.
Qed.
Print Assumptions C111_read.

(* C111: so frames with different texts are written differently. *)
Theorem C111_distinct : forall f g, sendable f -> sendable g -> wire f = wire g ->
  f_chan f = f_chan g /\ f_path f = f_path g /\ f_type f = f_type g /\ (void (f_data f) <-> void (f_data g)).
Proof.
  intros f g Hf Hg E. destruct (C111_wire f Hf) as (j & m & Ej & Ed & Tc & Tp & Tt & Hd & _). destruct (C111_wire g Hg) as (j' & m' & Ej' & Ed' & Tc' & Tp' & Tt' & Hd' & _).
  assert (j = j') by congruence. subst j'. assert (m = m') by congruence. subst m'.
  assert (K : forall k s s', text_of m k s -> text_of m k s' -> s = s') by (intros k s s' [A|[A ->]] [B|[B ->]]; congruence).
  split; [eauto|]. split; [eauto|]. split; [eauto|]. destruct (mget beqb m (B "data")); [|tauto]. destruct Hd as (? & _ & _ & Hd). destruct Hd' as (? & _ & _ & Hd'). tauto.
Qed.
Print Assumptions C111_distinct.

(* C111: but Reply(path, 0), Reply(path, "") and Reply(path, nil) are written as a frame without Data. *)
Theorem C111_refuted : forall c p t n, void (Some n) -> wire (Frame c p t (Some n)) = wire (Frame c p t None).
Proof.
  intros c p t n Hv. apply void_empty in Hv. unfold wire, frame_node. cbn [f_chan f_path f_type f_data]. unfold opt_field. rewrite Hv. reflexivity.
Qed.
Print Assumptions C111_refuted.

Definition ex_frame : frame := Frame (B "7") (B "get") [] (Some (NPairs [((B "N", B "n"), NInt 0); ((B "L", B "l"), NList [NStr []])])).
Example C111_ex : sendable ex_frame /\ wire ex_frame = Ok (B "{""channel"":""7"",""path"":""get"",""type"":"""",""data"":{""n"":0,""l"":[""""]}}") /\
  sendable (Frame (B "7") (B "get") [] (Some (NInt 0))) /\
  wire (Frame (B "7") (B "get") [] (Some (NInt 0))) = Ok (B "{""channel"":""7"",""path"":""get"",""type"":""""}") /\
  ~ void (f_data ex_frame) /\ void (Some (NInt 0)).
Proof.
  split; [|split; [vm_compute; reflexivity|split; [|split; [vm_compute; reflexivity|split; [intros []|reflexivity]]]]].
  - repeat split; try (vm_compute; reflexivity); vm_compute; discriminate.
  - repeat split; try (vm_compute; reflexivity); vm_compute; discriminate.
Qed.
