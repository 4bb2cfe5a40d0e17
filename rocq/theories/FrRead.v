(* C101: reading the bytes of a websocket, /repo/http/ws/ws.go. *)
From Coq Require Import Bool Ascii String Arith NArith ZArith Lia List.
From Verif Require Import Prelude Utf8Model Utf8Facts ReqModel EncModel JsonModel WsModel FrModel FrSpec FrProofs FrRun.
Import ListNotations.

(* ---- C101 ---- *)
Lemma nth_ext_eq {A} (p q : list A) : (forall i, nth_error p i = nth_error q i) -> p = q.
Proof.
  revert q. induction p as [|c p IH]; intros [|c' q] G; auto; try (now specialize (G 0)).
  pose proof (G 0) as G0. cbn in G0. injection G0 as ->. f_equal. apply IH. intros i. exact (G (S i)).
Qed.
Lemma unmask_nth k0 key q : forall i j, nth_error (unmask (k0 :: key) i q) j =
  match nth_error q j with Some c => Some (chr (N.lxor (code c) (code (nth ((i + j) mod 4) (k0 :: key) zero)))) | None => None end.
Proof.
  induction q as [|c q IH]; intros i [|j]; cbn [unmask]; auto.
  - cbn [nth_error]. now rewrite Nat.add_0_r.
  - cbn [nth_error]. rewrite IH. now rewrite Nat.add_succ_r.
Qed.
Lemma unmask_nil q : forall i, unmask [] i q = q.
Proof. induction q as [|c q IH]; intros i; cbn [unmask]; auto. now rewrite IH. Qed.
Lemma unmask_masks key p q : masks key p q -> unmask key 0 q = p.
Proof.
  intros (Hk & Hl & H). destruct key as [|k0 key]; [discriminate|]. apply nth_ext_eq. intros i. rewrite unmask_nth. cbn [Nat.add].
  destruct (nth_error q i) as [b|] eqn:Eb.
  - destruct (nth_error p i) as [a|] eqn:Ea; [|apply nth_error_None in Ea; assert (i < length q) by (apply nth_error_Some; congruence); lia].
    destruct (nth_error (k0 :: key) (i mod 4)) as [k|] eqn:Ek; [|apply nth_error_None in Ek; pose proof (Nat.mod_upper_bound i 4 ltac:(lia)); lia].
    rewrite (nth_error_nth _ _ zero Ek), (H _ _ _ _ Ea Eb Ek), N.lxor_assoc, N.lxor_nilpotent, N.lxor_0_r, chr_code. auto.
  - apply nth_error_None in Eb. symmetry. apply nth_error_None. lia.
Qed.
Lemma unmask_firstn key : forall k i q, unmask key i (firstn k q) = firstn k (unmask key i q).
Proof. induction k as [|k IH]; intros i [|c q]; cbn [firstn unmask]; auto. now rewrite IH. Qed.
Lemma readLength_plain : forall e acc r, readLength (length e) false acc (e ++ r) = Some (fold_left (fun a b => (a * 256 + code b)%N) e acc, r).
Proof. induction e as [|b e IH]; intros acc r; cbn [length readLength app fold_left]; auto. Qed.
Lemma fold_ge e : forall acc, (acc * 256 ^ N.of_nat (length e) <= fold_left (fun a b => (a * 256 + code b)%N) e acc)%N.
Proof.
  induction e as [|b e IH]; intros acc; cbn [length fold_left]; [rewrite N.pow_0_r; lia|].
  specialize (IH (acc * 256 + code b)%N). rewrite Nnat.Nat2N.inj_succ, N.pow_succ_r'. nia.
Qed.
Lemma readLength_8 e r : length e = 8 -> (be e < 2 ^ 63)%N -> readLength 8 true 0 (e ++ r) = Some (be e, r).
Proof.
  intros Hl Hb. destruct e as [|b e]; [discriminate|]. injection Hl as Hl. unfold be in *. cbn [fold_left] in *. pose proof (fold_ge e (0 * 256 + code b)) as Hg. rewrite Hl in Hg.
  change (256 ^ N.of_nat 7)%N with (2 ^ 56)%N in Hg. assert (Hc : (code b < 128)%N) by (destruct (N.lt_ge_cases (code b) 128); auto; lia).
  cbn [readLength app]. rewrite (N.mod_small _ _ Hc). pose proof (readLength_plain e (0 * 256 + code b) r) as Hr. rewrite Hl in Hr. exact Hr.
Qed.
(* the header of a frame and what follows *)
Lemma readFrame_frame mask f a : is_frame mask f a -> exists h q key, a = h ++ q /\ length q = length (r_payload f) /\ unmask key 0 q = r_payload f /\
  forall r, readFrame (h ++ r) = Some (r_op f, unmask key 0 (firstn (length (r_payload f)) r), skipn (length (r_payload f)) r).
Proof.
  assert (Len : forall (p : bytes) l e r, len_field (N.of_nat (length p)) l e ->
    (if (l <=? 125)%N then Some (l, e ++ r) else readLength (if (l =? 126)%N then 2 else 8) (l =? 127)%N 0 (e ++ r)) = Some (N.of_nat (length p), r)).
  { intros p l e r H. inversion H as [n Hn|n e0 Hn Hl Hb|n e0 Hn Hl Hb]; subst.
    - rewrite (proj2 (N.leb_le _ _) Hn). reflexivity.
    - pose proof (readLength_plain e 0 r) as Hr. rewrite Hl in Hr. transitivity (Some (be e, r)); [exact Hr|now rewrite Hb].
    - transitivity (Some (be e, r)); [exact (readLength_8 e r Hl ltac:(lia))|now rewrite Hb]. }
  assert (Op : forall (fin : bool) op, (op < 16)%N -> (code (chr ((if fin then 128 else 0) + op)) mod 16)%N = op).
  { intros fin op Ho. rewrite code_chr by (destruct fin; lia). destruct fin.
    - change 128%N with (8 * 16)%N. rewrite N.add_comm, N.mod_add by lia. now apply N.mod_small.
    - now apply N.mod_small. }
  intros [fin op p l e Ho Hl|fin op p l e key q Ho Hl Hm]; cbn [r_payload r_op]; pose proof (len_field_small _ _ _ Hl) as Hs.
  - exists (chr ((if fin then 128 else 0) + op) :: chr l :: e), p, []. split; [reflexivity|]. split; auto. split; [apply unmask_nil|]. intros r. cbn [app]. unfold readFrame.
    rewrite (Op fin op Ho), (code_chr l) by lia. rewrite (N.mod_small _ _ Hs), (Len p l e r Hl). rewrite (proj2 (N.leb_gt _ _) Hs). cbn [andb]. now rewrite Nnat.Nat2N.id.
  - exists (chr ((if fin then 128 else 0) + op) :: chr (128 + l) :: e ++ key), q, key. split; [cbn [app]; now rewrite <- app_assoc|]. split; [apply Hm|]. split; [now apply unmask_masks|].
    intros r. cbn [app]. unfold readFrame. rewrite (Op fin op Ho), (code_chr (128 + l)) by lia.
    replace ((128 + l) mod 128)%N with l by (rewrite <- (N.mul_1_l 128) at 1; rewrite N.add_comm, N.mod_add, N.mod_small by lia; auto).
    rewrite <- app_assoc, (Len p l e (key ++ r) Hl). rewrite (proj2 (N.leb_le 128 (128 + l))) by lia. destruct Hm as (Hk & _ & _).
    rewrite (proj2 (Nat.ltb_ge (length (key ++ r)) 4)) by (rewrite app_length; lia). cbn [andb].
    rewrite <- Hk, firstn_app, Nat.sub_diag, firstn_O, app_nil_r, firstn_all, skipn_app, Nat.sub_diag, skipn_all, skipn_O. cbn [app]. now rewrite Nnat.Nat2N.id.
Qed.
Lemma readFrame_whole mask f a r : is_frame mask f a -> readFrame (a ++ r) = Some (r_op f, r_payload f, r).
Proof.
  intros H. destruct (readFrame_frame _ _ _ H) as (h & q & key & -> & Hq & Hu & Hr). rewrite <- app_assoc, Hr, <- Hq.
  rewrite firstn_app, Nat.sub_diag, firstn_O, app_nil_r, firstn_all, skipn_app, Nat.sub_diag, skipn_all, skipn_O. cbn [app]. now rewrite Hu.
Qed.
Lemma incoming_stream mask fs bs : stream mask fs bs -> forall n, incoming (length fs + n) bs = map (fun f => kindOf (r_op f) (r_payload f)) fs ++ incoming n [].
Proof.
  induction 1 as [|f fs a b Hf Hs IH]; intros n; cbn [length Nat.add incoming map app]; auto. rewrite (readFrame_whole _ _ _ _ Hf). now rewrite IH.
Qed.

(* Messages that come in one frame each, with any mask, and of any length, are read as they are, until the connection ends. *)
Theorem C101_messages_partial : forall mask ms fs bs n, Forall2 (fun m f => message [f] m) ms fs -> stream mask fs bs -> length ms < n ->
  incoming n bs = map WText ms ++ [WBroken].
Proof.
  intros mask ms fs bs n Hm Hs Hn. assert (Hl : length ms = length fs) by (clear - Hm; induction Hm; cbn; auto).
  replace n with (length fs + S (n - length fs - 1)) by lia. rewrite (incoming_stream _ _ _ Hs). cbn [incoming readFrame]. f_equal.
  clear - Hm. induction Hm as [|m f ms fs H Hm IH]; auto. cbn [map]. rewrite IH. f_equal. inversion H as [op p Ho|op p ps q Ho E]; subst.
  - destruct Ho as [->| ->]; reflexivity.
  - destruct ps; discriminate.
Qed.
Print Assumptions C101_messages_partial.
(* Each frame is read as it was sent, whatever it is. *)
Theorem C101_frames : forall mask f a bs, is_frame mask f a -> readFrame (a ++ bs) = Some (r_op f, r_payload f, bs).
Proof. intros. eapply readFrame_whole; eauto. Qed.
Print Assumptions C101_frames.
(* A message that comes in more frames is read as a message that consists of its first part; the rest is taken for an error. *)
Theorem C101_fragments_refuted : forall mask m1 m2 a b n, is_frame mask (RFrame false 1 m1) a -> is_frame mask (RFrame true 0 m2) b -> m2 <> [] ->
  message [RFrame false 1 m1; RFrame true 0 m2] (m1 ++ m2) /\ m1 <> m1 ++ m2 /\
  incoming (2 + n) (a ++ b) = WText m1 :: WContinuation :: incoming n [].
Proof.
  intros mask m1 m2 a b n Ha Hb Hne. split; [exact (message_frags 1 m1 [] m2 (or_introl eq_refl))|]. split.
  - intros E. rewrite <- (app_nil_r m1) in E at 1. apply app_inv_head in E. congruence.
  - assert (Hs : stream mask [RFrame false 1 m1; RFrame true 0 m2] (a ++ b)) by (constructor; auto using stream_one). exact (incoming_stream _ _ _ Hs n).
Qed.
Print Assumptions C101_fragments_refuted.
(* If the connection ends within a message, what came of it is read as a message. *)
Theorem C101_cut_refuted : forall mask m h q k n, is_frame mask (text m) (h ++ q) -> length q = length m -> k < length m ->
  firstn k m <> m /\ incoming (1 + n) (h ++ firstn k q) = WText (firstn k m) :: incoming n [].
Proof.
  intros mask m h q k n Hf Hq Hk. split; [intros E; apply (f_equal (@length _)) in E; rewrite firstn_length in E; lia|].
  destruct (readFrame_frame _ _ _ Hf) as (h' & q' & key & E & Hq' & Hu & Hr). cbn [r_payload text r_op] in *.
  assert (Hl : length h = length h') by (apply (f_equal (@length _)) in E; rewrite !app_length in E; lia).
  apply app_same in E as [-> ->]; auto. cbn [Nat.add incoming]. rewrite Hr.
  rewrite (firstn_all2 (firstn k q')) by (rewrite firstn_length; lia). rewrite unmask_firstn, Hu, skipn_all2 by (rewrite firstn_length; lia). reflexivity.
Qed.
Print Assumptions C101_cut_refuted.
(* So the handler is called with 12 when the client sent 12345, and with nil when only the header came. *)
Theorem C101_handler_refuted : exists bs bs', is_frame false (text (B "12345")) bs /\
  (exists r, bs = bs' ++ r /\ length r = 3) /\
  exec (fun (s : nat) (_ : option node) => (s, HNil)) (start (incoming 2 bs') 0) [LRead; LPass] =
    Ok (St [WBroken] InRead (Handling (Some (NDigits (B "12")))) false 0 [EStart (Some (NDigits (B "12")))]) /\
  exec (fun (s : nat) (_ : option node) => (s, HNil)) (start (incoming 2 (firstn 2 bs')) 0) [LRead; LPass] =
    Ok (St [WBroken] InRead (Handling None) false 0 [EStart None]).
Proof.
  exists ([chr 129; chr 5] ++ B "12345"), ([chr 129; chr 5] ++ B "12"). split; [|split; [exists (B "345"); split; reflexivity|]].
  - apply (frame_plain true 1 (B "12345") 5 []); [reflexivity|]. apply len_7. discriminate.
  - split; vm_compute; reflexivity.
Qed.
Print Assumptions C101_handler_refuted.

(* two messages with masks *)
Example C101_ex : let key := [chr 1; chr 2; chr 3; chr 4] in
  let bs := [chr 129; chr 130] ++ key ++ unmask key 0 (B "[]") ++ [chr 130; chr 133] ++ key ++ unmask key 0 (B "{""a"":") in
  Forall2 (fun m f => message [f] m) [B "[]"; B "{""a"":"] [text (B "[]"); RFrame true 2 (B "{""a"":")] /\
  stream true [text (B "[]"); RFrame true 2 (B "{""a"":")] bs /\ incoming 3 bs = [WText (B "[]"); WText (B "{""a"":"); WBroken].
Proof.
  cbn zeta. set (key := [chr 1; chr 2; chr 3; chr 4]).
  assert (Hm : forall p, length p < 8 -> masks key p (unmask key 0 p)).
  { intros p Hp. split; [reflexivity|]. split; [|].
    - do 8 (destruct p as [|? p]; [reflexivity|]). cbn in Hp. lia.
    - intros i a b k Ha Hb Hk. pose proof (unmask_nth (chr 1) [chr 2; chr 3; chr 4] p 0 i) as Hu. fold key in Hu. rewrite Ha, Hb in Hu. change (0 + i) with i in Hu. rewrite (nth_error_nth _ _ zero Hk) in Hu.
      assert (Hu' : b = chr (N.lxor (code a) (code k))) by congruence. rewrite Hu'.
      rewrite code_chr; auto. clear - Hk. assert (Hk' : (code k < 8)%N). { apply nth_error_In in Hk. repeat (destruct Hk as [<-|Hk]; [reflexivity|]). destruct Hk. }
      pose proof (code_lt a) as Ha. destruct (N.eq_0_gt_0_cases (N.lxor (code a) (code k))) as [->|Hx]; [reflexivity|].
      change 256%N with (2 ^ 8)%N. apply N.log2_lt_pow2; auto. eapply N.le_lt_trans; [apply N.log2_lxor|]. apply N.max_lub_lt.
      + destruct (N.eq_0_gt_0_cases (code a)) as [->|Hz]; [reflexivity|]. now apply N.log2_lt_pow2.
      + destruct (N.eq_0_gt_0_cases (code k)) as [->|Hz]; [reflexivity|]. apply N.log2_lt_pow2; auto. change (2 ^ 8)%N with 256%N. lia. }
  split; [|split].
  - constructor; [apply message_one; auto|]. constructor; [apply message_one; auto|]. constructor.
  - change (stream true [text (B "[]"); RFrame true 2 (B "{""a"":")] (([chr 129; chr 130] ++ key ++ unmask key 0 (B "[]")) ++ [chr 130; chr 133] ++ key ++ unmask key 0 (B "{""a"":"))).
    constructor; [|apply stream_one].
    + apply (frame_masked true 1 (B "[]") 2 [] key); [reflexivity| |apply Hm; cbn; lia]. apply len_7. discriminate.
    + apply (frame_masked true 2 (B "{""a"":") 5 [] key); [reflexivity| |apply Hm; cbn; lia]. apply len_7. discriminate.
  - vm_compute. reflexivity.
Qed.
