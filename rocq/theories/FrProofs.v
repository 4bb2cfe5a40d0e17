(* Facts about FrModel for C100 and C101. *)
From Coq Require Import Bool Ascii String Arith NArith Lia List.
From Verif Require Import Prelude Utf8Model Utf8Facts ReqModel FrModel FrSpec.
Import ListNotations.

(* ---- frames ---- *)
Lemma lengthBytes_len n len : length (lengthBytes n len) = n.
Proof. induction n; cbn [lengthBytes length]; auto. Qed.
Lemma be_acc n len : forall acc, fold_left (fun a b => (a * 256 + code b)%N) (lengthBytes n len) acc = (acc * 256 ^ N.of_nat n + len mod 256 ^ N.of_nat n)%N.
Proof.
  induction n as [|n IH]; intros acc.
  - cbn [lengthBytes fold_left N.of_nat]. rewrite N.pow_0_r, N.mod_1_r. lia.
  - cbn [lengthBytes fold_left]. rewrite IH, code_chr by (apply N.mod_lt; lia).
    rewrite Nnat.Nat2N.inj_succ, N.pow_succ_r', (N.mul_comm 256 (256 ^ N.of_nat n)).
    assert (H0 : (256 ^ N.of_nat n <> 0)%N) by (apply N.pow_nonzero; lia). rewrite (N.mod_mul_r len) by lia. nia.
Qed.
Lemma be_lengthBytes n len : (len < 256 ^ N.of_nat n)%N -> be (lengthBytes n len) = len.
Proof. intros H. unfold be. rewrite be_acc, N.mod_small by assumption. lia. Qed.
Lemma header_frame op m : (op < 16)%N -> (N.of_nat (length m) < 2 ^ 63)%N -> is_frame false (RFrame true op m) (header op (N.of_nat (length m)) ++ m).
Proof.
  intros Ho Hm. unfold header. cbn [app]. set (len := N.of_nat (length m)) in *.
  destruct (N.leb_spec len 125) as [H|H]; [|destruct (N.ltb_spec len 65536) as [H'|H']]; cbn [app].
  - exact (frame_plain true op m len [] Ho (len_7 len H)).
  - apply (frame_plain true op m 126 _ Ho). apply len_16; [fold len; lia|apply lengthBytes_len|apply be_lengthBytes; change (256 ^ N.of_nat 2)%N with 65536%N; assumption].
  - apply (frame_plain true op m 127 _ Ho). apply len_64; [fold len; lia|apply lengthBytes_len|apply be_lengthBytes].
    change (256 ^ N.of_nat 8)%N with (2 ^ 64)%N. fold len. lia.
Qed.
Lemma header_nonnil op len : header op len <> [].
Proof. unfold header. discriminate. Qed.

Lemma app_same {A} (a a' x y : list A) : length a = length a' -> a ++ x = a' ++ y -> a = a' /\ x = y.
Proof.
  revert a'. induction a as [|c a IH]; intros [|c' a'] Hl H; try discriminate; auto.
  cbn in H. injection H as -> H. cbn in Hl. destruct (IH a') as [-> ->]; auto.
Qed.
Lemma len_field_small n f e : len_field n f e -> (f < 128)%N.
Proof. destruct 1; lia. Qed.
Lemma len_field_inj n n' f e e' x y : len_field n f e -> len_field n' f e' -> e ++ x = e' ++ y -> n = n' /\ e = e' /\ x = y.
Proof.
  intros H H' He. inversion H as [m Hm|m e0 Hm Hl Hb|m e0 Hm Hl Hb]; inversion H' as [m' Hm'|m' e0' Hm' Hl' Hb'|m' e0' Hm' Hl' Hb']; subst; try (exfalso; congruence); auto; try (exfalso; lia).
  - apply app_same in He as [-> ->]; auto. congruence.
  - apply app_same in He as [-> ->]; auto. congruence.
Qed.
Lemma first_inj (fin fin' : bool) op op' : (op < 16)%N -> (op' < 16)%N -> chr ((if fin then 128 else 0) + op) = chr ((if fin' then 128 else 0) + op') -> fin = fin' /\ op = op'.
Proof.
  intros H H' E. apply (f_equal code) in E. rewrite !code_chr in E by (destruct fin, fin'; lia). destruct fin, fin'; split; auto; lia.
Qed.
Lemma chr_inj a b : (a < 256)%N -> (b < 256)%N -> chr a = chr b -> a = b.
Proof. intros Ha Hb E. apply (f_equal code) in E. now rewrite !code_chr in E. Qed.
Lemma masks_inj key p p' q : masks key p q -> masks key p' q -> p = p'.
Proof.
  intros (Hk & Hl & H) (_ & Hl' & H').
  assert (G : forall i, nth_error p i = nth_error p' i).
  { intros i. destruct (nth_error p i) as [a|] eqn:Ea.
    - assert (Hi : i < length p) by (apply nth_error_Some; congruence).
      destruct (nth_error p' i) as [a'|] eqn:Ea'; [|apply nth_error_None in Ea'; lia].
      destruct (nth_error q i) as [b|] eqn:Eb; [|apply nth_error_None in Eb; lia].
      destruct (nth_error key (i mod 4)) as [k|] eqn:Ek; [|apply nth_error_None in Ek; pose proof (Nat.mod_upper_bound i 4 ltac:(lia)); lia].
      pose proof (H _ _ _ _ Ea Eb Ek) as E1. pose proof (H' _ _ _ _ Ea' Eb Ek) as E2. f_equal. apply code_inj.
      rewrite <- (N.lxor_0_r (code a)), <- (N.lxor_0_r (code a')), <- (N.lxor_nilpotent (code k)), <- !N.lxor_assoc. congruence.
    - destruct (nth_error p' i) as [a'|] eqn:Ea'; auto. assert (Hi : i < length p') by (apply nth_error_Some; congruence). apply nth_error_None in Ea. lia. }
  clear - G. revert p' G. induction p as [|c p IH]; intros [|c' p'] G; auto; try (now specialize (G 0)).
  pose proof (G 0) as G0. cbn in G0. injection G0 as ->. f_equal. apply IH. intros i. exact (G (S i)).
Qed.
Lemma frame_inj mask f f' a a' x y : is_frame mask f a -> is_frame mask f' a' -> a ++ x = a' ++ y -> f = f' /\ a = a'.
Proof.
  intros H H' E. destruct H as [fin op p l e Ho Hl|fin op p l e key q Ho Hl Hm]; inversion H' as [fin' op' p' l' e' Ho' Hl'|fin' op' p' l' e' key' q' Ho' Hl' Hm']; subst; clear H';
    pose proof (len_field_small _ _ _ Hl) as Hs; pose proof (len_field_small _ _ _ Hl') as Hs'; cbn [app] in E;
    pose proof (f_equal (fun l => hd zero l) E) as E1; pose proof (f_equal (fun l => hd zero (tl l)) E) as E2; pose proof (f_equal (fun l => tl (tl l)) E) as E3; cbn [hd tl] in E1, E2, E3;
    apply first_inj in E1 as [-> ->]; auto; apply chr_inj in E2; try lia.
  - subst l'. rewrite <- !app_assoc in E3. apply (len_field_inj _ _ _ _ _ _ _ Hl Hl') in E3 as (En & -> & E3). apply app_same in E3 as [-> _]; [auto|lia].
  - assert (l' = l) by lia. subst l'. rewrite <- !app_assoc in E3. apply (len_field_inj _ _ _ _ _ _ _ Hl Hl') in E3 as (En & -> & E3).
    rewrite <- ?app_assoc in E3. apply app_same in E3 as [<- E3]; [|destruct Hm, Hm'; lia].
    apply app_same in E3 as [<- _]; [|destruct Hm as (_ & Hq & _), Hm' as (_ & Hq' & _); lia].
    rewrite (masks_inj _ _ _ _ Hm Hm'). auto.
Qed.
Lemma frame_nonnil mask f a : is_frame mask f a -> a <> [].
Proof. destruct 1; discriminate. Qed.

Lemma stream_app mask fs gs a b : stream mask fs a -> stream mask gs b -> stream mask (fs ++ gs) (a ++ b).
Proof. induction 1; intros Hb; cbn [app]; auto. rewrite <- app_assoc. constructor; auto. Qed.
Lemma stream_one mask f a : is_frame mask f a -> stream mask [f] a.
Proof. intros H. rewrite <- (app_nil_r a). constructor; auto. constructor. Qed.
(* a proper part of a frame has no frame at its beginning *)
Lemma part_no_frame mask f a rest x : is_frame mask f a -> rest ++ x = a -> x <> [] -> forall g u v, rest = u ++ v -> ~ is_frame mask g u.
Proof.
  intros Hf E Hx g u v -> Hg. assert (E' : a ++ [] = u ++ (v ++ x)) by (rewrite app_nil_r, app_assoc; auto).
  destruct (frame_inj _ _ _ _ _ _ _ Hf Hg E') as [_ ->]. rewrite app_nil_r in E'. rewrite <- (app_nil_r u) in E' at 1. apply app_inv_head in E'.
  destruct v; [|discriminate]. cbn in E'. congruence.
Qed.
Lemma reads_inj mask bs fs : reads mask bs fs -> forall fs', reads mask bs fs' -> fs = fs'.
Proof.
  intros (a & rest & -> & Hs & Hr). induction Hs as [|f fs a b Hf Hs IH]; intros fs' (a' & rest' & E & Hs' & Hr'); inversion Hs' as [|f' fs0 a0 b0 Hf' Hs0]; subst; auto.
  - exfalso. cbn in E. subst rest. rewrite <- app_assoc in Hr. exact (Hr _ _ _ eq_refl Hf').
  - exfalso. cbn in E. subst rest'. rewrite <- app_assoc in Hr'. exact (Hr' _ _ _ eq_refl Hf).
  - rewrite <- !app_assoc in E. destruct (frame_inj _ _ _ _ _ _ _ Hf Hf' E) as [-> ->]. apply app_inv_head in E. f_equal. apply IH. exists b0, rest'. auto.
Qed.

(* ---- the buffer ---- *)
Lemma net_write_spec c p : let '(c', ok) := net_write c p in exists y x, wire c' = wire c ++ y /\ y ++ x = p /\ (if ok then x = [] else x <> []).
Proof.
  unfold net_write. destruct (room c) as [k|]; [destruct (Nat.leb_spec (length p) k)|]; cbn [wire].
  - exists p, []. now rewrite app_nil_r.
  - exists (firstn k p), (skipn k p). split; auto. split; [apply firstn_skipn|]. intros E. apply (f_equal (@length _)) in E. rewrite skipn_length in E. cbn in E. lia.
  - exists p, []. now rewrite app_nil_r.
Qed.
(* wire, pend and failed of a buffer, related to what it was before when p was added *)
Definition moved (b b' : bw) (p : bytes) : Prop :=
  exists y x, wire (net_of b') = wire (net_of b) ++ y /\ y ++ x = pend b ++ p /\ (if failed b' then x <> [] else pend b' = x).
Lemma flush_moved b : failed b = false -> moved b (bw_flush b) [] /\ (failed (bw_flush b) = false -> pend (bw_flush b) = []).
Proof.
  intros Hf. unfold bw_flush, moved. rewrite Hf, app_nil_r. destruct (pend b) as [|c p] eqn:Ep.
  - split; [|auto]. exists [], []. rewrite Hf, app_nil_r. auto.
  - pose proof (net_write_spec (net_of b) (c :: p)) as H. destruct (net_write (net_of b) (c :: p)) as [n ok]. destruct H as (y & x & H1 & H2 & H3).
    destruct ok; cbn [failed net_of pend]; (split; [exists y, x; split; [assumption|]; split; [assumption|]|]); auto; try discriminate.
Qed.
Lemma write_moved size b p : failed b = false -> moved b (bw_write size b p) p.
Proof.
  intros Hf. unfold bw_write. rewrite Hf. destruct (length p <=? size - length (pend b)).
  - exists [], (pend b ++ p). cbn [net_of failed pend]. rewrite app_nil_r. auto.
  - destruct (pend b) as [|c q] eqn:Ep.
    + pose proof (net_write_spec (net_of b) p) as H. destruct (net_write (net_of b) p) as [n ok]. destruct H as (y & x & H1 & H2 & H3).
      exists y, x. cbn [net_of failed pend]. rewrite Ep. cbn [app]. split; [auto|]. split; [auto|]. destruct ok; cbn [negb]; auto.
    + set (k := size - length (c :: q)). set (b0 := Bw ((c :: q) ++ firstn k p) false (net_of b)).
      destruct (flush_moved b0 eq_refl) as [(y & x & H1 & H2 & H3) H4]. set (b1 := bw_flush b0) in *. change (net_of b0) with (net_of b) in H1. rewrite app_nil_r in H2. change (pend b0) with ((c :: q) ++ firstn k p) in H2.
      destruct (failed b1) eqn:F1.
      * exists y, (x ++ skipn k p). split; [assumption|]. rewrite F1. split.
        -- rewrite app_assoc, H2, <- app_assoc, firstn_skipn, Ep. auto.
        -- intros E. apply app_eq_nil in E as [E _]. auto.
      * assert (Hx : x = []) by (rewrite <- H3; auto). rewrite Hx, app_nil_r in H2.
        destruct (length (skipn k p) <=? size).
        -- exists y, (skipn k p). cbn [net_of failed pend]. split; [assumption|]. split; [|auto]. rewrite H2, <- app_assoc, firstn_skipn, Ep. auto.
        -- pose proof (net_write_spec (net_of b1) (skipn k p)) as H. destruct (net_write (net_of b1) (skipn k p)) as [n ok]. destruct H as (y' & x' & H1' & H2' & H3').
           exists (y ++ y'), x'. cbn [net_of failed pend]. split; [rewrite H1', H1, app_assoc; auto|]. split.
           ++ rewrite <- app_assoc, H2', H2, <- app_assoc, firstn_skipn, Ep. auto.
           ++ destruct ok; cbn [negb]; auto.
Qed.
Lemma write_failed size b p : failed b = true -> bw_write size b p = b.
Proof. intros H. unfold bw_write. now rewrite H. Qed.
Lemma flush_failed b : failed b = true -> bw_flush b = b.
Proof. intros H. unfold bw_flush. now rewrite H. Qed.
