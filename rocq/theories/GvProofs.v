(* The text of %#v determines a value of a type without pointers. *)
From Coq Require Import Bool Ascii String Arith NArith ZArith Lia List Permutation.
From Verif Require Import Prelude PreludeFacts Utf8Model Utf8Facts QuoteModel QuoteFacts DecModel DecFacts DurModel DurProofs EncModel AstModel GvModel
  AsModel AsSpec AsProofs.
Import ListNotations.

(* ---- texts ---- *)
Definition delim (c : ascii) : Prop := c = ","%char \/ c = "}"%char \/ c = ":"%char.
Definition sep (a : bytes) : Prop := a = [] \/ exists c r, a = c :: r /\ delim c.
Definition token (x : bytes) : Prop := Forall (fun c => ~ delim c) x.
Lemma tok_split x : forall y a b, token x -> token y -> sep a -> sep b -> x ++ a = y ++ b -> x = y /\ a = b.
Proof.
  induction x as [|c x IH]; intros [|d y] a b Hx Hy Ha Hb E; cbn in E.
  - auto.
  - exfalso. apply Forall_inv in Hy. destruct Ha as [->|(e & r & -> & Hd)]; [discriminate|]. injection E as -> _. contradiction.
  - exfalso. apply Forall_inv in Hx. destruct Hb as [->|(e & r & -> & Hd)]; [discriminate|]. injection E as -> _. contradiction.
  - injection E as -> E. inversion Hx; inversion Hy; subst. destruct (IH y a b) as [-> ->]; auto.
Qed.
Lemma delim_code c : delim c -> (code c = 44 \/ code c = 125 \/ code c = 58)%N.
Proof. intros [->|[->| ->]]; vm_compute; auto. Qed.
Lemma digits_token x : Forall (fun b => is_digit b = true) x -> token x.
Proof.
  intros H. eapply Forall_impl; [|exact H]. intros c Hc Hd. unfold is_digit in Hc. apply andb_true_iff in Hc.
  rewrite !N.leb_le in Hc. apply delim_code in Hd. lia.
Qed.
Lemma decz_token z : token (decz z).
Proof.
  unfold decz. destruct (z <? 0)%Z; [constructor|]; try apply digits_token, dec_digits.
  intros [H|[H|H]]; discriminate H.
Qed.
Lemma hexdig_token n : (n < 16)%N -> ~ delim (hexdig n).
Proof.
  intros H Hd. apply delim_code in Hd. unfold hexdig in Hd. destruct (n <? 10)%N eqn:E; rewrite code_chr in Hd by lia.
  - apply N.ltb_lt in E. lia.
  - apply N.ltb_ge in E. lia.
Qed.
Lemma hexpos_token f : forall n, token (hexpos f n).
Proof.
  induction f as [|f IH]; intros n; cbn [hexpos]; [constructor|]. destruct (n =? 0)%N; [constructor|].
  apply Forall_app. split; [apply IH|]. constructor; [|constructor]. apply hexdig_token. now apply N.mod_lt.
Qed.
Lemma hex0x_token n : token (hex0x n).
Proof.
  unfold hex0x. apply Forall_app. split.
  - repeat constructor; intros [H|[H|H]]; discriminate H.
  - destruct (n =? 0)%N; [|apply hexpos_token]. repeat constructor; intros [H|[H|H]]; discriminate H.
Qed.
Lemma size_div16 f n : n <> 0%N -> N.size_nat n <= S f -> N.size_nat (n / 16) <= f.
Proof.
  intros Hn Hf. destruct n as [|p]; [congruence|]. clear Hn.
  change 16%N with (2 ^ 4)%N. rewrite <- N.shiftr_div_pow2. cbn [N.size_nat] in Hf.
  assert (E : forall q, N.size_nat (N.div2 q) <= pred (N.size_nat q)) by (intros [|[q|q|]]; cbn; lia).
  change 4%N with (N.succ (N.succ (N.succ (N.succ 0)))). rewrite !N.shiftr_succ_r. rewrite N.shiftr_0_r.
  pose proof (E (N.pos p)) as E1. pose proof (E (N.div2 (N.pos p))) as E2. pose proof (E (N.div2 (N.div2 (N.pos p)))) as E3.
  pose proof (E (N.div2 (N.div2 (N.div2 (N.pos p))))) as E4.
  cbn [N.size_nat] in E1. lia.
Qed.
Lemma hexpos_read f : forall n, N.size_nat n <= f -> unhexs (hexpos f n) 0 = n.
Proof.
  induction f as [|f IH]; intros n Hn.
  - destruct n as [|p]; [reflexivity|]. cbn in Hn. destruct p; cbn in Hn; lia.
  - cbn [hexpos]. destruct (n =? 0)%N eqn:E; [apply N.eqb_eq in E; subst; reflexivity|]. apply N.eqb_neq in E.
    rewrite unhexs_app, IH by (apply size_div16; auto). cbn [unhexs]. rewrite unhexdig_hexdig by now apply N.mod_lt.
    pose proof (N.div_mod n 16 ltac:(discriminate)). lia.
Qed.
Lemma hex0x_inj n m : hex0x n = hex0x m -> n = m.
Proof.
  unfold hex0x. intros H. apply app_inv_head in H.
  assert (R : forall n, unhexs (if (n =? 0)%N then [chr 48] else hexpos (N.size_nat n) n) 0 = n).
  { intros k. destruct (k =? 0)%N eqn:E; [apply N.eqb_eq in E; subst; reflexivity|]. apply hexpos_read. lia. }
  exact (eq_trans (eq_sym (R n)) (eq_trans (f_equal (fun x : bytes => unhexs x 0) H) (R m))).
Qed.

(* ---- lists ---- *)
Lemma commas_cons x l : commas (x :: l) = x ++ concat (map (fun y => B ", " ++ y) l).
Proof.
  revert x. induction l as [|y l IH]; intros x; [cbn; now rewrite app_nil_r|].
  change (commas (x :: y :: l)) with (x ++ B ", " ++ commas (y :: l)). rewrite IH. cbn [map concat]. now rewrite !app_assoc.
Qed.
Definition good_head (x : bytes) : Prop := exists c r, x = c :: r /\ c <> "}"%char.
Lemma sep_comma x : sep (B ", " ++ x).
Proof. right. exists ","%char, (" "%char :: x). split; [reflexivity|left; reflexivity]. Qed.
Lemma sep_brace x : sep ("}"%char :: x).
Proof. right. eexists _, _. split; [reflexivity|right; left; reflexivity]. Qed.
Lemma sep_colon x : sep (B ":" ++ x).
Proof. right. exists ":"%char, x. split; [reflexivity|right; right; reflexivity]. Qed.
Section Items.
  Context {A : Type} (f : A -> bytes) (R : A -> A -> Prop) (ok : A -> Prop).
  Hypothesis Hf : forall x y a b, ok x -> ok y -> sep a -> sep b -> f x ++ a = f y ++ b -> R x y /\ a = b.
  Hypothesis Hh : forall x, ok x -> good_head (f x).
  Lemma rest_sep (l : list A) a : sep (concat (map (fun y => B ", " ++ f y) l) ++ "}"%char :: a).
  Proof. destruct l; cbn [map concat app]; [apply sep_brace|rewrite <- !app_assoc; apply sep_comma]. Qed.
  Lemma rest_inj l : forall l' a b, Forall ok l -> Forall ok l' ->
    concat (map (fun y => B ", " ++ f y) l) ++ "}"%char :: a = concat (map (fun y => B ", " ++ f y) l') ++ "}"%char :: b ->
    Forall2 R l l' /\ a = b.
  Proof.
    induction l as [|x l IH]; intros [|y l'] a b Hl Hl' E; cbn [map concat app] in E.
    - split; [constructor|congruence].
    - discriminate E.
    - discriminate E.
    - inversion Hl; inversion Hl'; subst. rewrite <- ?app_assoc in E. apply app_inv_head in E.
      apply Hf in E; auto using rest_sep. destruct E as [HR E]. apply IH in E; auto. destruct E. auto.
  Qed.
  Lemma items_inj l l' a b : Forall ok l -> Forall ok l' ->
    commas (map f l) ++ "}"%char :: a = commas (map f l') ++ "}"%char :: b -> Forall2 R l l' /\ a = b.
  Proof.
    intros Hl Hl' E. destruct l as [|x l], l' as [|y l'].
    - cbn in E. split; [constructor|congruence].
    - exfalso. inversion Hl'; subst. destruct (Hh y) as (c & r & Ey & Hc); [assumption|]. cbn [map] in E. rewrite commas_cons, Ey in E.
      cbn in E. injection E as E _. congruence.
    - exfalso. inversion Hl; subst. destruct (Hh x) as (c & r & Ey & Hc); [assumption|]. cbn [map] in E. rewrite commas_cons, Ey in E.
      cbn in E. injection E as E _. congruence.
    - inversion Hl; inversion Hl'; subst. cbn [map] in E. rewrite !commas_cons, !map_map, <- !app_assoc in E.
      apply Hf in E; auto using rest_sep. destruct E as [HR E]. apply rest_inj in E; auto. destruct E. auto.
  Qed.
End Items.

(* ---- the order of keys ---- *)
Section Keys.
  Context {F : Type}.
  Implicit Types x y z : gval F.
  Fixpoint slt (x y : bytes) : bool :=
    match x, y with
    | _, [] => false
    | [], _ :: _ => true
    | c :: x', d :: y' => (code c <? code d)%N || ((code c =? code d)%N && slt x' y')
    end.
  Lemma slt_total a : forall b, a <> b -> slt a b = true \/ slt b a = true.
  Proof.
    induction a as [|c a IH]; intros [|d b] H; cbn; auto; try congruence.
    destruct (N.compare_spec (code c) (code d)) as [E|E|E].
    - rewrite E, N.ltb_irrefl, N.eqb_refl. cbn. apply IH. apply code_inj in E. congruence.
    - left. apply N.ltb_lt in E. now rewrite E.
    - right. apply N.ltb_lt in E. now rewrite E.
  Qed.
  Lemma slt_irrefl a : slt a a = false.
  Proof. induction a as [|c a IH]; cbn; auto. now rewrite N.ltb_irrefl, N.eqb_refl. Qed.
  Lemma slt_trans a : forall b c, slt a b = true -> slt b c = true -> slt a c = true.
  Proof.
    induction a as [|x a IH]; intros [|y b] [|z c]; cbn; auto; try discriminate.
    rewrite !orb_true_iff, !andb_true_iff, !N.ltb_lt, !N.eqb_eq. intros [H|[H1 H2]] [G|[G1 G2]].
    - left. lia.
    - left. lia.
    - left. lia.
    - right. split; [lia|eauto].
  Qed.
  Lemma kltb_str a b : kltb (F := F) (VStr a) (VStr b) = slt a b.
  Proof. reflexivity. Qed.
  Lemma klt_total k x y : key_type k -> has k x -> has k y -> x <> y -> kltb x y = true \/ kltb y x = true.
  Proof.
    destruct k; intros Hk; try contradiction; destruct x, y; cbn [has]; try contradiction; intros _ _ H.
    - destruct b, b0; cbn; auto; congruence.
    - cbn [kltb]. rewrite !Z.ltb_lt. assert (z <> z0) by congruence. lia.
    - cbn [kltb]. rewrite !N.ltb_lt. assert (n <> n0) by congruence. lia.
    - rewrite !kltb_str. apply slt_total. congruence.
  Qed.
  Lemma klt_trans k x y z : key_type k -> has k x -> has k y -> has k z -> kltb x y = true -> kltb y z = true -> kltb x z = true.
  Proof.
    destruct k; intros Hk; try contradiction; destruct x, y, z; cbn [has]; try contradiction; intros _ _ _.
    - destruct b, b0, b1; cbn; auto.
    - cbn [kltb]. rewrite !Z.ltb_lt. lia.
    - cbn [kltb]. rewrite !N.ltb_lt. lia.
    - rewrite !kltb_str. apply slt_trans.
  Qed.
  Lemma klt_irrefl k x : key_type k -> has k x -> kltb x x = false.
  Proof.
    destruct k; intros Hk; try contradiction; destruct x; cbn [has]; try contradiction; intros _.
    - destruct b; reflexivity.
    - cbn [kltb]. apply Z.ltb_irrefl.
    - cbn [kltb]. apply N.ltb_irrefl.
    - rewrite kltb_str. apply slt_irrefl.
  Qed.
  Lemma klt_asym k x y : key_type k -> has k x -> has k y -> kltb x y = true -> kltb y x = false.
  Proof.
    intros Hk Hx Hy H. destruct (kltb y x) eqn:E; [|reflexivity]. pose proof (klt_trans k x y x Hk Hx Hy Hx H E).
    rewrite (klt_irrefl k x Hk Hx) in H0. discriminate.
  Qed.
  Context {A : Type}.
  Implicit Types l : list (gval F * A).
  Lemma kinsert_perm (e : gval F * A) l : Permutation (e :: l) (kinsert e l).
  Proof.
    induction l as [|g l IH]; cbn; [reflexivity|]. destruct (kltb (fst g) (fst e)); [|reflexivity].
    rewrite perm_swap. now constructor.
  Qed.
  Lemma kksort_perm l : Permutation l (kksort l).
  Proof. induction l as [|e l IH]; [reflexivity|]. change (kksort (e :: l)) with (kinsert e (kksort l)). rewrite <- kinsert_perm. now constructor. Qed.
  Lemma kinsert_comm k (e f : gval F * A) l : key_type k -> has k (fst e) -> has k (fst f) -> Forall (fun g => has k (fst g)) l ->
    fst e <> fst f -> kinsert e (kinsert f l) = kinsert f (kinsert e l).
  Proof.
    intros Hk He Hf Hl Hne. induction l as [|g l IH]; cbn [kinsert].
    - destruct (klt_total k _ _ Hk He Hf Hne) as [H|H]; rewrite H, (klt_asym k _ _ Hk) by assumption; reflexivity.
    - inversion Hl as [|? ? Hg Hl']; subst. destruct (kltb (fst g) (fst f)) eqn:E1, (kltb (fst g) (fst e)) eqn:E2; cbn [kinsert]; rewrite ?E1, ?E2.
      + now rewrite IH.
      + assert (H : kltb (fst e) (fst f) = true).
        { destruct (klt_total k _ _ Hk He Hf Hne) as [H|H]; [exact H|].
          rewrite (klt_trans k _ _ _ Hk Hg Hf He E1 H) in E2. discriminate. }
        rewrite H. cbn [kinsert]. rewrite ?E1. reflexivity.
      + assert (H : kltb (fst f) (fst e) = true).
        { destruct (klt_total k _ _ Hk He Hf Hne) as [H|H]; [|exact H].
          rewrite (klt_trans k _ _ _ Hk Hg He Hf E2 H) in E1. discriminate. }
        rewrite H. cbn [kinsert]. rewrite ?E2. reflexivity.
      + destruct (klt_total k _ _ Hk He Hf Hne) as [H|H]; rewrite H, (klt_asym k _ _ Hk) by assumption; cbn [kinsert];
          rewrite ?E1, ?E2; reflexivity.
  Qed.
  Lemma kksort_unique k l l' : key_type k -> Permutation l l' -> NoDup (map fst l) -> Forall (fun g => has k (fst g)) l ->
    kksort l = kksort l'.
  Proof.
    intros Hk P. induction P as [|e l l' P IH|e f l|l l' l'' P IH P' IH']; intros Hn Hl.
    - reflexivity.
    - cbn [map] in Hn. inversion Hn; inversion Hl; subst. cbn [kksort fold_right]. f_equal. now apply IH.
    - cbn [map] in Hn. inversion Hn as [|? ? Hn1 Hn2]; inversion Hl as [|? ? Hl1 Hl2]; inversion Hl2; subst.
      change (kinsert f (kinsert e (kksort l)) = kinsert e (kinsert f (kksort l))).
      apply kinsert_comm with k; auto.
      + rewrite Forall_forall in *. intros g Hg. apply (Permutation_in _ (Permutation_sym (kksort_perm l))) in Hg. auto.
      + intros E. apply Hn1. left. auto.
    - rewrite IH, IH'; auto.
      + now rewrite <- P.
      + now rewrite <- P.
  Qed.
End Keys.
Lemma kinsert_map {F A C} (g : gval F * A -> C) (e : gval F * A) l :
  kinsert (fst e, g e) (map (fun x => (fst x, g x)) l) = map (fun x => (fst x, g x)) (kinsert e l).
Proof. induction l as [|f l IH]; cbn; [reflexivity|]. destruct (kltb (fst f) (fst e)); cbn; [now rewrite IH|reflexivity]. Qed.
Lemma kksort_map {F A C} (g : gval F * A -> C) (l : list (gval F * A)) :
  kksort (map (fun x => (fst x, g x)) l) = map (fun x => (fst x, g x)) (kksort l).
Proof.
  induction l as [|e l IH]; [reflexivity|]. cbn [map]. change (kinsert (fst e, g e) (kksort (map (fun x => (fst x, g x)) l)) = map (fun x => (fst x, g x)) (kinsert e (kksort l))).
  rewrite IH. apply kinsert_map.
Qed.

(* ---- values ---- *)
Section Show.
  Context {F : Type} (isprint : N -> bool) (ftext : F -> bytes).
  Hypothesis Hft : forall f, ftext f <> [] /\ token (ftext f).
  Hypothesis Hfi : forall f g, ftext f = ftext g -> f = g.
  Notation show := (show (F := F) isprint ftext).
  Fixpoint fields (fs : list (bytes * gty)) (l : list (gval F)) {struct l} : list bytes :=
    match fs, l with
    | (n, e) :: fs', v :: l' => (n ++ B ":" ++ show e v) :: fields fs' l'
    | _, _ => []
    end.
  Lemma show_struct n fs l : show (GStruct n fs) (VStruct l) = n ++ B "{" ++ commas (fields fs l) ++ B "}".
  Proof. reflexivity. Qed.
  Definition entry k e (x : gval F * gval F) : bytes := show k (fst x) ++ B ":" ++ show e (snd x).
  Lemma show_map n k e l : show (GMap n k e) (VMap (Some l)) = n ++ B "{" ++ commas (map (entry k e) (kksort l)) ++ B "}".
  Proof.
    cbn [GvModel.show]. change (fun x : gval F * gval F => (fst x, GvModel.show isprint ftext k (fst x) ++ B ":" ++ GvModel.show isprint ftext e (snd x)))
      with (fun x : gval F * gval F => (fst x, entry k e x)).
    rewrite kksort_map, map_map. reflexivity.
  Qed.
  Lemma show_head t v : plain t -> has t v -> good_head (show t v).
  Proof.
    assert (T : forall x, x <> [] -> token x -> good_head x).
    { intros [|c x] H1 H2; [congruence|]. exists c, x. split; [reflexivity|]. inversion H2; subst. intros ->. apply H3. right. left. reflexivity. }
    assert (N : forall n x, name_ok n -> good_head (n ++ x)).
    { intros n x (c & r & -> & Hc). exists c, (r ++ x). auto. }
    destruct t, v; cbn [has plain]; try contradiction; intros Hp Hh.
    - cbn. destruct b; eexists _, _; (split; [reflexivity|discriminate]).
    - apply T; [|apply decz_token]. cbn. unfold decz. destruct (z <? 0)%Z; [discriminate|apply dec_nonnil].
    - apply T; [discriminate|apply hex0x_token].
    - apply T; apply Hft.
    - eexists _, _. split; [reflexivity|discriminate].
    - destruct o; apply N, Hp.
    - apply N, Hp.
    - destruct o; apply N, Hp.
    - apply N, Hp.
  Qed.
  Lemma key_inj k x y a b : key_type k -> has k x -> has k y -> sep a -> sep b -> show k x ++ a = show k y ++ b -> x = y /\ a = b.
  Proof.
    destruct k; intros Hk; try contradiction; destruct x, y; cbn [has]; try contradiction; intros _ _ Ha Hb E.
    - apply tok_split in E; auto.
      + destruct E as [E ->]. split; [|reflexivity]. destruct b0, b1; try reflexivity; discriminate E.
      + cbn. destruct b0; repeat constructor; intros [H|[H|H]]; discriminate H.
      + cbn. destruct b1; repeat constructor; intros [H|[H|H]]; discriminate H.
    - apply tok_split in E; auto; [|apply decz_token|apply decz_token]. destruct E as [E ->]. apply decz_inj in E. now subst.
    - apply tok_split in E; auto; [|apply hex0x_token|apply hex0x_token]. destruct E as [E ->]. apply hex0x_inj in E. now subst.
    - apply quote_prefix in E. destruct E as [-> ->]. auto.
  Qed.
  Lemma show_inj t : forall v w a b, plain t -> has t v -> has t w -> sep a -> sep b -> show t v ++ a = show t w ++ b -> same v w /\ a = b.
  Proof.
    induction t as [n|n|n|n|n|n e IH|n k e IH|n k e _ IH|n fs IH|n e _|n|n|n] using gty_ind'; intros v w a b Hp Hv Hw Ha Hb E; try contradiction.
    1,2,3,5: destruct v, w; try contradiction;
      match goal with H : show ?k ?x ++ ?c = show ?k ?y ++ ?d |- _ => apply (key_inj k x y c d Logic.I) in H end; auto; destruct E as [E ->]; injection E as ->;
      split; [constructor|reflexivity].
    - destruct v, w; try contradiction. apply tok_split in E; auto; try apply Hft. destruct E as [E ->]. apply Hfi in E. subst. split; [constructor|reflexivity].
    - destruct Hp as [Hn Hp]. destruct v as [| | | | |[l|]| | | | | | |], w as [| | | | |[l'|]| | | | | | |]; try contradiction; cbn [GvModel.show] in E;
        rewrite <- !app_assoc in E; apply app_inv_head in E; try discriminate E.
      + apply has_slice in Hv, Hw. rewrite <- ?app_assoc in E. apply app_inv_head in E.
        apply (items_inj (show e) same (has e)) in E; try assumption.
        * destruct E. split; [now constructor|assumption].
        * intros. now apply IH.
        * intros. now apply show_head.
      + split; [constructor|]. cbn in E. congruence.
    - destruct Hp as [Hn Hp]. destruct v, w; try contradiction; cbn [GvModel.show] in E.
      rewrite <- !app_assoc in E; apply app_inv_head in E; apply app_inv_head in E.
      apply has_arr in Hv, Hw. destruct Hv as [_ Hv], Hw as [_ Hw].
      apply (items_inj (show e) same (has e)) in E; try assumption.
      + destruct E. split; [now constructor|assumption].
      + intros. now apply IH.
      + intros. now apply show_head.
    - destruct Hp as [Hn Hp]. destruct v as [| | | | | | |[l|]| | | | |], w as [| | | | | | |[l'|]| | | | |]; try contradiction;
        rewrite ?show_map in E; cbn [GvModel.show] in E; rewrite <- !app_assoc in E; apply app_inv_head in E; try discriminate E.
      + apply has_map in Hv, Hw. destruct Hv as (Hk & _ & Hv), Hw as (_ & _ & Hw). rewrite <- ?app_assoc in E. apply app_inv_head in E.
        apply (items_inj (entry k e) (fun x y => fst x = fst y /\ same (snd x) (snd y)) (fun x => has k (fst x) /\ has e (snd x))) in E.
        * destruct E as [E ->]. split; [|reflexivity].
          destruct (Permutation_Forall2 (Permutation_sym (kksort_perm l)) E) as (l2 & P & H2).
          eapply same_map; [|exact H2]. now rewrite (kksort_perm l').
        * intros x y a' b' [Hx1 Hx2] [Hy1 Hy2] Ha' Hb' E'. unfold entry in E'. rewrite <- !app_assoc in E'.
          apply (key_inj k) in E'; auto using sep_colon. destruct E' as [Ek E']. rewrite <- ?app_assoc in E'. apply app_inv_head in E'.
          apply IH in E'; auto. destruct E'. auto.
        * intros x [Hx1 Hx2]. unfold entry.
          assert (Hkp : plain k) by (destruct k; try contradiction; exact Logic.I).
          destruct (show_head k (fst x) Hkp Hx1) as (c & r & -> & Hc). exists c. eexists. split; [reflexivity|exact Hc].
        * rewrite Forall_forall in *. intros x Hx. apply Hv. eapply Permutation_in; [symmetry; apply kksort_perm|exact Hx].
        * rewrite Forall_forall in *. intros x Hx. apply Hw. eapply Permutation_in; [symmetry; apply kksort_perm|exact Hx].
      + split; [constructor|]. cbn in E. congruence.
    - destruct v as [| | | | | | | |l| | | |], w as [| | | | | | | |l'| | | |]; try contradiction. rewrite !show_struct in E. destruct Hp as [Hn Hp].
      rewrite <- !app_assoc in E; apply app_inv_head in E; apply app_inv_head in E. apply has_struct in Hv, Hw.
      assert (G : forall p : list bytes -> bytes, (forall x r, p (x :: r) = B ", " ++ x ++ p r) \/
                 ((forall x r, p (x :: r) = x ++ concat (map (fun y => B ", " ++ y) r))) -> p [] = [] ->
                 p (fields fs l) ++ "}"%char :: a = p (fields fs l') ++ "}"%char :: b -> Forall2 same l l' /\ a = b).
      2:{ apply (G commas) in E; [|right; intros; apply commas_cons|reflexivity]. destruct E. split; [now constructor|assumption]. }
      clear E n Hn. revert l l' Hv Hw. induction IH as [|[x t] fs Ht Hfs IHfs]; intros l l' Hv Hw p Hc Hnil E.
      + inversion Hv; inversion Hw; subst. cbn [fields] in E. rewrite Hnil in E. split; [constructor|]. cbn in E. congruence.
      + inversion Hv as [|? v ? l1 Hv1 Hv2]; inversion Hw as [|? w ? l1' Hw1 Hw2]; subst. cbn [fields] in E.
        destruct Hp as [[Hx Hp] Hps].
        assert (E' : show t v ++ concat (map (fun y => B ", " ++ y) (fields fs l1)) ++ "}"%char :: a =
                     show t w ++ concat (map (fun y => B ", " ++ y) (fields fs l1')) ++ "}"%char :: b).
        { assert (Hall : forall q : list bytes -> bytes, (forall x r, q (x :: r) = B ", " ++ x ++ q r) -> q [] = [] ->
                    forall r, q r = concat (map (fun y => B ", " ++ y) r)).
          { intros q Hq Hq0. induction r as [|y r IHr]; [exact Hq0|]. rewrite Hq, IHr. cbn [map concat]. now rewrite app_assoc. }
          destruct Hc as [Hc|Hc].
          - rewrite !Hc, !(Hall p Hc Hnil), <- !app_assoc in E. do 3 apply app_inv_head in E. exact E.
          - rewrite !Hc, <- !app_assoc in E. do 2 apply app_inv_head in E. exact E. }
        assert (S1 : forall (r : list bytes) c, sep (concat (map (fun y => B ", " ++ y) r) ++ "}"%char :: c)).
        { intros [|y r] c; cbn [map concat app]; [apply sep_brace|rewrite <- !app_assoc; apply sep_comma]. }
        cbn [snd] in Ht. apply Ht in E'; auto. destruct E' as [Hs E'].
        destruct (IHfs Hps l1 l1' Hv2 Hw2 (fun r => concat (map (fun y => B ", " ++ y) r))) as [H2 ->]; auto.
  Qed.
  Lemma same_show t : forall v w, plain t -> has t v -> has t w -> same v w -> show t v = show t w.
  Proof.
    induction t as [n|n|n|n|n|n e IH|n k e IH|n k e _ IH|n fs IH|n e _|n|n|n] using gty_ind'; intros v w Hp Hv Hw S; try contradiction;
      destruct S as [z|z|z|f|s0| |l l' S|l l' S| |l l' l'' P S|l l' S]; try contradiction; try reflexivity.
    - cbn [GvModel.show]. do 3 f_equal. f_equal. apply has_slice in Hv, Hw. destruct Hp as [_ Hp].
      induction S as [|x y l l' Hxy S IHS]; [reflexivity|]. inversion Hv; inversion Hw; subst. cbn [map]. f_equal; auto.
    - cbn [GvModel.show]. do 3 f_equal. f_equal. apply has_arr in Hv, Hw. destruct Hp as [_ Hp], Hv as [_ Hv], Hw as [_ Hw].
      induction S as [|x y l l' Hxy S IHS]; [reflexivity|]. inversion Hv; inversion Hw; subst. cbn [map]. f_equal; auto.
    - rewrite !show_map. do 3 f_equal. f_equal. apply has_map in Hv, Hw. destruct Hv as (Hk & Hn & Hv), Hw as (_ & Hn' & Hw), Hp as [_ Hp].
      rewrite (kksort_unique k l' l'' Hk P Hn') by (eapply Forall_impl; [|exact Hw]; cbn; tauto).
      assert (Hw'' : Forall (fun x => has k (fst x) /\ has e (snd x)) l'') by (rewrite <- P; exact Hw).
      assert (S' : Forall2 (fun a b => fst a = fst b /\ entry k e a = entry k e b) l l'').
      { clear P Hw Hn Hn'. induction S as [|x y l l'' [Hx Hxy] S IHS]; [constructor|]. inversion Hv as [|? ? [Hv1 Hv2] Hv3]; inversion Hw'' as [|? ? [Hw1 Hw2] Hw3]; subst.
        constructor; auto. split; [exact Hx|]. unfold entry. rewrite Hx. do 2 f_equal. now apply IH. }
      assert (S2 : Forall2 (fun a b => fst a = fst b /\ entry k e a = entry k e b) (kksort l) (kksort l'')).
      { revert S'. generalize l l''. clear. intros l l'' S'. induction S' as [|x y q q' H S' IH]; [constructor|].
        change (Forall2 (fun a b => fst a = fst b /\ entry k e a = entry k e b) (kinsert x (kksort q)) (kinsert y (kksort q'))).
        destruct H as [H1 H2]. induction IH as [|x' y' m m' [H3 H4] IH IH2]; cbn [kinsert]; [constructor; auto|].
        rewrite <- H1, <- H3. destruct (kltb (fst x') (fst x)); constructor; auto. }
      revert S2. generalize (kksort l) (kksort l''). clear. intros q q' S2. induction S2 as [|x y q q' [_ H] S2 IH]; [reflexivity|]. cbn [map]. now rewrite H, IH.
    - rewrite !show_struct. do 3 f_equal. f_equal. apply has_struct in Hv, Hw. destruct Hp as [_ Hp]. clear n.
      revert l l' S Hv Hw. induction IH as [|[x t] fs Ht Hfs IHfs]; intros l l' S Hv Hw; inversion S as [|v w l1 l1' Sv Sl]; subst; inversion Hv; inversion Hw; subst; [reflexivity|].
      destruct Hp as [[Hx Hp] Hps]. cbn [fields]. f_equal; [do 2 f_equal; now apply Ht|now apply IHfs].
  Qed.
  Lemma show_same t v w : plain t -> has t v -> has t w -> (show t v = show t w <-> same v w).
  Proof.
    intros Hp Hv Hw. split; [|apply same_show; auto]. intros E.
    destruct (show_inj t v w [] [] Hp Hv Hw) as [H _]; auto.
    - left. reflexivity.
    - left. reflexivity.
    - now rewrite !app_nil_r.
  Qed.
End Show.
