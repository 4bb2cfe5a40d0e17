(* Decoding inverts encoding; encoding does not depend on the order of map entries. *)
From Coq Require Import Bool Ascii String Arith NArith ZArith Lia List Permutation Sorted.
From Verif Require Import Prelude PreludeFacts Utf8Model Utf8Facts QuoteModel DecModel DecFacts DurModel DurProofs EncModel EncFacts
  JsonModel JsonSpec JsonFacts KvSpec KvProofs.
Import ListNotations.
Local Open Scope N_scope.

(* ---- sorting ---- *)
Lemma insert_perm {A} (e : bytes * A) l : Permutation (e :: l) (insert e l).
Proof.
  induction l as [|f l IH]; cbn; auto. destruct (bltb (fst f) (fst e)); auto.
  rewrite perm_swap. now constructor.
Qed.
Lemma ksort_perm {A} (l : list (bytes * A)) : Permutation l (ksort l).
Proof.
  induction l as [|e l IH]; cbn; auto. rewrite <- insert_perm. now constructor.
Qed.
Lemma insert_map {A C} (f : A -> C) e l :
  insert (fst e, f (snd e)) (map (fun x => (fst x, f (snd x))) l) = map (fun x : bytes * A => (fst x, f (snd x))) (insert e l).
Proof.
  induction l as [|x l IH]; cbn; auto. destruct (bltb (fst x) (fst e)); cbn; auto. now rewrite IH.
Qed.
Lemma ksort_map {A C} (f : A -> C) l :
  ksort (map (fun x => (fst x, f (snd x))) l) = map (fun x : bytes * A => (fst x, f (snd x))) (ksort l).
Proof.
  induction l as [|x l IH]; cbn; auto. fold (ksort (map (fun x => (fst x, f (snd x))) l)). rewrite IH. apply insert_map.
Qed.

Lemma bltb_trans a : forall b c, bltb a b = true -> bltb b c = true -> bltb a c = true.
Proof.
  induction a as [|x a IH]; intros [|y b] [|z c] H1 H2; cbn in *; try discriminate; auto.
  Nify_bool. destruct H1 as [H1|[H1 H1']], H2 as [H2|[H2 H2']]; try (left; lia).
  right. split; [lia|]. eauto.
Qed.
Lemma bltb_irrefl a : bltb a a = false.
Proof.
  induction a as [|x a IH]; cbn; auto. rewrite IH, andb_false_r, orb_false_r. Nify_bool. lia.
Qed.
Lemma bltb_total a : forall b, bltb a b = false -> a <> b -> bltb b a = true.
Proof.
  induction a as [|x a IH]; intros [|y b] H Hne; cbn in *; try discriminate; auto; try contradiction.
  Nify_bool. destruct H as [H1 H2]. destruct (N.eq_dec (code x) (code y)) as [He|He].
  - right. split; auto. destruct H2 as [H2|H2]; [lia|]. apply IH; auto. intros ->. apply Hne. f_equal. now apply code_inj.
  - left. lia.
Qed.

(* a listing with increasing keys is determined by its entries *)
Definition klt {A} (a b : bytes * A) : Prop := bltb (fst a) (fst b) = true.
Lemma insert_sorted {A} (e : bytes * A) l : StronglySorted klt l -> ~ In (fst e) (map fst l) -> StronglySorted klt (insert e l).
Proof.
  induction 1 as [|f l Hs IH Hf]; intros Hn; cbn.
  - repeat constructor.
  - destruct (bltb (fst f) (fst e)) eqn:E.
    + constructor.
      * apply IH. intros H. apply Hn. now right.
      * assert (Hp : Permutation (e :: l) (insert e l)) by apply insert_perm.
        rewrite <- Hp. constructor; auto.
    + assert (Hlt : klt e f) by (apply bltb_total; auto; intros He; apply Hn; left; auto).
      constructor.
      * constructor; auto.
      * constructor; auto. eapply Forall_impl; [|exact Hf]. intros g Hg. unfold klt in *. eapply bltb_trans; eauto.
Qed.
Lemma ksort_sorted {A} (l : list (bytes * A)) : NoDup (map fst l) -> StronglySorted klt (ksort l).
Proof.
  induction l as [|e l IH]; cbn; intros Hn.
  - constructor.
  - inversion Hn; subst. apply insert_sorted; auto. rewrite <- (Permutation_map fst (ksort_perm l)). auto.
Qed.
Lemma sorted_unique {A} (l : list (bytes * A)) : forall m, StronglySorted klt l -> StronglySorted klt m -> Permutation l m -> l = m.
Proof.
  induction l as [|e l IH]; intros m Hl Hm Hp.
  - now apply Permutation_nil in Hp.
  - destruct m as [|f m]; [symmetry in Hp; now apply Permutation_nil in Hp|].
    inversion Hl as [|? ? Hl1 Hl2]; subst. inversion Hm as [|? ? Hm1 Hm2]; subst.
    assert (He : e = f).
    { assert (H1 : In e (f :: m)) by (eapply Permutation_in; [exact Hp|now left]).
      assert (H2 : In f (e :: l)) by (eapply Permutation_in; [symmetry; exact Hp|now left]).
      destruct H1 as [->|H1]; auto. destruct H2 as [->|H2]; auto.
      rewrite Forall_forall in Hl2, Hm2. specialize (Hl2 f H2). specialize (Hm2 e H1). unfold klt in *.
      pose proof (bltb_trans _ _ _ Hl2 Hm2) as H. rewrite bltb_irrefl in H. discriminate. }
    subst f. f_equal. apply IH; auto. now apply Permutation_cons_inv in Hp.
Qed.
Lemma ksort_same {A} (l m : list (bytes * A)) : NoDup (map fst l) -> Permutation l m -> ksort l = ksort m.
Proof.
  intros Hn Hp. apply sorted_unique.
  - now apply ksort_sorted.
  - apply ksort_sorted. eapply Permutation_NoDup; [|exact Hn]. now apply Permutation_map.
  - rewrite <- (ksort_perm l), <- (ksort_perm m). exact Hp.
Qed.

(* ---- white space and layout ---- *)
Lemma ws_cons c t : is_space c = false -> ws (c :: t) = c :: t.
Proof. intros H. cbn. now rewrite H. Qed.
Lemma ws_spaces k s : ws (concat (repeat (B "  ") k) ++ s) = ws s.
Proof. induction k as [|k IH]; cbn; auto. Qed.
Lemma ws_nl ind k s : ws (nl ind k ++ s) = ws s.
Proof.
  unfold nl. destruct ind; auto. rewrite <- app_comm_cons. cbn [ws]. change (is_space (chr 10)) with true. cbv iota.
  apply ws_spaces.
Qed.

Lemma pvalue_ws f d s s' : ws s = ws s' -> pvalue f d s = pvalue f d s'.
Proof. intros H. destruct f as [|f]; auto. cbn [pvalue]. now rewrite H. Qed.
Lemma pmembers_ws f d acc s s' : ws s = ws s' -> pmembers f d acc s = pmembers f d acc s'.
Proof. intros H. destruct f as [|f]; auto. cbn [pmembers]. now rewrite H. Qed.
Lemma pelems_ws f d acc s s' : ws s = ws s' -> pelems f d acc s = pelems f d acc s'.
Proof. intros H. destruct f as [|f]; auto. cbn [pelems]. now rewrite (pvalue_ws f d s s' H). Qed.

(* a byte that may follow a value in an encoded text *)
Lemma num_end_nl ind k c t : code c = 44 \/ code c = 93 \/ code c = 125 -> num_end (nl ind k ++ c :: t).
Proof.
  intros H. unfold nl. destruct ind; cbn [app].
  - cbn. repeat split; discriminate.
  - cbn. unfold is_digit. split; [|lia]. Nify_bool. lia.
Qed.
Lemma ws_sep ind k c t : code c = 44 \/ code c = 93 \/ code c = 125 -> ws (nl ind k ++ c :: t) = c :: t.
Proof.
  intros H. rewrite ws_nl. apply ws_cons. unfold is_space. Nify_bool. lia.
Qed.

(* ---- fuel ---- *)
Fixpoint fz (n : node) : nat :=
  match n with
  | NList l => S (fold_right (fun x m => S (fz x + m)) 0 l)
  | NMap l => S (fold_right (fun e m => S (fz (snd e) + m)) 0 l)
  | NPairs l => S (fold_right (fun e m => S (fz (snd e) + m)) 0 l)
  | _ => 1
  end%nat.
Definition fzs (es : list (bytes * node)) : nat := fold_right (fun e m => S (fz (snd e) + m))%nat 0%nat es.

(* the first byte of an encoded value *)
Definition vhead (c : ascii) : Prop :=
  is_space c = false /\ code c <> 93 /\ code c <> 125 /\ code c <> 44.
Lemma number_head s : json_number s -> exists c t, s = c :: t /\ vhead c /\
  code c <> 123 /\ code c <> 91 /\ code c <> 34 /\ code c <> 116 /\ code c <> 102 /\ code c <> 110.
Proof.
  intros (sg & ip & fr & ex & -> & Hsg & Hip & _).
  assert (Hd : forall c, 48 <= code c <= 57 \/ code c = 45 -> vhead c /\
    code c <> 123 /\ code c <> 91 /\ code c <> 34 /\ code c <> 116 /\ code c <> 102 /\ code c <> 110).
  { intros c Hc. unfold vhead, is_space. repeat split; try lia. Nify_bool. lia. }
  destruct Hsg as [->| ->].
  - destruct Hip as [->|[[H1 H2] _]].
    + eexists. eexists. split; [reflexivity|]. apply Hd. left. vm_compute. split; discriminate.
    + destruct ip as [|c ip]; [contradiction|]. eexists. eexists. split; [reflexivity|]. apply Hd. left.
      inversion H2; subst. now apply digit_range.
  - eexists. eexists. split; [reflexivity|]. apply Hd. right. reflexivity.
Qed.

Lemma group_head ind o c d parts : exists t, group ind o c d parts = chr o :: t.
Proof. unfold group. destruct parts; eauto. Qed.
Lemma vhead_c n : n = 110 \/ n = 116 \/ n = 102 \/ n = 34 \/ n = 91 \/ n = 123 -> vhead (chr n).
Proof.
  intros H. unfold vhead, is_space. rewrite code_chr by lia. repeat split; try lia. Nify_bool. lia.
Qed.
Lemma jenc_head short ind d n : good_node n -> exists c t, jenc short ind d n = c :: t /\ vhead c.
Proof.
  destruct n; cbn [jenc good_node]; intros Hg.
  - exists (chr 110). eexists. split; [reflexivity|]. apply vhead_c; lia.
  - destruct b; [exists (chr 116)|exists (chr 102)]; eexists; (split; [reflexivity|]); apply vhead_c; lia.
  - destruct (number_head _ (decz_number z)) as (c & t & -> & H & _). eauto.
  - destruct (number_head _ Hg) as (c & t & -> & H & _). eauto.
  - destruct (number_head _ Hg) as (c & t & -> & H & _). eauto.
  - unfold jstr. exists dquote. eexists. split; [reflexivity|]. apply vhead_c; lia.
  - unfold jstr. exists dquote. eexists. split; [reflexivity|]. apply vhead_c; lia.
  - unfold jstr. exists dquote. eexists. split; [reflexivity|]. apply vhead_c; lia.
  - destruct (group_head ind 91 93 d (map (jenc short ind (S d)) l)) as [t ->]. exists (chr 91), t. split; auto. apply vhead_c; lia.
  - match goal with |- context [group ind 123 125 d ?p] => destruct (group_head ind 123 125 d p) as [t ->] end.
    exists (chr 123), t. split; auto. apply vhead_c; lia.
  - match goal with |- context [group ind 123 125 d ?p] => destruct (group_head ind 123 125 d p) as [t ->] end.
    exists (chr 123), t. split; auto. apply vhead_c; lia.
Qed.

Lemma join_cons2 sep a b t : join sep (a :: b :: t) = a ++ sep ++ join sep (b :: t).
Proof. reflexivity. Qed.

Section Main.
  Context (short ind : bool).

  Definition Pn (n : node) : Prop := forall d dep fuel rest, good_node n -> (ndepth n + dep <= maxdepth)%nat ->
    (fz n <= fuel)%nat -> num_end rest ->
    exists v, pvalue fuel dep (jenc short ind d n ++ rest) = Some (v, rest) /\ reads_as n (fromNative v).

  (* scalars *)
  Lemma pvalue_str f dep s rest : valid_utf8 s = true -> pvalue (S f) dep (jstr short s ++ rest) = Some (JStr s, rest).
  Proof.
    intros Hv. destruct (pstring_jstr short s rest) as (q & -> & Hq). rewrite <- app_comm_cons. cbn [pvalue].
    rewrite ws_cons by reflexivity.
    change (code dquote =? 123) with false. change (code dquote =? 91) with false. change (code dquote =? 34) with true.
    cbv iota. now rewrite Hq, cleaned_valid.
  Qed.
  Lemma pvalue_num f dep s rest : json_number s -> num_end rest -> pvalue (S f) dep (s ++ rest) = Some (JNum s, rest).
  Proof.
    intros Hj Hr. pose proof (pnum_ok s rest Hj Hr) as Hp.
    destruct (number_head s Hj) as (c & t & -> & [Hs _] & H1 & H2 & H3 & H4 & H5 & H6).
    rewrite <- app_comm_cons in *. cbn [pvalue]. rewrite ws_cons by auto.
    apply N.eqb_neq in H1, H2, H3, H4, H5, H6. rewrite H1, H2, H3, H4, H5, H6. now rewrite Hp.
  Qed.

  (* elements of a list *)
  Lemma elems_ok d dep rest l : l <> [] -> Forall Pn l -> fold_right (fun x P => good_node x /\ P) True l ->
    (fold_right (fun x m => Nat.max (ndepth x) m) 0 l + dep <= maxdepth)%nat ->
    forall fuel acc, (fold_right (fun x m => S (fz x + m)) 0 l <= fuel)%nat ->
    exists vs, Forall2 (fun n v => reads_as n (fromNative v)) l vs /\
      pelems fuel dep acc (join (chr 44 :: nl ind (S d)) (map (jenc short ind (S d)) l) ++ nl ind d ++ chr 93 :: rest)
      = Some (JArr (acc ++ vs), rest).
  Proof.
    intros Hne Hp Hg Hd. induction l as [|x l IH]; [contradiction|]. clear Hne.
    intros fuel acc Hf. destruct fuel as [|fuel]; [cbn in Hf; lia|].
    inversion Hp as [|? ? Hx Hl]; subst. cbn [fold_right] in Hg, Hd, Hf. destruct Hg as [Hgx Hgl].
    destruct l as [|y l].
    - cbn [map join].
      destruct (Hx (S d) dep fuel (nl ind d ++ chr 93 :: rest)) as (v & Hv & Hr); auto; try lia.
      { apply num_end_nl. auto. }
      exists [v]. split; [constructor; auto|]. cbn [pelems]. rewrite Hv, ws_sep by auto. reflexivity.
    - cbn [map]. rewrite join_cons2. change (jenc short ind (S d) y :: map (jenc short ind (S d)) l) with (map (jenc short ind (S d)) (y :: l)).
      set (J := join (chr 44 :: nl ind (S d)) (map (jenc short ind (S d)) (y :: l))) in *.
      rewrite <- !app_assoc. cbn [app].
      destruct (Hx (S d) dep fuel (chr 44 :: nl ind (S d) ++ J ++ nl ind d ++ chr 93 :: rest)) as (v & Hv & Hr); auto; try lia.
      { cbn. repeat split; discriminate. }
      destruct (IH ltac:(discriminate) Hl Hgl ltac:(cbn [fold_right] in *; lia) fuel (acc ++ [v]) ltac:(cbn [fold_right] in *; lia))
        as (vs & Hvs & He).
      exists (v :: vs). split; [constructor; auto|]. cbn [pelems]. rewrite Hv.
      rewrite ws_cons by reflexivity. change (code (chr 44) =? 44) with true. cbv iota.
      rewrite (pelems_ws _ _ _ _ _ (ws_nl ind (S d) _)). rewrite He, <- app_assoc. reflexivity.
  Qed.

  (* members of an object *)
  Definition member (d : nat) (e : bytes * node) : bytes := jstr short (fst e) ++ colon ind ++ jenc short ind (S d) (snd e).
  Lemma member_ok d dep fuel e r : Pn (snd e) -> valid_utf8 (fst e) = true -> good_node (snd e) ->
    (ndepth (snd e) + dep <= maxdepth)%nat -> (fz (snd e) <= fuel)%nat -> num_end r ->
    exists v, reads_as (snd e) (fromNative v) /\ forall acc,
      pmembers (S fuel) dep acc (member d e ++ r) =
      match ws r with
      | c :: r3 => if code c =? 44 then pmembers fuel dep (mset beqb acc (fst e) v) r3
                   else if code c =? 125 then Some (JObj (mset beqb acc (fst e) v), r3) else None
      | [] => None
      end.
  Proof.
    intros Hx Hu Hg Hd Hf Hr. destruct e as [k n]. cbn [fst snd] in *.
    destruct (Hx (S d) dep fuel r) as (v & Hv & Hra); auto.
    exists v. split; auto. intros acc. unfold member. cbn [fst snd]. rewrite <- !app_assoc.
    destruct (pstring_jstr short k (colon ind ++ jenc short ind (S d) n ++ r)) as (q & -> & Hq).
    rewrite <- app_comm_cons. cbn [pmembers]. rewrite ws_cons by reflexivity.
    change (eat 34 (dquote :: q ++ colon ind ++ jenc short ind (S d) n ++ r)) with (Some (q ++ colon ind ++ jenc short ind (S d) n ++ r)).
    cbv iota. rewrite Hq, cleaned_valid by auto.
    assert (Hc : exists sp, eat 58 (ws (colon ind ++ jenc short ind (S d) n ++ r)) = Some (sp ++ jenc short ind (S d) n ++ r) /\ (sp = [] \/ sp = [chr 32])).
    { unfold colon. destruct ind.
      - exists [chr 32]. split; auto.
      - exists []. split; auto. }
    destruct Hc as (sp & -> & Hsp).
    assert (Hw : ws (sp ++ jenc short ind (S d) n ++ r) = ws (jenc short ind (S d) n ++ r)) by (destruct Hsp as [->| ->]; reflexivity).
    rewrite (pvalue_ws _ _ _ _ Hw), Hv. reflexivity.
  Qed.

  Lemma members_ok d dep rest es : es <> [] -> Forall (fun e => Pn (snd e)) es ->
    Forall (fun e => valid_utf8 (fst e) = true /\ good_node (snd e) /\ (ndepth (snd e) + dep <= maxdepth)%nat) es ->
    forall fuel acc, (fzs es <= fuel)%nat ->
    exists vs, Forall2 (fun e v => fst e = fst v /\ reads_as (snd e) (fromNative (snd v))) es vs /\
      pmembers fuel dep acc (join (chr 44 :: nl ind (S d)) (map (member d) es) ++ nl ind d ++ chr 125 :: rest)
      = Some (JObj (fold_left (fun a v => mset beqb a (fst v) (snd v)) vs acc), rest).
  Proof.
    intros Hne Hp Hg. induction es as [|e es IH]; [contradiction|]. clear Hne.
    intros fuel acc Hf. destruct fuel as [|fuel]; [cbn in Hf; lia|].
    inversion Hp as [|? ? Hx Hl]; subst. inversion Hg as [|? ? (Hg1 & Hg2 & Hg3) Hgl]; subst.
    unfold fzs in Hf. cbn [fold_right] in Hf. fold (fzs es) in Hf.
    destruct es as [|y es].
    - cbn [map join].
      destruct (member_ok d dep fuel e (nl ind d ++ chr 125 :: rest)) as (v & Hr & Hm); auto; try lia.
      { apply num_end_nl. auto. }
      exists [(fst e, v)]. split; [constructor; auto|]. rewrite Hm, ws_sep by auto. reflexivity.
    - cbn [map]. rewrite join_cons2. change (member d y :: map (member d) es) with (map (member d) (y :: es)).
      set (J := join (chr 44 :: nl ind (S d)) (map (member d) (y :: es))) in *.
      rewrite <- !app_assoc. cbn [app].
      destruct (member_ok d dep fuel e (chr 44 :: nl ind (S d) ++ J ++ nl ind d ++ chr 125 :: rest)) as (v & Hr & Hm); auto; try lia.
      { cbn. repeat split; discriminate. }
      destruct (IH ltac:(discriminate) Hl Hgl fuel (mset beqb acc (fst e) v) ltac:(unfold fzs in *; cbn [fold_right] in *; lia))
        as (vs & Hvs & He).
      exists ((fst e, v) :: vs). split; [constructor; auto|]. rewrite Hm.
      rewrite ws_cons by reflexivity. change (code (chr 44) =? 44) with true. cbv iota.
      rewrite (pmembers_ws _ _ _ _ _ (ws_nl ind (S d) _)). rewrite He. reflexivity.
  Qed.

  Lemma group_obj d dep rest es : Forall (fun e => Pn (snd e)) es ->
    Forall (fun e => valid_utf8 (fst e) = true /\ good_node (snd e) /\ (ndepth (snd e) + S dep <= maxdepth)%nat) es ->
    (S dep <= maxdepth)%nat ->
    forall fuel, (S (fzs es) <= fuel)%nat ->
    exists vs, Forall2 (fun e v => fst e = fst v /\ reads_as (snd e) (fromNative (snd v))) es vs /\
      pvalue fuel dep (group ind 123 125 d (map (member d) es) ++ rest)
      = Some (JObj (fold_left (fun a v => mset beqb a (fst v) (snd v)) vs []), rest).
  Proof.
    intros Hp Hg Hdep fuel Hf. destruct fuel as [|fuel]; [lia|].
    assert (Hm : (maxdepth <=? dep)%nat = false) by (apply Nat.leb_gt; lia).
    destruct es as [|e es].
    - exists []. split; [constructor|]. cbn [map group app]. cbn [pvalue]. rewrite ws_cons by reflexivity.
      change (code (chr 123) =? 123) with true. cbv iota. rewrite Hm. reflexivity.
    - destruct (members_ok d (S dep) rest (e :: es) ltac:(discriminate) Hp Hg fuel [] ltac:(lia)) as (vs & Hvs & He).
      exists vs. split; auto. unfold group. cbn [map]. rewrite <- app_comm_cons. rewrite <- !app_assoc. cbn [app pvalue].
      rewrite ws_cons by reflexivity. change (code (chr 123) =? 123) with true. cbv iota. rewrite Hm.
      replace (eat 125 (ws (nl ind (S d) ++ join (chr 44 :: nl ind (S d)) (member d e :: map (member d) es) ++ nl ind d ++ chr 125 :: rest)))
        with (@None bytes).
      + rewrite (pmembers_ws _ _ _ _ _ (ws_nl ind (S d) _)). exact He.
      + rewrite ws_nl. destruct es as [|e2 es]; cbn [map join]; unfold member at 1, jstr; cbn [app];
          rewrite ws_cons by reflexivity; reflexivity.
  Qed.

  Lemma group_arr d dep rest l : Forall Pn l -> fold_right (fun x P => good_node x /\ P) True l ->
    (fold_right (fun x m => Nat.max (ndepth x) m) 0 l + S dep <= maxdepth)%nat ->
    forall fuel, (S (fold_right (fun x m => S (fz x + m)) 0 l) <= fuel)%nat ->
    exists vs, Forall2 (fun n v => reads_as n (fromNative v)) l vs /\
      pvalue fuel dep (group ind 91 93 d (map (jenc short ind (S d)) l) ++ rest) = Some (JArr vs, rest).
  Proof.
    intros Hp Hg Hdep fuel Hf. destruct fuel as [|fuel]; [lia|].
    assert (Hm : (maxdepth <=? dep)%nat = false) by (apply Nat.leb_gt; lia).
    destruct l as [|x l].
    - exists []. split; [constructor|]. cbn [map group app]. cbn [pvalue]. rewrite ws_cons by reflexivity.
      change (code (chr 91) =? 123) with false. change (code (chr 91) =? 91) with true. cbv iota. rewrite Hm. reflexivity.
    - destruct (elems_ok d (S dep) rest (x :: l) ltac:(discriminate) Hp Hg ltac:(lia) fuel [] ltac:(lia)) as (vs & Hvs & He).
      exists vs. split; auto. unfold group. cbn [map]. rewrite <- app_comm_cons. rewrite <- !app_assoc. cbn [app pvalue].
      rewrite ws_cons by reflexivity. change (code (chr 91) =? 123) with false. change (code (chr 91) =? 91) with true. cbv iota. rewrite Hm.
      replace (eat 93 (ws (nl ind (S d) ++ join (chr 44 :: nl ind (S d)) (jenc short ind (S d) x :: map (jenc short ind (S d)) l) ++ nl ind d ++ chr 93 :: rest)))
        with (@None bytes).
      + rewrite (pelems_ws _ _ _ _ _ (ws_nl ind (S d) _)). exact He.
      + rewrite ws_nl. cbn [fold_right] in Hg. destruct (jenc_head short ind (S d) x (proj1 Hg)) as (c & t & -> & Hc1 & Hc2 & _).
        destruct l as [|y l]; cbn [map join]; cbn [app]; rewrite ws_cons by auto; unfold eat; apply N.eqb_neq in Hc2; now rewrite Hc2.
  Qed.

  (* building a Go map from entries with distinct keys keeps them in order *)
  Lemma fold_mset_nodup {A} (vs : list (bytes * A)) : forall acc, NoDup (map fst (acc ++ vs)) ->
    fold_left (fun a v => mset beqb a (fst v) (snd v)) vs acc = acc ++ vs.
  Proof.
    induction vs as [|v vs IH]; intros acc Hn; cbn; [now rewrite app_nil_r|].
    assert (Hv : ~ In (fst v) (map fst acc)).
    { rewrite map_app in Hn. cbn in Hn. apply NoDup_remove_2 in Hn. intros H. apply Hn. apply in_or_app. auto. }
    assert (Hs : mset beqb acc (fst v) (snd v) = acc ++ [v]).
    { clear -Hv. induction acc as [|[k a] acc IH]; cbn.
      - destruct v; reflexivity.
      - destruct (beqb (fst v) k) eqn:E.
        + apply beqb_eq in E. exfalso. apply Hv. left. auto.
        + rewrite IH; auto. intros H. apply Hv. now right. }
    rewrite Hs, IH; rewrite <- app_assoc; auto.
  Qed.

  Lemma forall2_mset {A C} (R : A -> C -> Prop) (l : list (bytes * A)) (m : list (bytes * C)) k a c :
    Forall2 (fun x y => fst x = fst y /\ R (snd x) (snd y)) l m -> R a c ->
    Forall2 (fun x y => fst x = fst y /\ R (snd x) (snd y)) (mset beqb l k a) (mset beqb m k c).
  Proof.
    intros H Hr. induction H as [|[k1 x] [k2 y] l m [H1 H2] Hf IH]; cbn.
    - repeat constructor; auto.
    - cbn in H1. subst k2. destruct (beqb k k1); constructor; auto.
  Qed.
  Lemma forall2_fold {A C} (R : A -> C -> Prop) (es : list (bytes * A)) (vs : list (bytes * C)) :
    Forall2 (fun x y => fst x = fst y /\ R (snd x) (snd y)) es vs -> forall l m,
    Forall2 (fun x y => fst x = fst y /\ R (snd x) (snd y)) l m ->
    Forall2 (fun x y => fst x = fst y /\ R (snd x) (snd y))
      (fold_left (fun a v => mset beqb a (fst v) (snd v)) es l) (fold_left (fun a v => mset beqb a (fst v) (snd v)) vs m).
  Proof.
    induction 1 as [|e v es vs [H1 H2] Hf IH]; intros l m Hlm; cbn; auto.
    apply IH. rewrite H1. now apply forall2_mset.
  Qed.
  Lemma forall2_keys {A C} (R : A -> C -> Prop) (l : list (bytes * A)) (m : list (bytes * C)) :
    Forall2 (fun x y => fst x = fst y /\ R (snd x) (snd y)) l m -> map fst l = map fst m.
  Proof. induction 1 as [|x y l m [H1 H2] Hf IH]; cbn; congruence. Qed.

  Lemma forall2_native (es : list (bytes * node)) (vs : list (bytes * jval)) :
    Forall2 (fun e v => fst e = fst v /\ reads_as (snd e) (fromNative (snd v))) es vs ->
    Forall2 (fun a b => fst a = fst b /\ reads_as (snd a) (snd b)) es (map (fun e => (fst e, fromNative (snd e))) vs).
  Proof. induction 1 as [|e v es vs [H1 H2] Hf IH]; cbn; constructor; auto. Qed.

  Definition jname (p : bytes * bytes * node) : bytes * node := (snd (fst p), snd p).
  Lemma AsMap_fold l : AsMap l = fold_left (fun a v => mset beqb a (fst v) (snd v)) (map jname l) [].
  Proof.
    unfold AsMap. generalize (@nil (bytes * node)). induction l as [|p l IH]; intros acc; cbn; auto.
  Qed.
  Lemma AsMap_nodup l : NoDup (map fst (AsMap l)).
  Proof.
    rewrite AsMap_fold. assert (H : NoDup (map fst (@nil (bytes * node)))) by constructor.
    revert H. generalize (@nil (bytes * node)). induction (map jname l) as [|e es IH]; intros acc H; cbn; auto.
    apply IH. apply (mset_nodup beqb beqb_ok). exact H.
  Qed.

  Lemma max_le {A} (f : A -> nat) l x : In x l -> (f x <= fold_right (fun e m => Nat.max (f e) m) 0 l)%nat.
  Proof.
    induction l as [|y l IH]; cbn; [contradiction|]. intros [->|H]; [lia|]. specialize (IH H). lia.
  Qed.
  Lemma fold_and {A} (P Q : A -> Prop) l : fold_right (fun e R => P e /\ Q e /\ R) True l <-> Forall (fun e => P e /\ Q e) l.
  Proof.
    induction l as [|x l IH]; cbn; split; auto.
    - intros (H1 & H2 & H3). constructor; auto. now apply IH.
    - inversion 1; subst. destruct H2. repeat split; auto. now apply IH.
  Qed.
  Lemma fzs_perm a b : Permutation a b -> fzs a = fzs b.
  Proof. unfold fzs. induction 1; cbn; lia. Qed.

  Lemma roundtrip n : Pn n.
  Proof.
    induction n using node_ind2; intros lv dep fuel rest Hg Hdep Hf Hr; cbn [jenc];
      try (destruct fuel as [|fuel]; [cbn in Hf; lia|]).
    - exists JNull. split; [reflexivity|constructor].
    - exists (JBool b). split; [destruct b; reflexivity|constructor].
    - exists (JNum (decz z)). split; [|constructor]. apply pvalue_num; auto. apply decz_number.
    - exists (JNum (f_json f)). split; [|constructor]. apply pvalue_num; auto.
    - exists (JNum s). split; [|constructor]. apply pvalue_num; auto.
    - exists (JStr s). split; [|constructor]. apply pvalue_str; auto.
    - exists (JStr (t_rfc t)). split; [|constructor]. apply pvalue_str; auto.
    - exists (JStr (dur_text d)). split; [|constructor]. apply pvalue_str; auto. apply dur_text_valid.
    - cbn [good_node ndepth fz] in *.
      destruct (group_arr lv dep rest l H Hg ltac:(lia) (S fuel) ltac:(lia)) as (vs & Hvs & He).
      exists (JArr vs). split; auto. cbn [fromNative]. constructor. clear -Hvs.
      induction Hvs; cbn; constructor; auto.
    - cbn [good_node ndepth fz] in *. destruct Hg as [Hnd Hg].
      apply (fold_and (fun e => valid_utf8 (fst e) = true) (fun e => good_node (snd e))) in Hg.
      rewrite ksort_map, map_map. cbn [fst snd].
      change (map (fun x => jstr short (fst x) ++ colon ind ++ jenc short ind (S lv) (snd x)) (ksort l)) with (map (member lv) (ksort l)).
      pose proof (ksort_perm l) as Hp.
      destruct (group_obj lv dep rest (ksort l)) with (fuel := S fuel) as (vs & Hvs & He).
      + rewrite <- Hp. exact H.
      + rewrite <- Hp. rewrite Forall_forall in *. intros e He. destruct (Hg e He) as [H1 H2]. repeat split; auto.
        pose proof (max_le (fun e => ndepth (snd e)) l e He). cbn beta in *. lia.
      + lia.
      + rewrite <- (fzs_perm _ _ Hp). exact Hf.
      + exists (JObj vs). rewrite He. split.
        * rewrite fold_mset_nodup; auto. cbn [app]. rewrite <- (forall2_keys (fun n v => reads_as n (fromNative v)) _ _ Hvs).
          rewrite <- (Permutation_map fst Hp). exact Hnd.
        * cbn [fromNative]. apply ra_map with (ksort l); auto. now apply forall2_native.
    - cbn [good_node ndepth fz] in *.
      apply (fold_and (fun e => valid_utf8 (snd (fst e)) = true) (fun e => good_node (snd e))) in Hg.
      replace (map (fun p => jstr short (snd (fst p)) ++ colon ind ++ jenc short ind (S lv) (snd p)) l)
        with (map (member lv) (map jname l)) by (now rewrite map_map).
      destruct (group_obj lv dep rest (map jname l)) with (fuel := S fuel) as (vs & Hvs & He).
      + rewrite Forall_map. exact H.
      + rewrite Forall_map. rewrite Forall_forall in *. intros e He. destruct (Hg e He) as [H1 H2]. repeat split; auto.
        pose proof (max_le (fun e => ndepth (snd e)) l e He). cbn beta in *. cbn [jname fst snd]. lia.
      + lia.
      + replace (fzs (map jname l)) with (fold_right (fun e m => S (fz (snd e) + m)) 0%nat l); [exact Hf|].
        unfold fzs. clear. induction l; cbn; congruence.
      + eexists. rewrite He. split; [reflexivity|]. cbn [fromNative].
        pose proof (forall2_fold (fun n v => reads_as n (fromNative v)) _ _ Hvs [] [] ltac:(constructor)) as Hm.
        rewrite <- AsMap_fold in Hm. apply ra_pairs with (AsMap l).
        * apply AsMap_nodup.
        * intros k v. unfold last_value. rewrite <- AsMap_last.
          symmetry. apply (mget_in beqb beqb_ok). apply AsMap_nodup.
        * now apply forall2_native.
  Qed.
End Main.

(* ---- the fuel of Decode is enough ---- *)
Lemma fold_and1 {A} (P : A -> Prop) l : fold_right (fun e R => P e /\ R) True l <-> Forall P l.
Proof.
  induction l as [|x l IH]; cbn; split; auto.
  - intros (H1 & H2). constructor; auto. now apply IH.
  - inversion 1; subst. split; auto. now apply IH.
Qed.
Lemma join_length sep l : (1 <= length sep)%nat ->
  (fold_right (fun x m => length x + m) 0 l + length l <= length (join sep l) + 1)%nat.
Proof.
  intros Hs. induction l as [|a [|b l] IH].
  - cbn. lia.
  - cbn. lia.
  - rewrite join_cons2, !app_length. cbn [fold_right length] in *. unfold bytes in *. lia.
Qed.
Lemma group_length ind o c d parts : (fold_right (fun x m => S (length x + m)) 0 parts + 1 <= length (group ind o c d parts))%nat.
Proof.
  assert (H : fold_right (fun x m => S (length x + m)) 0%nat parts = (fold_right (fun x m => length x + m) 0 parts + length parts)%nat).
  { induction parts as [|p parts IH]; cbn in *; lia. }
  rewrite H. unfold group. destruct parts as [|p parts]; [cbn; lia|].
  pose proof (join_length (chr 44 :: nl ind (S d)) (p :: parts) ltac:(cbn; lia)) as Hj.
  cbn [length app]. rewrite !app_length. cbn [length]. cbn [length] in Hj. lia.
Qed.
Lemma fold_len_perm {A} (g : A -> bytes) a b : Permutation a b ->
  fold_right (fun x m => S (length x + m))%nat 0%nat (map g a) = fold_right (fun x m => S (length x + m))%nat 0%nat (map g b).
Proof. induction 1; cbn [map fold_right]; unfold bytes in *; lia. Qed.
Lemma fold_fz {A} (f : A -> nat) (g : A -> bytes) l : Forall (fun x => f x <= 2 * length (g x))%nat l ->
  (fold_right (fun x m => S (f x + m)) 0 l <= 2 * fold_right (fun x m => S (length x + m)) 0 (map g l))%nat.
Proof. induction 1; cbn [map fold_right]; unfold bytes in *; lia. Qed.
Lemma group_fz {A} (f : A -> nat) (g : A -> bytes) l ind o c d : Forall (fun x => f x <= 2 * length (g x))%nat l ->
  (S (fold_right (fun x m => S (f x + m)) 0 l) <= 2 * length (group ind o c d (map g l)))%nat.
Proof.
  intros H. pose proof (fold_fz f g l H). pose proof (group_length ind o c d (map g l)). unfold bytes in *. lia.
Qed.
Lemma fz_length short ind n : forall d, good_node n -> (fz n <= 2 * length (jenc short ind d n))%nat.
Proof.
  assert (Hs : forall n d, good_node n -> (1 <= length (jenc short ind d n))%nat).
  { intros m d Hg. destruct (jenc_head short ind d m Hg) as (c & t & -> & _). cbn. lia. }
  induction n using node_ind2; intros lv Hg; try (pose proof (Hs _ lv Hg); cbn [fz]; lia); cbn [fz jenc good_node] in *.
  - apply group_fz. apply fold_and1 in Hg. rewrite Forall_forall in *. intros x Hx. now apply H, Hg.
  - destruct Hg as [_ Hg]. apply (fold_and (fun e => valid_utf8 (fst e) = true) (fun e => good_node (snd e))) in Hg.
    rewrite ksort_map, map_map. cbn [fst snd].
    replace (fold_right (fun e m => S (fz (snd e) + m)) 0%nat l) with (fzs (ksort l)) by (symmetry; apply fzs_perm, ksort_perm).
    apply group_fz. rewrite <- ksort_perm. rewrite Forall_forall in *. intros x Hx. rewrite !app_length.
    specialize (H x Hx (S lv) (proj2 (Hg x Hx))). unfold bytes in *. lia.
  - apply (fold_and (fun e => valid_utf8 (snd (fst e)) = true) (fun e => good_node (snd e))) in Hg.
    apply group_fz. rewrite Forall_forall in *. intros x Hx. rewrite !app_length.
    specialize (H x Hx (S lv) (proj2 (Hg x Hx))). unfold bytes in *. lia.
Qed.

Lemma good_encodable n : good_node n -> encodable n = true.
Proof.
  induction n using node_ind2; cbn; intros Hg; auto; try (now apply is_number_spec).
  - induction H as [|x l Hx Hl IH]; cbn in *; auto. destruct Hg. rewrite Hx; auto.
  - destruct Hg as [_ Hg]. induction H as [|x l Hx Hl IH]; cbn in *; auto. destruct Hg as (_ & H1 & H2). rewrite Hx; auto.
  - induction H as [|x l Hx Hl IH]; cbn in *; auto. destruct Hg as (_ & H1 & H2). rewrite Hx; auto.
Qed.

Lemma encode_decode short ind n : good_node n -> (N.of_nat (ndepth n) <= 10000)%N ->
  exists j m, Encode short ind n = Ok j /\ Decode j = Good (Some m) /\ reads_as n m.
Proof.
  intros Hg Hd. exists (jenc short ind 0 n). unfold Encode. rewrite good_encodable by auto.
  destruct (roundtrip short ind n 0%nat 0%nat (2 * length (jenc short ind 0 n) + 2)%nat []) as (v & Hv & Hr); auto.
  - rewrite Nat.add_0_r. unfold maxdepth. lia.
  - pose proof (fz_length short ind n 0 Hg). lia.
  - exact I.
  - exists (fromNative v). repeat split; auto. rewrite app_nil_r in Hv. unfold Decode. rewrite Hv.
    destruct (jenc_head short ind 0 n Hg) as (c & t & -> & _). reflexivity.
Qed.

(* any bytes as a string *)
Lemma string_decode short ind s :
  exists j, Encode short ind (NStr s) = Ok j /\ Decode j = Good (Some (NStr (cleaned s))).
Proof.
  exists (jstr short s). split; [reflexivity|]. destruct (pstring_jstr short s []) as (q & Hj & Hq).
  rewrite app_nil_r in Hq. unfold Decode. rewrite Hj.
  replace (2 * length (dquote :: q) + 2)%nat with (S (2 * length q + 3)) by (cbn [length]; lia).
  cbn [pvalue]. rewrite ws_cons by reflexivity.
  change (code dquote =? 123) with false. change (code dquote =? 91) with false. change (code dquote =? 34) with true.
  cbv iota. rewrite Hq. reflexivity.
Qed.

(* ---- the encoding does not depend on how maps are listed ---- *)
Lemma jenc_reorder short ind n : forall d n', distinct_keys n -> reorder n n' -> jenc short ind d n = jenc short ind d n'.
Proof.
  induction n using node_ind2; intros lv n' Hk Hr; inversion Hr as [|? l2 H2|? m l2 H2 H3|? l2 H2]; subst; auto; cbn [jenc distinct_keys] in *.
  - f_equal. clear Hr. rewrite fold_and1 in Hk. revert l2 H2. induction H as [|x l Hx Hl IH]; intros l2 H2; inversion H2; subst; cbn; auto.
    inversion Hk; subst. f_equal; auto.
  - f_equal. destruct Hk as [Hn Hk]. rewrite fold_and1 in Hk. f_equal.
    assert (Hm : map (fun e => (fst e, jenc short ind (S lv) (snd e))) m = map (fun e => (fst e, jenc short ind (S lv) (snd e))) l2).
    { assert (Hf : Forall (fun e => forall d n', distinct_keys (snd e) -> reorder (snd e) n' -> jenc short ind d (snd e) = jenc short ind d n') m)
        by (rewrite <- H2; exact H).
      assert (Hk' : Forall (fun e : bytes * node => distinct_keys (snd e)) m) by (rewrite <- H2; exact Hk).
      clear -H3 Hf Hk'. induction H3 as [|[k a] [k' b] m l2 [H1 H2] H3 IH]; cbn; auto.
      inversion Hf; subst. inversion Hk'; subst. cbn in *. subst. f_equal; auto. f_equal. auto. }
    rewrite <- Hm. apply ksort_same.
    + rewrite map_map. cbn. exact Hn.
    + now apply Permutation_map.
  - f_equal. clear Hr. rewrite fold_and1 in Hk. revert l2 H2. induction H as [|x l Hx Hl IH]; intros l2 H2; inversion H2 as [|? b ? ? [H3 H4] H5]; subst; cbn; auto.
    inversion Hk; subst. f_equal; [|now auto]. rewrite H3. now rewrite (Hx (S lv) (snd b)).
Qed.

Lemma encodable_reorder n : forall n', reorder n n' -> encodable n = encodable n'.
Proof.
  induction n using node_ind2; intros n' Hr; inversion Hr as [|? l2 H2|? m l2 H2 H3|? l2 H2]; subst; auto; cbn [encodable].
  - clear Hr. revert l2 H2. induction H as [|x l Hx Hl IH]; intros l2 H2; inversion H2; subst; cbn; auto. f_equal; auto.
  - assert (Hp : forallb (fun e => encodable (snd e)) l = forallb (fun e => encodable (snd e)) m).
    { clear -H2. induction H2; cbn; auto; try congruence. now rewrite !andb_assoc, (andb_comm (encodable (snd y))). }
    rewrite Hp. assert (Hf : Forall (fun e => forall n', reorder (snd e) n' -> encodable (snd e) = encodable n') m) by (rewrite <- H2; exact H).
    clear -H3 Hf. induction H3 as [|a b m l2 [H1 H2] H3 IH]; cbn; auto. inversion Hf; subst. f_equal; auto.
  - clear Hr. revert l2 H2. induction H as [|x l Hx Hl IH]; intros l2 H2; inversion H2 as [|? b ? ? [H3 H4] H5]; subst; cbn; auto. f_equal; auto.
Qed.

Lemma encode_reorder short ind n n' : distinct_keys n -> reorder n n' -> Encode short ind n = Encode short ind n'.
Proof.
  intros Hk Hr. unfold Encode. rewrite (encodable_reorder n n' Hr). now rewrite (jenc_reorder short ind n 0 n' Hk Hr).
Qed.

(* two maps that answer every lookup alike *)
Lemma same_lookups (l m : list (bytes * node)) : NoDup (map fst l) -> NoDup (map fst m) ->
  (forall k, mget beqb l k = mget beqb m k) -> Permutation l m.
Proof.
  intros Hl Hm H. apply NoDup_Permutation.
  - now apply NoDup_map_inv in Hl.
  - now apply NoDup_map_inv in Hm.
  - intros [k v]. rewrite <- (mget_in beqb beqb_ok l k v Hl), <- (mget_in beqb beqb_ok m k v Hm), H. tauto.
Qed.
Lemma encode_same_entries short ind l m : NoDup (map fst l) -> NoDup (map fst m) ->
  (forall k, mget beqb l k = mget beqb m k) -> Encode short ind (NMap l) = Encode short ind (NMap m).
Proof.
  intros Hl Hm H. pose proof (same_lookups l m Hl Hm H) as Hp. unfold Encode. cbn [encodable jenc].
  replace (forallb (fun e => encodable (snd e)) m) with (forallb (fun e => encodable (snd e)) l).
  - rewrite (ksort_same (map (fun e => (fst e, jenc short ind 1 (snd e))) l) (map (fun e => (fst e, jenc short ind 1 (snd e))) m)); auto.
    + rewrite map_map. exact Hl.
    + now apply Permutation_map.
  - clear -Hp. induction Hp; cbn; auto; try congruence. now rewrite !andb_assoc, (andb_comm (encodable (snd y))).
Qed.
