(* Properties C57, C58, C59, C92, C93, C94: /repo/api/openapi/schema.go and UpdateOpenAPI in /repo/api/handler.go. *)
From Coq Require Import Bool Ascii String Arith NArith ZArith Lia List.
From Verif Require Import Prelude PreludeFacts Utf8Model Utf8Facts DecModel DurModel DurProofs KvProofs EncModel JsonModel MarModel MarSpec MarFacts MarProofs ConfModel ConfSpec ConfProofs ApiModel ApiSpec ApiMar ApiProofs ApiRecv OaModel OaSpec OaProofs OaTerm OaShape.
Import ListNotations.

(* ---- C57 ---- *)
(* It returns if finitely many types are reached and every cycle of types goes through a struct with a name. *)
Theorem C57_terminates_partial : forall env parse_float l, (forall a b, In a l -> edge env a b -> In b l) ->
  (forall a p, path env a a p -> exists b k fs, In b p /\ named env b k fs) ->
  forall st t doc ex, In t l -> exists n r, schemaFromType env parse_float n st t doc ex = Some r.
Proof. intros env pf l Hl Hc st t doc ex Ht. exact (terminates env pf l Hl Hc (missing env l st) t Ht st doc ex (le_n _)). Qed.
Print Assumptions C57_terminates_partial.
(* It does not for a type that is a list of, or a pointer to, such types: type L []L, type P *P. *)
Theorem C57_loop_refuted : forall env parse_float (P : tid -> Prop),
  (forall t, P t -> exists e, P e /\ (t_kind (env t) = KPtr e \/ (t_kind (env t) = KSeq e /\ plain env t))) ->
  forall n t st doc ex, P t -> schemaFromType env parse_float n st t doc ex = None.
Proof. exact diverges. Qed.
Print Assumptions C57_loop_refuted.

(* package "x/y"; type Tree struct { Val int `json:"val" doc:"a number" example:"3"`; Kids []*Tree `json:"kids,omitempty"`; up *Tree } *)
Definition types (l : list tinfo) : tid -> tinfo := fun t => nth t l (TInfo [] SNone KOther).
Definition tree : tid -> tinfo := types
  [TInfo (B "y.Tree") SNone (KStruct (Some (B "x/y", B "Tree"))
     [SFld (B "Val") true (B "val") (B "a number") (B "3") 1; SFld (B "Kids") true (B "kids,omitempty") [] [] 2; SFld (B "up") false [] [] [] 3]);
   TInfo (B "int") SNone KInt; TInfo (B "[]*y.Tree") SNone (KSeq 3); TInfo (B "*y.Tree") SNone (KPtr 0)].
Definition tree_comp : schema := Schema (B "object") (B "*y.Tree")
  [(B "val", Schema (B "number") (B "int") [] None (B "a number") (Some (XInt 3)) None []);
   (B "kids", Schema (B "array") (B "[]*y.Tree") [] None [] None (Some (Schema [] [] [] None [] None None [B "#/components/schemas/x_y_Tree"])) []);
   (B "up", Schema [] [] [] None [] None None [B "#/components/schemas/x_y_Tree"])] None [] None None [].
Lemma tree_edges a b : edge tree a b -> (a = 0 /\ (b = 1 \/ b = 2 \/ b = 3)) \/ (a = 2 /\ b = 3) \/ (a = 3 /\ b = 0).
Proof. intros (H & _). destruct a as [|[|[|[|[|a]]]]]; cbn in H; intuition. Qed.
Lemma tree_cycles a b p : path tree a b p -> In 0 p \/ (a = 2 /\ (b = 3 \/ b = 0)) \/ (a = 3 /\ b = 0).
Proof.
  induction 1 as [a b He|a b c p He Hp IH]; apply tree_edges in He; cbn [In].
  - intuition.
  - destruct He as [(-> & _)|[(-> & ->)|(-> & ->)]]; auto; destruct IH as [IH|[(IH & IH')|(IH & IH')]]; try discriminate; auto.
Qed.
Example C57_ex : forall parse_float st doc ex,
  (exists n r, schemaFromType tree parse_float n st 3 doc ex = Some r) /\
  schemaFromType tree parse_float 9 [] 3 (B "top") [] = Some (SOk (Schema [] [] [] None (B "top") None None [B "#/components/schemas/x_y_Tree"]), [(B "x_y_Tree", tree_comp)]) /\
  (forall n, schemaFromType (types [TInfo (B "L") SNone (KSeq 0)]) parse_float n st 0 doc ex = None) /\
  (forall n, schemaFromType (types [TInfo (B "P") SNone (KPtr 0)]) parse_float n st 0 doc ex = None).
Proof.
  intros pf st doc ex. split; [|split; [vm_compute; reflexivity|split]].
  - apply (C57_terminates_partial tree pf [0; 1; 2; 3]); [|intros a p Hp|cbn; auto].
    + intros a b _ He. apply tree_edges in He. cbn. intuition.
    + exists 0, (structKey (B "x/y") (B "Tree")). eexists. split; [|exists (B "x/y"), (B "Tree"); split; reflexivity]. apply tree_cycles in Hp. intuition; try discriminate; subst; discriminate.
  - intros n. apply (C57_loop_refuted _ pf (fun t => t = 0)); auto. intros t ->. exists 0. split; auto. right. split; [reflexivity|exact I].
  - intros n. apply (C57_loop_refuted _ pf (fun t => t = 0)); auto. intros t ->. exists 0. split; auto.
Qed.

(* ---- C58 ---- *)
(* After any calls, whatever came of them, each reference in the components and in the schema returned names a component. *)
Theorem C58_resolve : forall env parse_float st n t doc ex r st', calls env parse_float st -> schemaFromType env parse_float n st t doc ex = Some (r, st') ->
  (forall k x ref, mget beqb st' k = Some x -> In ref (refs x) -> resolves st' ref) /\ (forall s ref, r = SOk s -> In ref (refs s) -> resolves st' ref).
Proof.
  intros env pf st n t doc ex r st' Hc E. destruct (sft_closed env pf n st t doc ex r st' (calls_closed env pf st Hc) E) as (H1 & H2). split.
  - intros k x ref Hk Hi. exact (H1 k x Hk ref Hi).
  - intros s ref Hs Hi. exact (H2 s Hs ref Hi).
Qed.
Print Assumptions C58_resolve.
(* Components that are there stay as they are. *)
Theorem C58_kept : forall env parse_float st n t doc ex r st' k x, schemaFromType env parse_float n st t doc ex = Some (r, st') -> mget beqb st k = Some x -> mget beqb st' k = Some x.
Proof. intros env pf st n t doc ex r st' k x E. exact (sft_keep env pf n st t doc ex r st' E k x). Qed.
Print Assumptions C58_kept.
Example C58_ex : forall parse_float,
  calls tree parse_float [(B "x_y_Tree", tree_comp)] /\ In (B "#/components/schemas/x_y_Tree") (refs tree_comp) /\
  resolves [(B "x_y_Tree", tree_comp)] (B "#/components/schemas/x_y_Tree").
Proof.
  intros pf. split; [|split; [now left|]].
  - eapply (calls_more _ _ [] 9 3 [] []); [constructor|vm_compute; reflexivity].
  - exists (B "x_y_Tree"), tree_comp. split; reflexivity.
Qed.

(* ---- C59 ---- *)
(* A type of an unsupported kind, or a pointer to one, is an error, and nothing is changed. *)
Theorem C59_top_partial : forall env parse_float t u, points env t u -> plain env u -> t_kind (env u) = KOther ->
  exists n, forall m st doc ex, n <= m -> schemaFromType env parse_float m st t doc ex = Some (SErr, st).
Proof. intros env pf t u Hp Hpl K. destruct (sft_unsupported env pf t u Hp Hpl K) as (n & H). exists n. intros m st doc ex Hm. eapply sft_mono; eauto. Qed.
Print Assumptions C59_top_partial.
(* There is no other error, and no success: with an unsupported kind anywhere else in it, it panics (if it ends). *)
Theorem C59_nested_refuted : forall env parse_float st n t b doc ex r st', distinct_keys env -> good_calls env parse_float st ->
  schemaFromType env parse_float n st t doc ex = Some (r, st') -> within env t b -> plain env b -> t_kind (env b) = KOther ->
  (points env t b -> r = SErr /\ st' = st) /\ (~ points env t b -> r = SPanic).
Proof.
  intros env pf st n t b doc ex r st' Hd Hg E Hw Hb K. assert (Hs : forall s, r <> SOk s).
  { intros s ->. assert (Hg' : good_calls env pf st') by (eapply good_more; eauto; discriminate). destruct (sft_shape env pf n st t doc ex s st' E) as (H1 & _).
    destruct (shape_within env st' t s b (good_sound env pf st' Hd Hg') H1 Hw) as (s' & Hs'). exact (shape_kind env st' b s' Hs' Hb K). }
  split; intros Hp.
  - destruct (C59_top_partial env pf t b Hp Hb K) as (m & H). specialize (H (max n m) st doc ex (Nat.le_max_r _ _)). rewrite (sft_mono env pf n (max n m) st t doc ex _ (Nat.le_max_l _ _) E) in H. injection H as -> ->. auto.
  - destruct r as [s| |]; [destruct (Hs s); reflexivity| |reflexivity]. exfalso. apply sft_err in E as (_ & u & Hu & Hpu & Ku). destruct Hw as [<-|(p & Hpath)].
    + apply Hp. apply points_at. intros (e & Ke). congruence.
    + apply Hp. clear - Hpath Hu Ku K. revert Hu K. induction Hpath as [a b (He & _)|a b c p (He & _) _ IH]; intros Hu K; unfold parts in He; inversion Hu; subst;
        try (rewrite Ku in He; destruct He); rewrite H in He; cbn in He; destruct He as [<-|[]].
      * eapply points_to; eauto. apply points_at. intros (x & Hx). congruence.
      * eapply points_to; eauto.
Qed.
Print Assumptions C59_nested_refuted.
(* A type that marshals itself panics if the JSON of its zero value begins with a minus sign. *)
Theorem C59_negative_refuted : forall env parse_float n st t doc ex j, ~ is_ptr env t -> t_special (env t) = SMarshaler (MarJson ("-"%char :: j)) ->
  schemaFromType env parse_float (S n) st t doc ex = Some (SPanic, st).
Proof.
  intros env pf n st t doc ex j Hp Hs. cbn [schemaFromType]. assert (Ed : deref env (S n) t = Some t) by (cbn [deref]; destruct (t_kind (env t)) eqn:K; auto; exfalso; apply Hp; eexists; eauto).
  rewrite Ed, Hs. reflexivity.
Qed.
Print Assumptions C59_negative_refuted.
(* type Job struct { ID int; Done chan int } : a panic, but then, if it is recovered from, a success, and the component is left without Done. *)
Definition job : tid -> tinfo := types
  [TInfo (B "y.Job") SNone (KStruct (Some (B "x/y", B "Job")) [SFld (B "ID") true [] [] [] 1; SFld (B "Done") true [] [] [] 2]); TInfo (B "int") SNone KInt; TInfo (B "chan int") SNone KOther].
Theorem C59_again_refuted : forall parse_float, exists st s x,
  schemaFromType job parse_float 5 [] 0 [] [] = Some (SPanic, st) /\ schemaFromType job parse_float 5 st 0 [] [] = Some (SOk s, st) /\
  stands_for st s x /\ map fst (s_props x) = [B "ID"].
Proof.
  intros pf. eexists. eexists. eexists. split; [vm_compute; reflexivity|]. split; [vm_compute; reflexivity|]. split; [right; exists (B "x_y_Job"); split; reflexivity|reflexivity].
Qed.
Print Assumptions C59_again_refuted.
(* type F struct { X float64 `example:"NaN"` } : a panic.  parse_float is strconv.ParseFloat, which reads NaN. *)
Theorem C59_nan_refuted : forall parse_float f, parse_float (B "NaN") = Some f -> f_json f = B "NaN" -> exists st,
  schemaFromType (types [TInfo (B "y.F") SNone (KStruct (Some (B "y", B "F")) [SFld (B "X") true [] [] (B "NaN") 1]); TInfo (B "float64") SNone KFloat]) parse_float 5 [] 0 [] [] = Some (SPanic, st).
Proof. intros pf f E J. eexists. cbn in E |- *. rewrite E. cbn. rewrite J. reflexivity. Qed.
Print Assumptions C59_nan_refuted.
(* A call that succeeds found supported kinds only. *)
Theorem C59_supported_partial : forall env parse_float st n t b doc ex s st', distinct_keys env -> good_calls env parse_float st ->
  schemaFromType env parse_float n st t doc ex = Some (SOk s, st') -> within env t b -> plain env b -> t_kind (env b) <> KOther.
Proof.
  intros env pf st n t b doc ex s st' Hd Hg E Hw Hb K. destruct (C59_nested_refuted env pf st n t b doc ex _ st' Hd Hg E Hw Hb K) as (H1 & H2).
  assert (~ points env t b) as H3 by (intros Hp; apply H1 in Hp as [[=] _]). discriminate (H2 H3).
Qed.
Print Assumptions C59_supported_partial.
(* Struct types have components of their own if there is no "_" in names of packages and types, and no two types have the same names. *)
Theorem C59_distinct_partial : forall env, plain_names env -> distinct_keys env.
Proof.
  intros env (H1 & H2) t t' k fs fs' (p & n & K & ->) (p' & n' & K' & E). destruct (H1 _ _ _ _ K) as (A1 & A2 & A3). destruct (H1 _ _ _ _ K') as (B1 & B2 & B3).
  assert (Hs : p ++ B "/" ++ n = p' ++ B "/" ++ n').
  { assert (U : forall a b, ~ In "_"%char a -> ~ In "_"%char b -> map (fun c => if (code c =? 47)%N then chr 95 else c) a = map (fun c => if (code c =? 47)%N then chr 95 else c) b -> a = b).
    { induction a as [|c a IH]; intros [|d b] Ha Hb Em; try discriminate; auto. cbn [map] in Em. injection Em as Ec Em. f_equal; [|apply IH; auto; intros X; [apply Ha|apply Hb]; now right].
      assert (Hc : c <> "_"%char) by (intros ->; apply Ha; now left). assert (Hd : d <> "_"%char) by (intros ->; apply Hb; now left).
      destruct (code c =? 47)%N eqn:Xc, (code d =? 47)%N eqn:Xd; auto.
      - apply N.eqb_eq in Xc, Xd. apply code_inj. congruence.
      - exfalso. apply Hd. rewrite <- Ec. reflexivity.
      - exfalso. apply Hc. rewrite Ec. reflexivity. }
    apply U; [| |exact E]; intros X; apply in_app_or in X as [X|[X|X]]; auto; discriminate. }
  assert (Hpn : p = p' /\ n = n').
  { clear - A3 B3 Hs. revert p' Hs. induction p as [|c p IH]; intros [|d p'] Hs; cbn [app] in Hs.
    - injection Hs as ->. auto.
    - exfalso. injection Hs as <- Hn. apply A3. rewrite Hn. apply in_or_app. right. now left.
    - exfalso. injection Hs as -> Hn. apply B3. rewrite <- Hn. apply in_or_app. right. now left.
    - injection Hs as -> Hs. destruct (IH p' Hs) as (-> & ->). auto. }
  destruct Hpn as (-> & ->). eapply H2; eauto.
Qed.
Print Assumptions C59_distinct_partial.
(* Else they may not: type C of package "a/b" and type b_C of package "a" are both described by the component that was made first. *)
Definition clash : tid -> tinfo := types
  [TInfo (B "b.C") SNone (KStruct (Some (B "a/b", B "C")) [SFld (B "X") true [] [] [] 2]); TInfo (B "a.b_C") SNone (KStruct (Some (B "a", B "b_C")) [SFld (B "Y") true [] [] [] 2]); TInfo (B "int") SNone KInt].
Theorem C59_distinct_refuted : forall parse_float, exists st s x,
  schemaFromType clash parse_float 5 [] 0 [] [] = Some (SOk s, st) /\ schemaFromType clash parse_float 5 st 1 [] [] = Some (SOk s, st) /\
  stands_for st s x /\ map fst (s_props x) = [B "X"].
Proof.
  intros pf. eexists. eexists. eexists. split; [vm_compute; reflexivity|]. split; [vm_compute; reflexivity|]. split; [right; exists (B "a_b_C"); split; reflexivity|reflexivity].
Qed.
Print Assumptions C59_distinct_refuted.
Lemma tree_plain : plain_names tree.
Proof.
  assert (G : forall t pkg n fs, t_kind (tree t) = KStruct (Some (pkg, n)) fs -> t = 0 /\ pkg = B "x/y" /\ n = B "Tree") by (intros [|[|[|[|[|t]]]]] pkg n fs [=]; auto). split.
  - intros t pkg n fs K. apply G in K as (-> & -> & ->). cbn. intuition discriminate.
  - intros t t' pkg n fs fs' K K'. apply G in K as (-> & _). apply G in K' as (-> & _). reflexivity.
Qed.
Lemma job_plain : plain_names job.
Proof.
  assert (G : forall t pkg n fs, t_kind (job t) = KStruct (Some (pkg, n)) fs -> t = 0 /\ pkg = B "x/y" /\ n = B "Job") by (intros [|[|[|[|t]]]] pkg n fs [=]; auto). split.
  - intros t pkg n fs K. apply G in K as (-> & -> & ->). cbn. intuition discriminate.
  - intros t t' pkg n fs fs' K K'. apply G in K as (-> & _). apply G in K' as (-> & _). reflexivity.
Qed.
Example C59_ex : forall parse_float,
  distinct_keys tree /\ good_calls tree parse_float [(B "x_y_Tree", tree_comp)] /\ distinct_keys job /\
  (* chan int; the panic for Job *)
  schemaFromType job parse_float 5 [] 2 [] [] = Some (SErr, []) /\ within job 0 2 /\ ~ points job 0 2.
Proof.
  intros pf. split; [apply C59_distinct_partial, tree_plain|]. split; [eapply (good_more _ _ [] 9 3 [] []); [constructor|vm_compute; reflexivity|discriminate]|].
  split; [apply C59_distinct_partial, job_plain|]. split; [reflexivity|]. split.
  - right. eexists. apply path_one. split; [cbn; auto|]. right. exact I.
  - intros Hp. inversion Hp; subst. discriminate.
Qed.

(* ---- C92 ---- *)
(* What enc.Marshal makes of a value conforms to the schema of its type, but for null in place of nil pointers, slices and maps. *)
Theorem C92_conforms_partial : forall env parse_float st n t doc ex s st' a v x nullable, distinct_keys env -> names_differ env -> good_calls env parse_float st ->
  schemaFromType env parse_float n st t doc ex = Some (SOk s, st') -> denotes env t a -> hasty a v -> mar a v = Ok x ->
  nullable = true \/ no_nil a v -> conforms st' nullable s x.
Proof.
  intros env pf st n t doc ex s st' a v x nl Hd Hn Hg E Hde Hv Hm Hnl. assert (Hg' : good_calls env pf st') by (eapply good_more; eauto; discriminate).
  eapply (fits_all env pf st' nl (good_sound env pf st' Hd Hg') Hn a); eauto. eapply sft_shape; eauto.
Qed.
Print Assumptions C92_conforms_partial.
(* A nil slice is sent as null, which is not an array, and no schema says nullable. *)
Theorem C92_null_refuted : forall env parse_float st n t e doc ex s st', t_kind (env t) = KSeq e -> t_special (env t) = SNone ->
  schemaFromType env parse_float n st t doc ex = Some (SOk s, st') -> forall a, mar (TSlice a) VNil = Ok NNil /\ ~ conforms st' false s NNil.
Proof.
  intros env pf st n t e doc ex s st' K Hs E a. split; [reflexivity|]. destruct n as [|n]; [discriminate|]. cbn [schemaFromType deref] in E. rewrite K, Hs in E. unfold ofKind in E. rewrite K in E.
  destruct (schemaFromType env pf n st e [] []) as [[[x| |] st1]|]; try discriminate. injection E as <- <-. intros H. inversion H; subst; try discriminate.
Qed.
Print Assumptions C92_null_refuted.
(* A []byte is documented as a string, and sent as a list of numbers. *)
Theorem C92_bytes_refuted : forall env parse_float st n t doc ex s st' nullable l x, ~ is_ptr env t -> t_special (env t) = SBytes ->
  schemaFromType env parse_float n st t doc ex = Some (SOk s, st') -> mar (TSlice (TUint W8)) (VList l) = Ok x ->
  s_type s = B "string" /\ ~ conforms st' nullable s x.
Proof.
  intros env pf st n t doc ex s st' nl l x Hp Hs E Hm. destruct n as [|n]; [discriminate|]. cbn [schemaFromType] in E.
  assert (Ed : deref env (S n) t = Some t) by (cbn [deref]; destruct (t_kind (env t)) eqn:K; auto; exfalso; apply Hp; eexists; eauto).
  rewrite Ed, Hs in E. injection E as <- <-. split; [reflexivity|]. cbn [mar] in Hm. destruct (mar_elems _ l); [|discriminate]. injection Hm as <-. intros H. inversion H; subst; try discriminate.
Qed.
Print Assumptions C92_bytes_refuted.
(* A field that is not in JSON takes the place of one that is: struct { A string `json:"a"`; a int }. *)
Definition hides : tid -> tinfo := types
  [TInfo (B "struct") SNone (KStruct None [SFld (B "A") true (B "a") [] [] 1; SFld (B "a") false [] [] [] 2]); TInfo (B "string") SNone KString; TInfo (B "int") SNone KInt].
Definition hides_ty : ty := TStruct [(Fld (B "A") true (B "a"), TStr); (Fld (B "a") false [], TInt W64)].
Theorem C92_hidden_refuted : forall parse_float nullable b z, denotes hides 0 hides_ty /\ exists s st x, schemaFromType hides parse_float 5 [] 0 [] [] = Some (SOk s, st) /\
  mar hides_ty (VStruct [VStr b; VNum z]) = Ok x /\ ~ conforms st nullable s x.
Proof.
  intros pf nl b z. split; [cbn; repeat split; auto|]. eexists. eexists. eexists. split; [vm_compute; reflexivity|]. split; [reflexivity|]. intros H. inversion H as [| | | | | | | |s n l H1 H2 H3| |]; subst; try discriminate.
  injection H2 as <-. destruct (H3 (B "a") (NStr b) (or_introl eq_refl)) as (s' & [Hs|(_ & Hs)] & Hc); [|discriminate]. cbn in Hs. injection Hs as <-. inversion Hc; subst; discriminate.
Qed.
Print Assumptions C92_hidden_refuted.

(* type Page struct { Title string `json:"title"`; Tags []string; Count map[string]int `json:"count,omitempty"`; note *int } *)
Definition page : tid -> tinfo := types
  [TInfo (B "y.Page") SNone (KStruct (Some (B "x/y", B "Page"))
     [SFld (B "Title") true (B "title") [] [] 1; SFld (B "Tags") true [] [] [] 2; SFld (B "Count") true (B "count,omitempty") [] [] 3; SFld (B "note") false [] [] [] 5]);
   TInfo (B "string") SNone KString; TInfo (B "[]string") SNone (KSeq 1); TInfo (B "map[string]int") SNone (KMap 1 4); TInfo (B "int") SNone KInt; TInfo (B "*int") SNone (KPtr 4)].
Definition page_ty : ty := TStruct [(Fld (B "Title") true (B "title"), TStr); (Fld (B "Tags") true [], TSlice TStr); (Fld (B "Count") true (B "count,omitempty"), TMap KTStr (TInt W64)); (Fld (B "note") false [], TPtr (TInt W64))].
Definition page_val : val := VStruct [VStr (B "Hi"); VList [VStr (B "x")]; VMap [(KStr (B "k"), VNum 7)]; VPtr (VNum 1)].
Definition page_fields : list sfld := [SFld (B "Title") true (B "title") [] [] 1; SFld (B "Tags") true [] [] [] 2; SFld (B "Count") true (B "count,omitempty") [] [] 3; SFld (B "note") false [] [] [] 5].
Lemma page_kind t nm fs : t_kind (page t) = KStruct nm fs -> t = 0 /\ nm = Some (B "x/y", B "Page") /\ fs = page_fields.
Proof. destruct t as [|[|[|[|[|[|[|t]]]]]]]; intros [=]; subst; auto. Qed.
Lemma page_plain : plain_names page.
Proof.
  split.
  - intros t pkg n fs K. apply page_kind in K as (-> & [= -> ->] & _). cbn. intuition discriminate.
  - intros t t' pkg n fs fs' K K'. apply page_kind in K as (-> & _). apply page_kind in K' as (-> & _). reflexivity.
Qed.
Lemma page_names : names_differ page.
Proof.
  intros t nm fs i j f g name K Hi Hj _ Hf Hg. apply page_kind in K as (_ & _ & ->). apply json_name_iff in Hf, Hg. subst name.
  destruct i as [|[|[|[|i]]]]; cbn in Hi; try (destruct i; discriminate); destruct j as [|[|[|[|j]]]]; cbn in Hj; try (destruct j; discriminate); auto; injection Hi as <-; injection Hj as <-; discriminate Hg.
Qed.
Example C92_ex : forall parse_float, exists s st x,
  distinct_keys page /\ names_differ page /\ schemaFromType page parse_float 9 [] 0 [] [] = Some (SOk s, st) /\ denotes page 0 page_ty /\ hasty page_ty page_val /\
  mar page_ty page_val = Ok x /\ no_nil page_ty page_val /\ conforms st false s x /\ entries x = Some [(B "title", NStr (B "Hi")); (B "Tags", NList [NStr (B "x")]); (B "count", NMap [(B "k", NInt 7)])].
Proof.
  intros pf. assert (Hd := C59_distinct_partial page page_plain). assert (Hde : denotes page 0 page_ty) by (cbn; repeat split; auto).
  assert (Hv : hasty page_ty page_val) by (repeat constructor; cbn; unfold int_range; cbn; try lia; auto). assert (Hn : no_nil page_ty page_val) by (repeat constructor).
  destruct (schemaFromType page pf 9 [] 0 [] []) as [[[s| |] st]|] eqn:E; try (vm_compute in E; discriminate).
  destruct (mar page_ty page_val) as [x|] eqn:Em; [|vm_compute in Em; discriminate]. exists s, st, x. repeat (split; [assumption||reflexivity||exact page_names|]). split.
  - eapply (C92_conforms_partial page pf [] 9 0 [] []); eauto using page_names; constructor.
  - apply (f_equal (fun r => match r with Ok x => entries x | _ => None end)) in Em. cbv beta iota in Em. rewrite <- Em. vm_compute. reflexivity.
Qed.

(* ---- C93 ---- *)
Section Struct.
  Context (env : tid -> tinfo) (parse_float : bytes -> option floatv).
  Lemma struct_shape st t s u nm fs : sound env st -> shape env st t s -> points env t u -> plain env u -> t_kind (env u) = KStruct nm fs ->
    exists x ss, stands_for st s x /\ s_type x = B "object" /\ s_addl x = None /\ s_props x = assemble [] fs ss /\ shapes env st fs ss.
  Proof.
    intros (Hd & Hg) Hs Hp Hu K. induction Hp as [t Hnp|t e u Ke Hp IH].
    - inversion Hs; subst; try congruence; try contradiction; try (destruct H0; congruence).
      + rewrite K in H0. injection H0 as -> ->. exists s, ss. split; [left; auto|]. auto.
      + destruct (Hg _ _ H2) as (t' & fs' & ss & Hn & _ & Ht & Ha & Hpr & Hsh). pose proof (Hd _ _ _ _ _ H0 Hn) as <-.
        destruct H0 as (p1 & n1 & K1 & E1), Hn as (p2 & n2 & K2 & E2). rewrite K in K1, K2. injection K1 as -> ->. injection K2 as -> -> <-.
        exists s', ss. split; [right; exists k; auto|]. auto.
    - apply IH; auto. inversion Hs; subst; try congruence; try (destruct H0; congruence).
      + destruct H0 as (? & ? & ? & _). congruence.
  Qed.
  (* The schema of a struct, or the component it refers to, has properties with exactly the JSON names of the fields. *)
  Theorem C93_fields_partial : forall st n t doc ex s st' u nm fs, distinct_keys env -> good_calls env parse_float st ->
    schemaFromType env parse_float n st t doc ex = Some (SOk s, st') -> points env t u -> plain env u -> t_kind (env u) = KStruct nm fs ->
    exists x, stands_for st' s x /\ s_type x = B "object" /\ s_addl x = None /\
      forall name, (exists s', mget beqb (s_props x) name = Some s') <-> exists f, In f fs /\ json_name f name.
  Proof.
    intros st n t doc ex s st' u nm fs Hd Hg E Hp Hu K. assert (Hg' : good_calls env parse_float st') by (eapply good_more; eauto; discriminate).
    destruct (sft_shape env parse_float n st t doc ex s st' E) as (Hs & _). destruct (struct_shape st' t s u nm fs (good_sound env parse_float st' Hd Hg') Hs Hp Hu K) as (x & ss & H1 & H2 & H3 & H4 & H5).
    exists x. repeat (split; [assumption|]). intros name. rewrite H4. pose proof (shapes_length env st' fs ss H5) as Hl. split.
    - intros (s' & Hs'). apply assemble_names in Hs' as [Hi|[=]]; auto. apply in_map_iff in Hi as (f & <- & Hf). exists f. split; auto. now apply json_name_iff.
    - intros (f & Hf & Hn). apply json_name_iff in Hn as ->. now apply assemble_has.
  Qed.
  (* So fields that are not in JSON, as unexported ones, are in the documentation. *)
  Theorem C93_hidden_refuted : forall st n t doc ex s st' u nm fs f name, distinct_keys env -> good_calls env parse_float st ->
    schemaFromType env parse_float n st t doc ex = Some (SOk s, st') -> points env t u -> plain env u -> t_kind (env u) = KStruct nm fs ->
    In f fs -> ~ shown f -> json_name f name -> exists x s', stands_for st' s x /\ mget beqb (s_props x) name = Some s'.
  Proof.
    intros st n t doc ex s st' u nm fs f name Hd Hg E Hp Hu K Hf _ Hn. destruct (C93_fields_partial st n t doc ex s st' u nm fs Hd Hg E Hp Hu K) as (x & H1 & _ & _ & H2).
    destruct (proj2 (H2 name) (ex_intro _ f (conj Hf Hn))) as (s' & Hs'). exists x, s'. auto.
  Qed.
End Struct.
Print Assumptions C93_fields_partial.
Print Assumptions C93_hidden_refuted.
(* the field note of Page *)
Example C93_ex : forall parse_float, exists s st x,
  schemaFromType page parse_float 9 [] 0 [] [] = Some (SOk s, st) /\ points page 0 0 /\ plain page 0 /\
  ~ shown (SFld (B "note") false [] [] [] 5) /\ stands_for st s x /\ map fst (s_props x) = [B "title"; B "Tags"; B "count"; B "note"].
Proof.
  intros pf. eexists. eexists. eexists. split; [vm_compute; reflexivity|]. split; [apply points_at; intros (e & [=])|]. split; [exact I|]. split; [intros ([=] & _)|].
  split; [right; exists (B "x_y_Page"); split; reflexivity|reflexivity].
Qed.

(* ---- C94 ---- *)
Section Operation.
  Context (env : tid -> tinfo) (parse_float : bytes -> option floatv) (ftype : nat -> tid * bytes * bytes).
  Notation update := (UpdateOpenAPI env parse_float ftype).
  Lemma update_inv n st h it st' : update n st h = Some (Some (Some it), st') -> exists st1,
    properties env parse_float ftype n st [] (map fst (h_in h)) = Some (Some (Some (p_in it)), st1) /\ properties env parse_float ftype n st1 [] (h_out h) = Some (Some (Some (p_out it)), st') /\
    p_required it = map (fun x => snd (fst x)) (filter snd (h_in h)) /\ p_security it = match h_auth h with None => [] | Some (_, required) => true :: if required then [] else [false] end.
  Proof.
    unfold UpdateOpenAPI. destruct (properties env parse_float ftype n st [] (map fst (h_in h))) as [[[[pin|]|] st1]|] eqn:E1; try discriminate.
    destruct (properties env parse_float ftype n st1 [] (h_out h)) as [[[[pout|]|] st2]|] eqn:E2; try discriminate. intros [= <- <-]. exists st1. cbn. auto.
  Qed.
  (* The documentation of an operation has exactly the in fields in the request, the required ones of these as required, the out
     fields in the response; and it asks for authentication if there is an auth field, also accepting none if that is not required. *)
  Theorem C94_documented : forall fs init h n st it st', length init = length fs -> NewHandler fs (Some init) = Some h -> update n st h = Some (Some (Some it), st') ->
    (forall name, (exists s, mget beqb (p_in it) name = Some s) <-> exists f, In f fs /\ is_in f /\ wire f name) /\
    (forall name, In name (p_required it) <-> exists f, In f fs /\ is_in f /\ is_required f /\ wire f name) /\
    (forall name, (exists s, mget beqb (p_out it) name = Some s) <-> exists f, In f fs /\ is_out f /\ wire f name) /\
    (In true (p_security it) <-> exists f, In f fs /\ is_auth f) /\
    (In false (p_security it) <-> exists f, In f fs /\ is_auth f /\ ~ is_required f).
  Proof.
    intros fs init h n st it st' Hl Hh E. apply NewHandler_iff in Hh as (_ & Hone & ->); auto. apply update_inv in E as (st1 & E1 & E2 & E3 & E4). cbn [made h_in h_out h_auth] in *.
    apply properties_names in E1 as (ss1 & L1 & E1). apply properties_names in E2 as (ss2 & L2 & E2). repeat split.
    - rewrite E1. intros H. apply collect_names in H as [H|(? & [=])]; auto. apply in_map_iff in H as ([i x] & <- & H). apply in_map_iff in H as ([[j y] r] & [= <- <-] & H). apply ins_in in H as (f & F1 & F2 & F3 & _).
      exists f. split; [eapply nth_error_In; eauto|auto].
    - rewrite E1. intros (f & F1 & F2 & F3). apply collect_names; auto. left. apply In_nth_error in F1 as (i & F1). apply in_map_iff. exists (i, name). split; auto. apply in_map_iff. exists (i, name, breq f). split; auto. apply ins_in. eauto.
    - rewrite E3. intros H. apply in_map_iff in H as ([[i x] r] & <- & H). apply filter_In in H as (H & Hr). cbn in Hr. subst r. apply ins_in in H as (f & F1 & F2 & F3 & F4). exists f. split; [eapply nth_error_In; eauto|]. split; auto. split; auto. now apply breq_iff.
    - rewrite E3. intros (f & F1 & F2 & F3 & F4). apply In_nth_error in F1 as (i & F1). apply breq_iff in F3. apply in_map_iff. exists (i, name, true). split; auto. apply filter_In. split; auto. apply ins_in. exists f. auto.
    - rewrite E2. intros H. apply collect_names in H as [H|(? & [=])]; auto. apply in_map_iff in H as ([i x] & <- & H). apply outs_in in H as (f & F1 & F2 & F3). exists f. split; [eapply nth_error_In; eauto|auto].
    - rewrite E2. intros (f & F1 & F2 & F3). apply collect_names; auto. left. apply In_nth_error in F1 as (i & F1). apply in_map_iff. exists (i, name). split; auto. apply outs_in. eauto.
    - rewrite E4. intros H. destruct (hd_error (flat_map auth_of (idx 0 fs))) as [[i r]|] eqn:Eh; [|destruct H]. destruct (flat_map auth_of (idx 0 fs)) as [|y l] eqn:Ef; [discriminate|]. injection Eh as ->.
      assert (Hi : In (i, r) (flat_map auth_of (idx 0 fs))) by (rewrite Ef; now left). apply auth_in in Hi as (f & F1 & F2 & F3). exists f. split; [eapply nth_error_In; eauto|auto].
    - rewrite E4. intros (f & F1 & F2). apply In_nth_error in F1 as (i & F1). assert (Hi : In (i, breq f) (flat_map auth_of (idx 0 fs))) by (apply auth_in; eauto).
      destruct (flat_map auth_of (idx 0 fs)) as [|[j r] l]; [destruct Hi|]. cbn. destruct r; now left.
    - rewrite E4. intros H. destruct (flat_map auth_of (idx 0 fs)) as [|[i r] l] eqn:Ef; [destruct H|]. cbn [hd_error] in H. destruct r; [destruct H as [[=]|[]]|].
      assert (Hi : In (i, false) (flat_map auth_of (idx 0 fs))) by (rewrite Ef; now left). apply auth_in in Hi as (f & F1 & F2 & F3). exists f. split; [eapply nth_error_In; eauto|]. split; auto. intros Hr. apply breq_iff in Hr. congruence.
    - rewrite E4. intros (f & F1 & F2 & F3). apply In_nth_error in F1 as (i & F1). assert (Hi : In (i, breq f) (flat_map auth_of (idx 0 fs))) by (apply auth_in; eauto).
      assert (Hb : breq f = false) by (destruct (breq f) eqn:X; auto; exfalso; apply F3; now apply breq_iff). rewrite Hb in Hi.
      pose proof (proj2 (idx_auth_len fs) Hone) as Hlen. destruct (flat_map auth_of (idx 0 fs)) as [|x [|y l]]; [destruct Hi| |cbn in Hlen; lia]. destruct Hi as [->|[]]. cbn. auto.
  Qed.
  (* The requests that clients make and the responses that servers make conform to it, but for null, if the types are supported. *)
  Definition described (fs : list afld) : Prop := forall i f, nth_error fs i = Some f -> is_in f \/ is_out f -> denotes env (fst (fst (ftype i))) (a_type f).
  Definition nils_ok (nullable : bool) (P : afld -> Prop) (fs : list afld) (obj : list val) : Prop :=
    nullable = true \/ forall i f v, nth_error fs i = Some f -> P f -> nth_error obj i = Some v -> no_nil (a_type f) v.
  Theorem C94_request_partial : forall fs init h n st it st' obj d nullable, distinct_keys env -> names_differ env -> good_calls env parse_float st ->
    length init = length fs -> NewHandler fs (Some init) = Some h -> update n st h = Some (Some (Some it), st') -> described fs ->
    typed fs obj -> ClientSend h obj = Ok d -> nils_ok nullable is_in fs obj ->
    conforms st' nullable (body (p_in it)) (NMap d) /\ forall name, In name (p_required it) -> exists x, mget beqb d name = Some x.
  Proof.
    intros fs init h n st it st' obj d nl Hd Hn Hg Hl Hh E Hde Ht Es Hnl. apply NewHandler_iff in Hh as (_ & Hone & ->); auto. apply update_inv in E as (st1 & E1 & E2 & E3 & _). unfold ClientSend in Es. cbn [made h_in h_out] in *.
    destruct (properties_shape env parse_float ftype _ _ _ _ _ _ Hg E1) as (Hg1 & _ & _). destruct (properties_shape env parse_float ftype _ _ _ _ _ _ Hg1 E2) as (Hg2 & Hx & _). split.
    - apply (send_fits env parse_float ftype n (made fs init) obj _ st (p_in it) st1 nl d Hd Hn Hg E1 Es); auto. cbn [made h_fields]. intros i f v Hi Hf Hv. apply in_map_iff in Hi as ([j x] & <- & Hi). apply in_map_iff in Hi as ([[k y] r] & [= <- <-] & Hi). apply ins_in in Hi as (f' & F1 & F2 & _). cbn [fst] in *. rewrite Hf in F1. injection F1 as <-.
      split; [apply Hde; auto|]. split; [|destruct Hnl as [Hnl|Hnl]; eauto]. eapply typed_nth; eauto.
    - intros name Hi. apply send_collect in Es as (ns & Hns & ->). assert (Hlen : length ns = length (map fst (flat_map ins_of (idx 0 fs)))) by (clear - Hns; induction Hns; cbn; auto). apply collect_names; auto. left.
      rewrite E3 in Hi. apply in_map_iff in Hi as (x & <- & Hi). apply filter_In in Hi as (Hi & _). apply in_map_iff. exists (fst x). split; auto. now apply in_map.
  Qed.
  Theorem C94_response_partial : forall fs init h n st it st' obj d nullable, distinct_keys env -> names_differ env -> good_calls env parse_float st ->
    length init = length fs -> NewHandler fs (Some init) = Some h -> update n st h = Some (Some (Some it), st') -> described fs ->
    typed fs obj -> Send h obj = Ok d -> nils_ok nullable is_out fs obj -> conforms st' nullable (body (p_out it)) (NMap d).
  Proof.
    intros fs init h n st it st' obj d nl Hd Hn Hg Hl Hh E Hde Ht Es Hnl. apply NewHandler_iff in Hh as (_ & Hone & ->); auto. apply update_inv in E as (st1 & E1 & E2 & E3 & _). unfold Send in Es. cbn [made h_in h_out] in *.
    destruct (properties_shape env parse_float ftype _ _ _ _ _ _ Hg E1) as (Hg1 & _ & _). destruct (properties_shape env parse_float ftype _ _ _ _ _ _ Hg1 E2) as (Hg2 & Hx & _).
    apply (send_fits env parse_float ftype n (made fs init) obj _ st1 (p_out it) st' nl d Hd Hn Hg1 E2 Es); auto using ext_refl. cbn [made h_fields]. intros i f v Hi Hf Hv. apply in_map_iff in Hi as ([k y] & <- & Hi). apply outs_in in Hi as (f' & F1 & F2 & _). cbn [fst] in *. rewrite Hf in F1. injection F1 as <-.
    split; [apply Hde; auto|]. split; [|destruct Hnl as [Hnl|Hnl]; eauto]. eapply typed_nth; eauto.
  Qed.
End Operation.
Print Assumptions C94_documented.
Print Assumptions C94_request_partial.
Print Assumptions C94_response_partial.
(* Requests that conform and have what is required can be refused: a required field may not be zero. *)
Definition two : tid -> tinfo := types [TInfo (B "string") SNone KString; TInfo (B "int") SNone KInt].
Definition counts : list afld := [AFld (B "N") true [] (B "n") (B "in,required") None (TInt W64)].
Theorem C94_zero_refuted : forall f2i f2u parse_float uid, exists h it st,
  NewHandler counts (Some [VNum 0]) = Some h /\ UpdateOpenAPI two parse_float (fun _ => (1, [], [])) 5 [] h = Some (Some (Some it), st) /\
  conforms st false (body (p_in it)) (NMap [(B "n", NInt 0)]) /\ p_required it = [B "n"] /\
  Recv f2i f2u h [(B "n", NInt 0)] uid = RErr.
Proof.
  intros. eexists. eexists. eexists. split; [vm_compute; reflexivity|]. split; [vm_compute; reflexivity|]. split; [|split; reflexivity].
  eapply conf_object; [reflexivity|reflexivity|]. intros k x [[= <- <-]|[]]. eexists. split; [left; reflexivity|]. now apply conf_int.
Qed.
Print Assumptions C94_zero_refuted.

(* type Inc struct { UID string `api:"auth"`; Name string `api:"in,out,required" json:"name"`; Amount int `api:"in"`; Total int `api:"out" json:"total,omitempty"` } *)
Definition add : list afld :=
  [AFld (B "UID") true [] [] (B "auth") None TStr; AFld (B "Name") true [] (B "name") (B "in,out,required") None TStr; AFld (B "Amount") true [] [] (B "in") None (TInt W64);
   AFld (B "Total") true [] (B "total,omitempty") (B "out") None (TInt W64)].
Definition add_types (i : nat) : tid * bytes * bytes := match i with 0 => (0, [], []) | 1 => (0, B "who", []) | _ => (1, [], []) end.
Definition add_obj (name : bytes) (n t : Z) : list val := [VStr []; VStr name; VNum n; VNum t].
Lemma two_kind t nm fs : t_kind (two t) <> KStruct nm fs.
Proof. destruct t as [|[|[|t]]]; discriminate. Qed.
Example C94_ex : forall parse_float, exists h it,
  distinct_keys two /\ names_differ two /\ NewHandler add (Some (add_obj [] 0 0)) = Some h /\ UpdateOpenAPI two parse_float add_types 5 [] h = Some (Some (Some it), []) /\
  described two add_types add /\ typed add (add_obj (B "bob") 2 5) /\ ClientSend h (add_obj (B "bob") 2 5) = Ok [(B "name", NStr (B "bob")); (B "Amount", NInt 2)] /\
  nils_ok false is_in add (add_obj (B "bob") 2 5) /\
  map fst (p_in it) = [B "name"; B "Amount"] /\ p_required it = [B "name"] /\ map fst (p_out it) = [B "name"; B "total"] /\ p_security it = [true; false].
Proof.
  intros pf. eexists. eexists. split; [intros t t' k fs fs' (p & n & K & _); destruct (two_kind _ _ _ K)|]. split; [intros t nm fs i j f g name K; destruct (two_kind _ _ _ K)|].
  split; [vm_compute; reflexivity|]. split; [vm_compute; reflexivity|]. split; [|split; [|split; [vm_compute; reflexivity|split; [|repeat split]]]].
  - intros i f Hf Hio. destruct i as [|[|[|[|i]]]]; cbn in Hf; try (destruct i; discriminate); injection Hf as <-; reflexivity.
  - repeat constructor; cbn; unfold int_range; cbn; lia.
  - right. intros i f v Hf _ Hv. destruct i as [|[|[|[|i]]]]; cbn in Hf, Hv; try (destruct i; discriminate); injection Hf as <-; injection Hv as <-; exact I.
Qed.
