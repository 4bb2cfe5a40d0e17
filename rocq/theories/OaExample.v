(* Property C99: descriptions and examples in /repo/api/openapi/schema.go. *)
From Coq Require Import Bool Ascii String Arith NArith ZArith Lia List.
From Verif Require Import Prelude Utf8Model DecModel DurModel DurProofs EncModel JsonModel MarModel ApiModel OaModel OaSpec OaProofs OaShape OaProps.
Import ListNotations.

(* [meant pf k ex x]: the text ex is JSON for a value of kind k (for numbers: a Go number), namely x *)
Inductive meant (parse_float : bytes -> option floatv) : kind -> bytes -> example -> Prop :=
| meant_true : meant parse_float KBool (B "true") (XBool true)
| meant_false : meant parse_float KBool (B "false") (XBool false)
| meant_int ex z : parse_int ex = Some z -> meant parse_float KInt ex (XInt z)
| meant_float ex f : parse_float ex = Some f -> meant parse_float KFloat ex (XFloat f)
| meant_string ex : meant parse_float KString ex (XStr ex)
| meant_list e ex l : Decode ex = Good (Some (NList l)) -> meant parse_float (KSeq e) ex (XNode (NList l))
| meant_map k e ex l : Decode ex = Good (Some (NMap l)) -> meant parse_float (KMap k e) ex (XNode (NMap l))
| meant_struct nm fs ex l : Decode ex = Good (Some (NMap l)) -> meant parse_float (KStruct nm fs) ex (XNode (NMap l))
| meant_iface a ex n : Decode ex = Good (Some n) -> meant parse_float (KIface a) ex (XNode n).

Section Examples.
  Context (env : tid -> tinfo) (parse_float : bytes -> option floatv).
  Notation sft := (schemaFromType env parse_float).

  Lemma fin_inv doc ex s s' : fin doc ex s = SOk s' -> s_desc s' = doc /\ s_example s' = match ex with [] => None | _ => s_example s end /\ s_type s' = s_type s.
  Proof. unfold fin. intros [= <-]. auto. Qed.

  (* the example that the kind gives *)
  Definition by_kind (k : kind) (ex : bytes) : option example :=
    match k with
    | KBool => asBool ex | KFloat => asFloat parse_float ex | KInt => asInt ex | KString => Some (XStr ex)
    | KSeq _ => asList ex | KMap _ _ => asMap ex | KStruct _ _ => asMap ex | KIface _ => asNode ex
    | KPtr _ | KOther => None
    end.
  Lemma ofKind_inv rec st t u doc ex s st' : ofKind env parse_float rec st t u doc ex = Some (SOk s, st') ->
    s_desc s = doc /\ s_example s = match ex with [] => None | _ => by_kind (t_kind (env u)) ex end.
  Proof.
    unfold ofKind. destruct (t_kind (env u)) as [e| | | | |e|k e|a|nm fs|] eqn:K; cbn [by_kind]; intros H; try discriminate;
      try (pose proof (f_equal (fun o => match o with Some x => fst x | None => SErr end) H) as E; cbn [fst] in E; apply fin_inv in E as (E1 & E2 & _); rewrite E1, E2; auto; fail).
    - destruct (rec st e [] []) as [[[s1| |] st1]|]; try discriminate.
      pose proof (f_equal (fun o => match o with Some x => fst x | None => SErr end) H) as E. cbn [fst] in E. apply fin_inv in E as (E1 & E2 & _). rewrite E1, E2. auto.
    - destruct (rec st k [] []) as [[[s1| |] st1]|]; try discriminate. destruct (rec st1 e [] []) as [[[s2| |] st2]|]; try discriminate.
      pose proof (f_equal (fun o => match o with Some x => fst x | None => SErr end) H) as E. cbn [fst] in E. apply fin_inv in E as (E1 & E2 & _). rewrite E1, E2. auto.
    - unfold ofStruct in H. destruct nm as [[pkg n]|].
      + destruct (mget beqb st (structKey pkg n)).
        * pose proof (f_equal (fun o => match o with Some x => fst x | None => SErr end) H) as E. cbn [fst] in E. apply fin_inv in E as (E1 & E2 & _). rewrite E1, E2. auto.
        * destruct (fields _ _ _ _ _ _ _ _) as [[[[props ds]|] st1]|]; try discriminate.
          pose proof (f_equal (fun o => match o with Some x => fst x | None => SErr end) H) as E. cbn [fst] in E. destruct (loggable _); [|discriminate].
          apply fin_inv in E as (E1 & E2 & _). rewrite E1, E2. auto.
      + destruct (fields _ _ _ _ _ _ _ _) as [[[[props ds]|] st1]|]; try discriminate.
        pose proof (f_equal (fun o => match o with Some x => fst x | None => SErr end) H) as E. cbn [fst] in E. apply fin_inv in E as (E1 & E2 & _). rewrite E1, E2. auto.
  Qed.
  Lemma by_kind_meant k ex x : meant parse_float k ex x -> ex <> [] -> by_kind k ex = Some x.
  Proof.
    intros H Hne. destruct H; cbn [by_kind]; auto; unfold asInt, asFloat, asList, asMap, asNode;
      (destruct ex as [|c ex]; [congruence|]); try rewrite H; auto.
  Qed.
  Lemma by_kind_other k ex : (forall x, ~ meant parse_float k ex x) -> (forall e, k <> KPtr e) -> k <> KOther -> ex <> [] -> by_kind k ex = Some (XStr ex).
  Proof.
    intros H Hp Ho Hne. destruct k as [e| | | | |e|k e|a|nm fs|]; cbn [by_kind]; try (now contradiction (Hp e)); try congruence; auto;
      unfold asBool, asFloat, asInt, asList, asMap, asNode; (destruct ex as [|c ex]; [congruence|]).
    - destruct (beqb (c :: ex) (B "true")) eqn:E; [apply beqb_eq in E; rewrite E in H; exfalso; eapply H; constructor|].
      destruct (beqb (c :: ex) (B "false")) eqn:E'; [apply beqb_eq in E'; rewrite E' in H; exfalso; eapply H; constructor|auto].
    - destruct (parse_float (c :: ex)) eqn:E; auto. exfalso. eapply H. constructor. eauto.
    - destruct (parse_int (c :: ex)) eqn:E; auto. exfalso. eapply H. constructor. eauto.
    - destruct (Decode (c :: ex)) as [[[]|]| |] eqn:E; auto. exfalso. eapply H. constructor. eauto.
    - destruct (Decode (c :: ex)) as [[[]|]| |] eqn:E; auto. exfalso. eapply H. constructor. eauto.
    - destruct (Decode (c :: ex)) as [[n|]| |] eqn:E; auto. exfalso. eapply H. constructor. eauto.
    - destruct (Decode (c :: ex)) as [[[]|]| |] eqn:E; auto. exfalso. eapply H. constructor. eauto.
  Qed.
  Lemma ofKind_supported rec st t u doc ex s st' : ofKind env parse_float rec st t u doc ex = Some (SOk s, st') ->
    (forall e, t_kind (env u) <> KPtr e) /\ t_kind (env u) <> KOther.
  Proof. unfold ofKind. destruct (t_kind (env u)); intros H; try discriminate; split; congruence. Qed.
End Examples.

(* C99: the schema of a type has the description that was given; without an example it has none, with an example it has one. *)
Theorem C99_described : forall env parse_float n st t doc ex s st',
  schemaFromType env parse_float n st t doc ex = Some (SOk s, st') ->
  s_desc s = doc /\ (s_example s = None <-> ex = []).
Proof.
  intros env pf n st t doc ex s st' H. destruct n as [|n]; [discriminate|]. cbn [schemaFromType] in H.
  destruct (deref env (S n) t) as [u|] eqn:Ed; [|discriminate].
  assert (Hk : forall r, ofKind env pf (schemaFromType env pf n) r t u doc ex = Some (SOk s, st') -> s_desc s = doc /\ (s_example s = None <-> ex = [])).
  { intros r E. pose proof (ofKind_supported _ _ _ _ _ _ _ _ _ _ E) as [Hp Ho]. apply ofKind_inv in E as [E1 E2]. split; auto. rewrite E2.
    destruct ex as [|c ex]; [tauto|]. split; [|discriminate]. destruct (t_kind (env u)) as [e| | | | |e|k e|a|nm fs|]; cbn; try discriminate; [now contradiction (Hp e)|congruence]. }
  assert (Hx : forall (f : schema) X, s_example f = Some X -> SOk s = fin doc ex f -> s_desc s = doc /\ (s_example s = None <-> ex = [])).
  { intros f X Hf E. symmetry in E. apply fin_inv in E as (E1 & E2 & _). split; auto. rewrite E2. destruct ex; [tauto|]. rewrite Hf. split; discriminate. }
  assert (Hf1 : forall a b X r, Some (fin doc ex (leaf a b (Some X)), r) = Some (SOk s, st') -> s_desc s = doc /\ (s_example s = None <-> ex = [])).
  { intros a b X r E. eapply (Hx (leaf a b (Some X))); [reflexivity|]. congruence. }
  assert (Hx2 : forall a b o r, (ex <> [] -> exists X, o = Some X) -> Some (fin doc ex (leaf a b o), r) = Some (SOk s, st') -> s_desc s = doc /\ (s_example s = None <-> ex = [])).
  { intros a b o r Ho E. assert (E' : fin doc ex (leaf a b o) = SOk s) by congruence. apply fin_inv in E' as (E1 & E2 & _). split; auto. rewrite E2.
    destruct ex as [|c ex]; [tauto|]. destruct Ho as (X & ->); [discriminate|]. cbn. split; discriminate. }
  destruct (t_special (env u)) as [| | |[| |j]|]; eauto; try discriminate.
  destruct (byJson env pf t doc ex j) as [r|] eqn:Ej; [|eauto]. unfold byJson in Ej. destruct j as [|c j]; [injection Ej as <-; discriminate|].
  destruct (existsb (Ascii.eqb c) (B "{n[")); [discriminate|].
  destruct (existsb (Ascii.eqb c) (B """")); [injection Ej as <-; eauto|].
  destruct (existsb (Ascii.eqb c) (B "ft")); [injection Ej as <-; eapply Hx2; [|exact H]; intros; destruct ex; [congruence|cbn; eauto]|].
  destruct (existsb (Ascii.eqb c) (B "0123456789.")); [|injection Ej as <-; discriminate].
  injection Ej as <-. eapply Hx2; [|exact H]. intros; destruct ex as [|e ex]; [congruence|]. destruct (existsb _ _); cbn; eauto.
Qed.
Print Assumptions C99_described.

(* An example that is JSON of the kind of the type is kept as this value; any other is kept as text. *)
Theorem C99_meant : forall env parse_float n st t u doc ex s st',
  schemaFromType env parse_float n st t doc ex = Some (SOk s, st') -> points env t u -> t_special (env u) = SNone -> ex <> [] ->
  (forall x, meant parse_float (t_kind (env u)) ex x -> s_example s = Some x) /\
  ((forall x, ~ meant parse_float (t_kind (env u)) ex x) -> s_example s = Some (XStr ex)).
Proof.
  intros env pf n st t u doc ex s st' H Hp Hs Hne. destruct n as [|n]; [discriminate|]. cbn [schemaFromType] in H.
  destruct (deref env (S n) t) as [u'|] eqn:Ed; [|discriminate]. apply deref_points in Ed.
  assert (u' = u) by (eapply points_inj; eauto). subst u'. rewrite Hs in H.
  pose proof (ofKind_supported _ _ _ _ _ _ _ _ _ _ H) as [Hk1 Hk2]. apply ofKind_inv in H as [_ E]. rewrite E.
  destruct ex as [|c ex]; [congruence|]. split.
  - intros x Hm. now apply by_kind_meant.
  - intros Hm. now apply by_kind_other.
Qed.
Print Assumptions C99_meant.

(* []byte and the times have their examples as texts, whatever these are *)
Theorem C99_text : forall env parse_float n st t u doc ex s st',
  schemaFromType env parse_float n st t doc ex = Some (SOk s, st') -> points env t u -> t_special (env u) = SBytes \/ t_special (env u) = STime ->
  s_type s = B "string" /\ (ex <> [] -> s_example s = Some (XStr ex)).
Proof.
  intros env pf n st t u doc ex s st' H Hp Hs. destruct n as [|n]; [discriminate|]. cbn [schemaFromType] in H.
  destruct (deref env (S n) t) as [u'|] eqn:Ed; [|discriminate]. apply deref_points in Ed.
  assert (u' = u) by (eapply points_inj; eauto). subst u'.
  assert (G : forall f, Some (fin doc ex (leaf (B "string") f (Some (XStr ex))), st) = Some (SOk s, st') -> s_type s = B "string" /\ (ex <> [] -> s_example s = Some (XStr ex))).
  { intros f E. assert (E' : fin doc ex (leaf (B "string") f (Some (XStr ex))) = SOk s) by congruence. apply fin_inv in E' as (_ & E1 & E2). split; auto.
    intros Hne. rewrite E1. destruct ex; [congruence|auto]. }
  destruct Hs as [Hs|Hs]; rewrite Hs in H; eapply G; exact H.
Qed.
Print Assumptions C99_text.

(* The same holds for each field of a struct, with its tags doc and example: in the schema of a struct without a name, and in the component of
   one with a name that is seen for the first time.  Of fields with equal names the last counts. *)
Lemma fields_tags env parse_float n key format fs : forall st props descs ps ds st',
  fields env (schemaFromType env parse_float n) key format st props descs fs = Some (Some (ps, ds), st') ->
  (forall name, (forall f, In f fs -> propName f <> name) -> mget beqb ps name = mget beqb props name) /\
  (forall before f after, fs = before ++ f :: after -> (forall g, In g after -> propName g <> propName f) ->
    exists s, mget beqb ps (propName f) = Some s /\ s_desc s = sf_doc f /\ (s_example s = None <-> sf_example f = [])).
Proof.
  induction fs as [|f fs IH]; intros st props descs ps ds st' E; cbn [fields] in E.
  - split; [intros; congruence|]. intros [|? ?] ? ? [=].
  - destruct (schemaFromType env parse_float n st (sf_type f) (sf_doc f) (sf_example f)) as [[[s| |] st1]|] eqn:Es; try discriminate.
    apply IH in E as [E1 E2]. split.
    + intros name Hn. rewrite E1 by (intros g Hg; apply Hn; now right). apply mset_ne. intros Heq. exact (Hn f (or_introl eq_refl) (eq_sym Heq)).
    + intros [|b before] g after Hfs Ha; injection Hfs as Hf0 Hf1; subst; [|eauto].
      exists s. split; [rewrite E1 by assumption; apply mset_eq|]. eapply C99_described; eauto.
Qed.
Theorem C99_fields : forall env parse_float n st t u doc ex s st' name fs,
  schemaFromType env parse_float n st t doc ex = Some (SOk s, st') -> points env t u -> t_special (env u) = SNone -> t_kind (env u) = KStruct name fs ->
  (forall pkg nm, name = Some (pkg, nm) -> mget beqb st (structKey pkg nm) = None) ->
  exists props,
    match name with None => s_props s = props | Some (pkg, nm) => exists c, mget beqb st' (structKey pkg nm) = Some c /\ s_props c = props end /\
    forall before f after, fs = before ++ f :: after -> (forall g, In g after -> propName g <> propName f) ->
      exists p, mget beqb props (propName f) = Some p /\ s_desc p = sf_doc f /\ (s_example p = None <-> sf_example f = []).
Proof.
  intros env pf n st t u doc ex s st' name fs H Hp Hs K Hnew. destruct n as [|n]; [discriminate|]. cbn [schemaFromType] in H.
  destruct (deref env (S n) t) as [u'|] eqn:Ed; [|discriminate]. apply deref_points in Ed.
  assert (u' = u) by (eapply points_inj; eauto). subst u'. rewrite Hs in H. unfold ofKind in H. rewrite K in H. unfold ofStruct in H.
  destruct name as [[pkg nm]|].
  - rewrite (Hnew pkg nm eq_refl) in H.
    destruct (fields _ _ _ _ _ _ _ _) as [[[[props ds]|] st1]|] eqn:Ef; try discriminate.
    assert (st1 = st') by congruence. subst st1. exists props. split.
    + pose proof (fields_stored env _ _ _ _ (sft_keep env pf n) _ _ _ _ _ _ (mset_eq _ _ _) Ef) as Hst. eexists. split; [exact Hst|reflexivity].
    + eapply fields_tags; eauto.
  - destruct (fields _ _ _ _ _ _ _ _) as [[[[props ds]|] st1]|] eqn:Ef; try discriminate.
    exists props. split; [|eapply fields_tags; eauto].
    match type of H with Some (?a, _) = _ => assert (E : a = SOk s) by congruence end. unfold fin in E. injection E as <-. reflexivity.
Qed.
Print Assumptions C99_fields.

(* C99 is false for examples that are not JSON of the type: a number has a text for an example *)
Theorem C99_fits_refuted : forall parse_float, exists s st,
  schemaFromType (types [TInfo (B "int") SNone KInt]) parse_float 2 [] 0 [] (B "many") = Some (SOk s, st) /\
  s_type s = B "number" /\ s_example s = Some (XStr (B "many")).
Proof. intros pf. eexists. eexists. split; [vm_compute; reflexivity|]. split; reflexivity. Qed.
Print Assumptions C99_fits_refuted.

Example C99_ex : forall parse_float, exists s st,
  schemaFromType tree parse_float 9 [] 2 (B "all trees") (B "[1]") = Some (SOk s, st) /\
  points tree 2 2 /\ meant parse_float (t_kind (tree 2)) (B "[1]") (XNode (NList [NDigits (B "1")])) /\
  s_desc s = B "all trees" /\ s_example s = Some (XNode (NList [NDigits (B "1")])).
Proof.
  intros pf. eexists. eexists. split; [vm_compute; reflexivity|]. split; [apply points_at; intros (e & K); discriminate|].
  split; [apply meant_list; vm_compute; reflexivity|]. split; vm_compute; reflexivity.
Qed.

(* type T struct { At time.Time `doc:"when" example:"now"`; N int } *)
Definition dated : tid -> tinfo := types
  [TInfo (B "y.T") SNone (KStruct (Some (B "x/y", B "T")) [SFld (B "At") true [] (B "when") (B "now") 1; SFld (B "N") true [] [] [] 2]);
   TInfo (B "time.Time") STime (KStruct None []); TInfo (B "int") SNone KInt].
Example C99_ex_fields : forall parse_float, exists s st c p,
  schemaFromType dated parse_float 5 [] 0 [] [] = Some (SOk s, st) /\ points dated 0 0 /\ t_special (dated 0) = SNone /\
  mget beqb st (structKey (B "x/y") (B "T")) = Some c /\ mget beqb (s_props c) (B "At") = Some p /\ s_desc p = B "when" /\ s_example p = Some (XStr (B "now")) /\
  s_type p = B "string".
Proof.
  intros pf. eexists. eexists. eexists. eexists. split; [vm_compute; reflexivity|]. split; [apply points_at; intros (e & K); discriminate|].
  split; [reflexivity|]. split; [vm_compute; reflexivity|]. repeat split; vm_compute; reflexivity.
Qed.
Example C99_ex_text : forall parse_float, exists s,
  schemaFromType dated parse_float 5 [] 1 [] (B "now") = Some (SOk s, []) /\ points dated 1 1 /\ t_special (dated 1) = STime.
Proof. intros pf. eexists. split; [vm_compute; reflexivity|]. split; [apply points_at; intros (e & K); discriminate|reflexivity]. Qed.
