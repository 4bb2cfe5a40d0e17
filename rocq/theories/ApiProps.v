(* Properties C39, C40, C41, C77: /repo/api/handler.go, tag.go, json.go. *)
From Coq Require Import Bool Ascii String Arith NArith ZArith Lia List.
From Verif Require Import Prelude PreludeFacts Utf8Model Utf8Facts DecModel DecFacts DurModel DurProofs EncModel JsonModel KvSpec JsonSpec JsonFacts KvProofs JsonProofs MarModel MarSpec MarFacts MarProofs MarStruct MarOrder ConfModel ConfSpec ConfProofs ApiModel ApiSpec ApiMar ApiProofs ApiRecv ApiCall.
Import ListNotations.

Ltac new H := let a := fresh "Nt" in let b := fresh "Na" in apply NewHandler_iff in H as (a & b & ->); [|eauto using typed_length].

(* ---- C39 ---- *)
(* Which types can be registered: known words, urls that can be parsed, at most one auth field. *)
Theorem C39_new : forall fs init, length init = length fs -> ((exists h, NewHandler fs (Some init) = Some h) <->
  (forall f, In f fs -> tag_ok f) /\
  (forall i j f g, nth_error fs i = Some f -> nth_error fs j = Some g -> is_auth f -> is_auth g -> i = j)).
Proof.
  intros fs init Hl. split.
  - intros (h & H). apply NewHandler_iff in H as (H1 & H2 & _); auto.
  - intros [H1 H2]. exists (made fs init). apply NewHandler_iff; auto.
Qed.
Print Assumptions C39_new.
(* The object depends on the request data only under the names of the in fields. *)
Theorem C39_recv : forall f2i f2u fs init h d d' uid, length init = length fs -> NewHandler fs (Some init) = Some h ->
  (forall f name, In f fs -> is_in f -> wire f name -> mget beqb d name = mget beqb d' name) ->
  Recv f2i f2u h d uid = Recv f2i f2u h d' uid.
Proof.
  intros f2i f2u fs init h d d' uid Hl Hh H. new Hh. unfold Recv. destruct (set_init _ _ _) as [obj|]; auto. cbn [made h_in].
  rewrite (recv_in_data f2i f2u _ d d'); auto. intros i name r Hi. apply ins_in in Hi as (f & F1 & F2 & F3 & _). eapply H; eauto. eapply nth_error_In; eauto.
Qed.
Print Assumptions C39_recv.
(* ... and on the registered object only in the fields that are kept: not in, not out, no url. *)
Theorem C39_init : forall fs init init', typed fs init -> typed fs init' -> agree fs kept init init' -> NewHandler fs (Some init) = NewHandler fs (Some init').
Proof.
  intros fs init init' H1 H2 [_ H]. assert (E : made fs init = made fs init').
  { unfold made. f_equal. assert (G : forall fs init init' k, typed fs init -> typed fs init' -> (forall i f, nth_error fs i = Some f -> kept f -> nth_error init i = nth_error init' i) ->
      inits_of k fs init = inits_of k fs init'); [|auto].
    clear. induction fs as [|f fs IH]; intros init init' k H1 H2 H; inversion H1; subst; inversion H2; subst; cbn [inits_of]; auto. f_equal.
    - destruct (bkept f) eqn:E; auto. apply bkept_iff in E. specialize (H 0 f eq_refl E). cbn in H. injection H as ->. reflexivity.
    - apply IH; auto. intros i g Hg. apply (H (S i) g). exact Hg. }
  destruct (NewHandler fs (Some init)) as [h|] eqn:E1.
  - symmetry. apply NewHandler_iff in E1 as (A1 & A2 & ->); [|now apply typed_length]. rewrite E. apply NewHandler_iff; [now apply typed_length|auto].
  - destruct (NewHandler fs (Some init')) as [h|] eqn:E2; auto. apply NewHandler_iff in E2 as (A1 & A2 & ->); [|now apply typed_length].
    assert (X : NewHandler fs (Some init) = Some (made fs init)) by (apply NewHandler_iff; [now apply typed_length|auto]). congruence.
Qed.
Print Assumptions C39_init.
(* The response has exactly the names of the out fields, each once, and under each the value of the (last) out field with this name. *)
Theorem C39_send : forall fs init h obj d, length init = length fs -> NewHandler fs (Some init) = Some h -> Send h obj = Ok d ->
  NoDup (map fst d) /\
  (forall name, In name (map fst d) <-> exists f, In f fs /\ is_out f /\ wire f name) /\
  (forall i f name v, nth_error fs i = Some f -> is_out f -> wire f name -> nth_error obj i = Some v ->
    (forall j g, i < j -> nth_error fs j = Some g -> is_out g -> ~ wire g name) ->
    exists n, mar (a_type f) v = Ok n /\ mget beqb d name = Some n).
Proof.
  intros fs init h obj d Hl Hh H. new Hh. split; [eapply sent_nodup; eauto|]. unfold Send in H. cbn [made h_out] in H. apply send_ok in H as (es & Hes & ->). split.
  - intros name. rewrite fold_mset_keys. rewrite (sent_keys _ _ _ _ Hes). cbn [map In]. rewrite in_map_iff. split.
    + intros [[]|([i x] & E & Hi)]. cbn in E. subst x. apply outs_in in Hi as (f & F1 & F2 & F3). exists f. split; auto. eapply nth_error_In; eauto.
    + intros (f & F1 & F2 & F3). right. apply In_nth_error in F1 as (i & F1). exists (i, name). split; auto. apply outs_in. eauto.
  - intros i f name v Hf Ho Hw Hv Hlast.
    assert (G : forall l es k, Forall2 (sent (made fs init) obj) (flat_map outs_of (idx k l)) es -> (forall j g, nth_error l j = Some g -> nth_error fs (k + j) = Some g) ->
      k <= i -> nth_error l (i - k) = Some f -> exists n, mar (a_type f) v = Ok n /\ last_of es name = Some n).
    { clear Hes es. induction l as [|g l IH]; intros es k Hes Hsub Hk Hi; [destruct (i - k); discriminate|].
      unfold idx in Hes. cbn [length seq combine flat_map] in Hes. fold (idx (S k) l) in Hes. apply Forall2_app_inv_l in Hes as (e1 & e2 & He1 & He2 & ->).
      assert (Hlo : forall e, last_of (e1 ++ e) name = match last_of e name with Some x => Some x | None => last_of e1 name end).
      { intros e. clear. induction e1 as [|[a b] e1 IH]; cbn [last_of app]; [destruct (last_of e name); auto|]. rewrite IH. destruct (last_of e name); auto. }
      rewrite Hlo. destruct (Nat.eq_dec k i) as [->|Hne].
      - rewrite Nat.sub_diag in Hi. injection Hi as ->. apply bout_iff in Ho. unfold outs_of in He1. cbn [fst snd] in He1. rewrite Ho in He1.
        inversion He1 as [|? [a n] ? ? (A1 & f' & v' & A2 & _ & A3) Hnil]; subst. inversion Hnil; subst. cbn [fst snd] in *. subst a. apply field_inv in A2 as [A2 A2'].
        cbn [made h_fields] in A2. rewrite Hf in A2. injection A2 as <-. rewrite Hv in A2'. injection A2' as <-. exists n. split; auto.
        assert (Hnone : last_of e2 name = None).
        { assert (Hnk : ~ In name (map fst e2)).
          { rewrite (sent_keys _ _ _ _ He2). intros X. apply in_map_iff in X as ([j x] & E & X). cbn in E. subst x. apply in_flat_map in X as ([j' g] & X1 & X2).
            apply idx_in in X1 as [X1 X3]. unfold outs_of in X2. cbn [fst snd] in X2. destruct (bout g) eqn:Eg; [|destruct X2]. destruct X2 as [X2|[]]. injection X2 as -> <-.
            apply (Hlast j g); [lia| |now apply bout_iff|now apply wire_iff]. replace j with (i + S (j - S i)) by lia. apply Hsub. exact X3. }
          clear -Hnk. induction e2 as [|[a b] e2 IH]; cbn [last_of map fst] in *; auto. rewrite IH by (intros H; apply Hnk; now right). rewrite (eqb_ne beqb beqb_ok); auto. intros ->. apply Hnk. now left. }
        rewrite Hnone. cbn [last_of]. apply wire_iff in Hw. subst name. rewrite beqb_refl. reflexivity.
      - destruct (IH e2 (S k) He2) as (n & N1 & N2); [|lia| |].
        + intros j g' Hj. replace (S k + j) with (k + S j) by lia. now apply Hsub.
        + replace (i - k) with (S (i - S k)) in Hi by lia. exact Hi.
        + exists n. split; auto. now rewrite N2. }
    destruct (G fs es 0 Hes) as (n & N1 & N2); auto; [lia|rewrite Nat.sub_0_r; auto|]. exists n. split; auto. rewrite last_of_fold, N2. reflexivity.
Qed.
Print Assumptions C39_send.
(* It depends on no other field of the object. *)
Theorem C39_send_only : forall fs init h obj obj', length init = length fs -> NewHandler fs (Some init) = Some h -> agree fs is_out obj obj' -> Send h obj = Send h obj'.
Proof.
  intros fs init h obj obj' Hl Hh [_ H]. new Hh. unfold Send. apply send_agree. cbn [made h_out]. intros i name Hi. apply outs_in in Hi as (f & F1 & F2 & _). eauto.
Qed.
Print Assumptions C39_send_only.

(* type Inc struct {
     R       api.Request `url:"/inc"`
     UID     string `api:"auth"`
     Name    string `api:"in,out,required" json:"name"`
     Amount  int `api:"in" json:"amount"`
     Current int `api:"out" json:"current,omitempty"`
     State   map[string]int } *)
Definition inc : list afld :=
  [AFld (B "R") true [] [] [] (Some true) (TStruct []); AFld (B "UID") true [] [] (B "auth") None TStr;
   AFld (B "Name") true [] (B "name") (B "in,out,required") None TStr; AFld (B "Amount") true [] (B "amount") (B "in") None (TInt W64);
   AFld (B "Current") true [] (B "current,omitempty") (B "out") None (TInt W64); AFld (B "State") true [] [] [] None (TMap KTStr (TInt W64))].
Definition inc_obj (uid name : bytes) (amount current : Z) (state : val) : list val := [VStruct []; VStr uid; VStr name; VNum amount; VNum current; state].
Definition state0 : val := VMap [(KStr (B "foo"), VNum 3)].
Definition inc_h : handler := made inc (inc_obj [] (B "ignored") 9 8 state0).
Example C39_ex : forall f2i f2u, typed inc (inc_obj [] (B "ignored") 9 8 state0) /\ NewHandler inc (Some (inc_obj [] (B "ignored") 9 8 state0)) = Some inc_h /\
  Recv f2i f2u inc_h [(B "amount", NInt 2); (B "current", NInt 7); (B "State", NNil); (B "name", NStr (B "foo")); (B "UID", NStr (B "root"))] (Some (NStr (B "bob")))
    = ROk (inc_obj (B "bob") (B "foo") 2 0 state0) /\
  Send inc_h (inc_obj (B "bob") (B "foo") 2 5 state0) = Ok [(B "name", NStr (B "foo")); (B "current", NInt 5)].
Proof. intros. split; [|repeat split]. repeat constructor; cbn; unfold int_range; cbn; try lia. Qed.

(* ---- C40 ---- *)
Section Auth.
  Context (f2i f2u : floatv -> Z).
  (* Success means that each required in field is in the request, and that its value is not zero. *)
  Theorem C40_required : forall fs init h d uid obj i f, typed fs init -> NewHandler fs (Some init) = Some h -> Recv f2i f2u h d uid = ROk obj ->
    nth_error fs i = Some f -> wfty (a_type f) -> is_in f -> is_required f ->
    exists name n v c, wire f name /\ mget beqb d name = Some n /\ Unmarshal f2i f2u None (a_type f) n (zero (a_type f)) = (UOk v, c) /\
      v <> zero (a_type f) /\ (is_auth f \/ nth_error obj i = Some v).
  Proof.
    intros fs init h d uid obj i f Ht Hh H Hf Hw Hi Hr. new Hh. destruct (recv_in_field f2i f2u fs init Ht d uid obj i f H Hf Hi) as (w & W1 & W2 & W3).
    specialize (W2 (tagName f) (wire_ex f)). specialize (W3 Hr). assert (Hz : w <> zero (a_type f)).
    { intros ->. assert (X : is_zero (a_type f) (zero (a_type f)) = true) by (apply is_zero_iff; auto using zero_hasty). congruence. }
    destruct (mget beqb d (tagName f)) as [n|] eqn:E; [|contradiction]. destruct W2 as (_ & c & Hu). exists (tagName f), n, w, c. repeat split; auto. apply wire_ex.
  Qed.
  (* No identity, no success, if it is required. *)
  Theorem C40_auth_required : forall fs init h d uid obj f, typed fs init -> NewHandler fs (Some init) = Some h -> In f fs -> is_auth f -> is_required f ->
    nobody uid -> Recv f2i f2u h d uid <> ROk obj.
  Proof.
    intros fs init h d uid obj f Ht Hh Hf Ha Hr Hu H. new Hh. apply In_nth_error in Hf as (i & Hf). eapply required_auth; eauto.
  Qed.
  (* Full statement: for every auth field.  Here one that is not also an in field: it is the registered value, or zero if that is
     not kept, with the identity unmarshalled into it, and the request data has no influence. *)
  Theorem C40_identity_partial : forall fs init h d uid obj i f, typed fs init -> NewHandler fs (Some init) = Some h -> Recv f2i f2u h d uid = ROk obj ->
    nth_error fs i = Some f -> is_auth f -> ~ is_in f ->
    exists st s, starts fs init st /\ nth_error st i = Some s /\
      (nobody uid -> nth_error obj i = Some s) /\
      (forall u, uid = Some u -> u <> NNil -> exists w c, Unmarshal f2i f2u None (a_type f) u s = (UOk w, c) /\ nth_error obj i = Some w).
  Proof.
    intros fs init h d uid obj i f Ht Hh H Hf Ha Hi. new Hh. edestruct recv_other as (st & s & H1 & H2 & H3 & H4 & _); eauto. exists st, s. split; [exact H1|]. split; [exact H2|].
    split; [intros Hu; apply H3; auto|]. intros u Eu Hu. now apply (H4 Ha).
  Qed.
  (* In particular it is the identity v itself. *)
  Theorem C40_identity_value_partial : forall fs init h d u v obj i f, typed fs init -> NewHandler fs (Some init) = Some h -> Recv f2i f2u h d (Some u) = ROk obj ->
    nth_error fs i = Some f -> is_auth f -> ~ is_in f -> wfty (a_type f) -> hasty (a_type f) v -> mar (a_type f) v = Ok u -> u <> NNil ->
    keeps (a_type f) v -> ((forall fs', a_type f <> TStruct fs') \/ ~ kept f \/ nth_error init i = Some (zero (a_type f))) ->
    nth_error obj i = Some v.
  Proof.
    intros fs init h d u v obj i f Ht Hh H Hf Ha Hi Hw Hv Hm Hu Hk Hz. edestruct C40_identity_partial as (st & s & [L Hst] & Hs & _ & Hx); eauto.
    destruct (Hx u eq_refl Hu) as (w & c & E & ->). f_equal. destruct (mar_repr _ _ Hw Hv) as (u' & E' & Hr). rewrite Hm in E'. injection E' as <-.
    assert (X : fst (Unmarshal f2i f2u None (a_type f) u s) = UOk v).
    { assert (Hcz : comes (a_type f) v (zero (a_type f))) by (apply (comes_zero f2i f2u); auto).
      pose proof (proj2 (unm_reprs f2i f2u (a_type f) v u (zero (a_type f)) Hw Hv (zero_hasty _) Hr []) (conj eq_refl Hcz)) as Ez.
      destruct Hz as [Hz|Hz].
      - unfold Unmarshal in *. rewrite (unm_old _ _ _ _ _ _ _ s _ _ Hz Ez). reflexivity.
      - assert (s = zero (a_type f)).
        { destruct (Hst _ _ _ Hf Hs) as [S1 S2]. destruct (bkept f) eqn:Ek.
          - apply bkept_iff in Ek. destruct Hz as [Hz|Hz]; [contradiction|]. specialize (S1 Ek). congruence.
          - apply S2. rewrite <- bkept_iff. congruence. }
        subst s. rewrite Ez. reflexivity. }
    rewrite E in X. cbn in X. congruence.
  Qed.
  (* UID string `api:"auth,in"`, without identity *)
  Theorem C40_in_refuted : forall s, let fs := [AFld (B "UID") true [] [] (B "auth,in") None TStr] in
    exists h, NewHandler fs None = Some h /\ Recv f2i f2u h [(B "UID", NStr s)] None = ROk [VStr s].
  Proof. intros s fs. eexists. split; reflexivity. Qed.
  (* UID struct { ID string; Admin bool } `api:"auth,in,required"`, with the identity {"ID": "bob"} *)
  Theorem C40_merge_refuted : forall b,
    let fs := [AFld (B "UID") true [] [] (B "auth,in,required") None (TStruct [(Fld (B "ID") true [], TStr); (Fld (B "Admin") true [], TBool)])] in
    exists h, NewHandler fs None = Some h /\
      Recv f2i f2u h [(B "UID", NMap [(B "ID", NStr (B "x")); (B "Admin", NBool b)])] (Some (NMap [(B "ID", NStr (B "bob"))])) = ROk [VStruct [VStr (B "bob"); VBool b]].
  Proof. intros b fs. eexists. split; [reflexivity|]. destruct b; reflexivity. Qed.
End Auth.
Print Assumptions C40_required.
Print Assumptions C40_auth_required.
Print Assumptions C40_identity_partial.
Print Assumptions C40_identity_value_partial.
Print Assumptions C40_in_refuted.
Print Assumptions C40_merge_refuted.
(* a required auth field; a required in field that is missing, null or empty *)
Definition inc_r : list afld := map (fun f => if beqb (a_name f) (B "UID") then AFld (B "UID") true [] [] (B "auth,required") None TStr else f) inc.
Example C40_ex : forall f2i f2u, let h := made inc_r (inc_obj [] [] 0 0 state0) in
  NewHandler inc_r (Some (inc_obj [] [] 0 0 state0)) = Some h /\
  Recv f2i f2u h [(B "name", NStr (B "foo")); (B "UID", NStr (B "root"))] (Some (NStr (B "bob"))) = ROk (inc_obj (B "bob") (B "foo") 0 0 state0) /\
  Recv f2i f2u h [(B "name", NStr (B "foo")); (B "UID", NStr (B "root"))] None = RErr /\
  Recv f2i f2u h [(B "amount", NInt 1)] (Some (NStr (B "bob"))) = RErr /\
  Recv f2i f2u h [(B "name", NStr [])] (Some (NStr (B "bob"))) = RErr /\
  Recv f2i f2u h [(B "name", NNil)] (Some (NStr (B "bob"))) = RErr.
Proof. intros. repeat split. Qed.

(* ---- C41 ---- *)
Section Calls.
  Context (f2i f2u : floatv -> Z).
  (* Full statement: for all types, values and operations.  Here for types with exported and distinctly named in and out fields,
     an auth field that is not in, in fields with values that survive (C31) and are not zero if required; then, whatever the
     operation does, the client's object becomes what it should be exactly if the values of the out fields can replace what it holds. *)
  Theorem C41_call_partial : forall fs cinit init cli ser uid do cobj sobj sobj' cobj',
    api_type fs -> typed fs cinit -> typed fs init -> NewHandler fs (Some cinit) = Some cli -> NewHandler fs (Some init) = Some ser ->
    typed fs cobj -> init_ok fs init -> auth_ok fs uid -> in_ok fs cobj -> serves f2i f2u fs init cobj uid sobj ->
    do sobj = Some sobj' -> typed fs sobj' -> merged fs cobj sobj' cobj' ->
    (api_call f2i f2u cli ser Some uid do cobj = ROk cobj' <-> out_ok fs sobj' cobj).
  Proof.
    intros fs cinit init cli ser uid do cobj sobj sobj' cobj' Ha Hc Hi H1 H2 Ht Hio Hau Hin Hs Hdo Hts Hm. new H1. new H2.
    eapply (call_ok f2i f2u fs init Hi False); eauto; try contradiction. now left.
  Qed.
  (* The same over HTTP, as JSON text, when the values have a text. *)
  Theorem C41_json_partial : forall short fs cinit init cli ser uid do cobj sobj sobj' cobj',
    api_type fs -> typed fs cinit -> typed fs init -> NewHandler fs (Some cinit) = Some cli -> NewHandler fs (Some init) = Some ser ->
    typed fs cobj -> init_ok fs init -> auth_ok fs uid -> in_ok fs cobj -> serves f2i f2u fs init cobj uid sobj ->
    do sobj = Some sobj' -> typed fs sobj' -> merged fs cobj sobj' cobj' ->
    texts fs is_in cobj -> texts fs is_out sobj' ->
    (api_call f2i f2u cli ser (by_json short) uid do cobj = ROk cobj' <-> out_ok fs sobj' cobj).
  Proof.
    intros short fs cinit init cli ser uid do cobj sobj sobj' cobj' Ha Hc Hi H1 H2 Ht Hio Hau Hin Hs Hdo Hts Hm Hx1 Hx2. new H1. new H2.
    eapply (call_ok f2i f2u fs init Hi True); eauto. right. eauto.
  Qed.
  (* A value that does not survive (C31) does not arrive. *)
  Theorem C41_in_partial : forall fs cinit init cli ser uid cobj d sobj i f c,
    api_type fs -> typed fs cinit -> typed fs init -> NewHandler fs (Some cinit) = Some cli -> NewHandler fs (Some init) = Some ser -> typed fs cobj ->
    ClientSend cli cobj = Ok d -> Recv f2i f2u ser d uid = ROk sobj -> nth_error fs i = Some f -> is_in f -> nth_error cobj i = Some c ->
    (nth_error sobj i = Some c <-> keeps (a_type f) c).
  Proof.
    intros fs cinit init cli ser uid cobj d sobj i f c Ha Hc Hi H1 H2 Ht Hs Hr Hf Hin Hv. new H1. new H2. unfold ClientSend in Hs. cbn [made h_in] in Hs.
    eapply (there_exact f2i f2u fs init Hi cobj d d False); eauto; try contradiction. left. constructor.
  Qed.
  (* Info struct { Note string `json:"note,omitempty"` } `api:"out"`: the note "" computed by the operation does not replace the old one *)
  Theorem C41_stale_refuted : forall short old, let fs := [AFld (B "Info") true [] [] (B "out") None (TStruct [(Fld (B "Note") true (B "note,omitempty"), TStr)])] in
    exists h, NewHandler fs None = Some h /\ api_call f2i f2u h h (by_json short) None (fun _ => Some [VStruct [VStr []]]) [VStruct [VStr old]] = ROk [VStruct [VStr old]].
  Proof. intros short old fs. eexists. split; [reflexivity|]. destruct short; reflexivity. Qed.
  (* two out fields with the name x: both get the value of the second *)
  Theorem C41_names_refuted : forall a b, let fs := [AFld (B "X") true [] (B "x") (B "out") None TStr; AFld (B "Y") true [] (B "x") (B "out") None TStr] in
    exists h, NewHandler fs None = Some h /\ api_call f2i f2u h h Some None (fun _ => Some [VStr a; VStr b]) [VStr []; VStr []] = ROk [VStr b; VStr b].
  Proof. intros a b fs. eexists. split; reflexivity. Qed.
End Calls.
Print Assumptions C41_call_partial.
Print Assumptions C41_json_partial.
Print Assumptions C41_in_partial.
Print Assumptions C41_stale_refuted.
Print Assumptions C41_names_refuted.
Definition inc_do (o : list val) : option (list val) :=
  match o with [r; u; n; VNum a; _; VMap [(k, VNum c)]] => Some [r; u; n; VNum a; VNum (c + a); VMap [(k, VNum (c + a))]] | _ => None end.
Lemma inc_cases (P : nat -> afld -> Prop) : (forall i, i < length inc -> match nth_error inc i with Some f => P i f | None => True end) -> forall i f, nth_error inc i = Some f -> P i f.
Proof. intros H i f Hf. specialize (H i (nth_error_some_lt _ _ _ Hf)). now rewrite Hf in H. Qed.
Ltac tags := repeat match goal with
  | H : is_in _ |- _ => apply bin_iff in H; vm_compute in H | H : is_out _ |- _ => apply bout_iff in H; vm_compute in H
  | H : is_auth _ |- _ => apply bauth_iff in H; vm_compute in H | H : is_required _ |- _ => apply breq_iff in H; vm_compute in H
  | H : kept _ |- _ => apply bkept_iff in H; vm_compute in H end; try discriminate.
Ltac six i := destruct i as [|[|[|[|[|[|i]]]]]]; cbn [nth_error inc inc_obj inc_do] in *; try (destruct i; discriminate).
Example C41_ex : forall f2i f2u short, let init := inc_obj [] [] 0 0 state0 in let cobj := inc_obj (B "me") (B "foo") 42 1 VNil in
  let sobj := inc_obj (B "bob") (B "foo") 42 0 state0 in let sobj' := inc_obj (B "bob") (B "foo") 42 45 (VMap [(KStr (B "foo"), VNum 45)]) in let uid := Some (NStr (B "bob")) in
  api_type inc /\ typed inc init /\ typed inc cobj /\ init_ok inc init /\ auth_ok inc uid /\ in_ok inc cobj /\ serves f2i f2u inc init cobj uid sobj /\
  inc_do sobj = Some sobj' /\ typed inc sobj' /\ merged inc cobj sobj' (inc_obj (B "me") (B "foo") 42 45 VNil) /\ texts inc is_in cobj /\ texts inc is_out sobj' /\ out_ok inc sobj' cobj /\
  api_call f2i f2u (made inc cobj) (made inc init) (by_json short) uid inc_do cobj = ROk (inc_obj (B "me") (B "foo") 42 45 VNil).
Proof.
  intros f2i f2u short init cobj sobj sobj' uid. subst init cobj sobj sobj' uid.
  assert (Hty : forall a b c d s, int_range W64 c -> int_range W64 d -> hasty (TMap KTStr (TInt W64)) s -> typed inc (inc_obj a b c d s)).
  { intros a b c d s H1 H2 H3. unfold typed, inc, inc_obj. repeat (apply Forall2_cons; [cbn [a_type]; try exact I; try assumption|]); apply Forall2_nil. }
  assert (H64 : forall z, (0 <= z < 100)%Z -> int_range W64 z) by (intros z Hz; unfold int_range; cbn [bits]; change (2 ^ (64 - 1))%Z with 9223372036854775808%Z; lia).
  assert (Hst : forall z, (0 <= z < 100)%Z -> hasty (TMap KTStr (TInt W64)) (VMap [(KStr (B "foo"), VNum z)])).
  { intros z Hz. cbn [hasty map fst snd]. split; [repeat constructor|]. constructor; [split; [exact I|now apply H64]|constructor]. }
  assert (Hwire : forall i j f g name, nth_error inc i = Some f -> nth_error inc j = Some g -> wire f name -> wire g name -> i = j).
  { intros i j f g name Hf Hg W1 W2. apply wire_iff in W1, W2. subst name. six i; six j; auto; injection Hf as <-; injection Hg as <-; vm_compute in W2; discriminate. }
  split. { constructor.
    - intros f Hf _. repeat (destruct Hf as [<-|Hf]; [reflexivity|]). destruct Hf.
    - intros i j f g name Hf Hg _ _. eapply Hwire; eauto.
    - intros i j f g name Hf Hg _ _. eapply Hwire; eauto.
    - intros f Hf. repeat (destruct Hf as [<-|Hf]; [cbn; auto|]); [|destruct Hf]. split; auto. intros [|i] [|j] f g t u name o o' E; discriminate.
    - intros f Hf Ha Hi. repeat (destruct Hf as [<-|Hf]; [tags|]). destruct Hf. }
  split. { apply Hty; try apply H64; try lia. apply Hst. lia. }
  split. { apply Hty; try apply H64; try lia. exact I. }
  split. { intros i f v Hf Hv _ _. six i; injection Hf as <-; reflexivity. }
  split. { intros f Hf _ _ [E|E]; discriminate. }
  split. { intros i f c Hf Hv Hi. six i; injection Hf as <-; injection Hv as <-; tags; split; cbn; auto; intros _; discriminate. }
  split. { split; auto. exists (inc_obj [] [] 0 0 state0). split.
    - split; auto. intros i f v Hf Hv. six i; injection Hf as <-; injection Hv as <-; cbn; split; auto; intros H; try (tags; fail); exfalso; apply H; apply bkept_iff; reflexivity.
    - intros i f s c v Hf Hs Hc Hv. six i; injection Hf as <-; injection Hs as <-; injection Hc as <-; injection Hv as <-; (split; [|split]); intros; auto; tags;
        try (exfalso; match goal with H : ~ is_in _ |- _ => apply H; apply bin_iff; reflexivity end);
        try (match goal with H : is_auth _ -> nobody _ |- _ => destruct H as [H|H]; [apply bauth_iff; reflexivity|discriminate|discriminate] end);
        match goal with H : Some _ = Some ?u |- _ => injection H as <- end; eexists; reflexivity. }
  split; [reflexivity|]. split. { apply Hty; try apply H64; try lia. apply Hst. lia. }
  split. { split; auto. intros i f Hf. six i; injection Hf as <-; split; intros H; auto; tags; exfalso; apply H; apply bout_iff; reflexivity. }
  split. { intros i f v Hf Hv Hi. six i; injection Hf as <-; injection Hv as <-; tags; (split; [cbn; auto|split; [reflexivity|]]); intros name W; apply wire_iff in W; subst name; reflexivity. }
  split. { intros i f v Hf Hv Hi. six i; injection Hf as <-; injection Hv as <-; tags; (split; [cbn; auto|split; [reflexivity|]]); intros name W; apply wire_iff in W; subst name; reflexivity. }
  split. { intros i f s c Hf Hs Hc Ho. six i; injection Hf as <-; injection Hs as <-; injection Hc as <-; tags; exact I. }
  destruct short; vm_compute; reflexivity.
Qed.

(* ---- C77 ---- *)
(* Full statement: no request makes Recv panic.  Here: no request that was read from JSON, unless a field that is in, auth, or
   registered with a value that is kept, is not exported, or the tags of the types are bad. *)
Theorem C77_no_panic_partial : forall f2i f2u fs init h d uid, typed fs init -> NewHandler fs (Some init) = Some h ->
  exported fs (fun f => is_in f \/ is_auth f) -> init_ok fs init -> (forall f, In f fs -> tags_ok (a_type f)) ->
  (forall name n, mget beqb d name = Some n -> no_dur n) -> (forall u, uid = Some u -> no_dur u) ->
  Recv f2i f2u h d uid <> RPanic.
Proof.
  intros f2i f2u fs init h d uid Ht Hh He Hi Htags Hd Hu. new Hh.
  assert (Hinto : forall obj i f n, length obj = length fs -> nth_error fs i = Some f -> (is_in f \/ is_auth f) -> no_dur n ->
    match into f2i f2u (made fs init) obj i n with ROk o => length o = length obj | RErr => True | RPanic => False end).
  { intros obj i f n L Hf Hx Hn. unfold into. destruct (nth_error_lt obj i) as (v & Ev); [rewrite L; eapply nth_error_some_lt; eauto|].
    rewrite (field_at (made fs init) obj i f v Hf Ev). assert (Hfi : In f fs) by (eapply nth_error_In; eauto). rewrite (He f Hfi Hx).
    pose proof (no_panic f2i f2u None (a_type f) [PRoot] n v (Htags f Hfi) Hn) as Hp. unfold Unmarshal. destruct (fst _); auto. apply PreludeFacts.upd_length. }
  unfold Recv. cbn [made h_fields h_init h_in]. destruct (set_init_ok (made fs init) (inits_of 0 fs init) (fresh fs) (inits_nodup fs init 0)) as (st & E & L & _).
  { intros i v Hv. apply inits_in in Hv as (_ & f & F1 & F2 & F3 & F4). rewrite Nat.sub_0_r in F1, F2. exists f. split; [exact F1|]. apply (Hi i f v F1 F2 F3).
    apply is_zero_false; [exact (typed_nth fs init Ht i f v F1 F2)|exact F4]. }
  cbn [made h_fields h_init h_in] in E. rewrite E. unfold fresh in L. rewrite map_length in L. clear E.
  assert (Hr : forall l obj, length obj = length fs -> (forall i name r, In (i, name, r) l -> exists f, nth_error fs i = Some f /\ is_in f) ->
    match recv_in f2i f2u (made fs init) d obj l with ROk o => length o = length fs | RErr => True | RPanic => False end).
  { induction l as [|[[i name] r] l IH]; intros obj Lo Hl; cbn [recv_in]; auto. destruct (Hl i name r (or_introl eq_refl)) as (f & F1 & F2).
    assert (X : match (match mget beqb d name with None => ROk obj | Some n => into f2i f2u (made fs init) obj i n end) with ROk o => length o = length obj | RErr => True | RPanic => False end).
    { destruct (mget beqb d name) as [n|] eqn:En; auto. apply (Hinto obj i f n); eauto. }
    destruct (match mget beqb d name with None => ROk obj | Some n => into f2i f2u (made fs init) obj i n end) as [o| |]; auto.
    destruct (nth_error_lt o i) as (v & Ev); [rewrite X, Lo; eapply nth_error_some_lt; eauto|]. rewrite (field_at (made fs init) o i f v F1 Ev).
    destruct (r && is_zero (a_type f) v); auto. apply IH; [congruence|]. intros j nm r' Hj. apply (Hl j nm r'). now right. }
  specialize (Hr (flat_map ins_of (idx 0 fs)) st L).
  destruct (recv_in f2i f2u (made fs init) d st (flat_map ins_of (idx 0 fs))) as [o| |]; try discriminate.
  - assert (Lo : length o = length fs). { apply Hr. intros i name r X. apply ins_in in X as (f & F1 & F2 & _). eauto. }
    unfold recv_auth. destruct (h_auth (made fs init)) as [[k r]|] eqn:Eh; [|discriminate].
    assert (Hin2 : In (k, r) (flat_map auth_of (idx 0 fs))) by (cbn [made h_auth] in Eh; destruct (flat_map auth_of (idx 0 fs)); [discriminate|left; now injection Eh; intros]).
    apply auth_in in Hin2 as (f & F1 & F2 & _).
    assert (Hx : forall u, uid = Some u -> into f2i f2u (made fs init) o k u <> RPanic).
    { intros u Eu. specialize (Hinto o k f u Lo F1 (or_intror F2) (Hu u Eu)). destruct (into _ _ _ _ _ _); try discriminate. contradiction. }
    destruct uid as [[]|]; try (apply Hx; reflexivity); destruct r; discriminate.
  - exfalso. apply Hr. intros i name r X. apply ins_in in X as (f & F1 & F2 & _). eauto.
Qed.
Print Assumptions C77_no_panic_partial.
(* a dependency in a field that is not exported, as in &Op{db: db}: every request panics *)
Theorem C77_init_refuted : forall f2i f2u fs init h i f v, typed fs init -> NewHandler fs (Some init) = Some h ->
  nth_error fs i = Some f -> kept f -> a_exported f = false -> nth_error init i = Some v -> v <> zero (a_type f) ->
  forall d uid, Recv f2i f2u h d uid = RPanic.
Proof.
  intros f2i f2u fs init h i f v Ht Hh Hf Hk He Hv Hz d uid. new Hh. unfold Recv. destruct (set_init (made fs init) _ _) as [o|] eqn:E; auto. exfalso.
  destruct (set_init_exported _ _ _ _ E i v) as (g & G1 & G2).
  - cbn [made h_init]. apply inits_in. split; [lia|]. rewrite Nat.sub_0_r. exists f. repeat split; auto; try apply Hk. apply is_zero_false; auto. exact (typed_nth fs init Ht i f v Hf Hv).
  - cbn [made h_fields] in G1. congruence.
Qed.
Print Assumptions C77_init_refuted.
(* an in field that is not exported: a request that has it panics *)
Theorem C77_in_refuted : forall f2i f2u s, let fs := [AFld (B "x") false [] [] (B "in") None TStr] in
  exists h, NewHandler fs None = Some h /\ Recv f2i f2u h [] None = ROk [VStr []] /\ Recv f2i f2u h [(B "x", NStr s)] None = RPanic.
Proof. intros. eexists. split; [reflexivity|]. split; reflexivity. Qed.
Print Assumptions C77_in_refuted.
Example C77_ex : forall f2i f2u, let init := inc_obj [] [] 0 0 state0 in
  exported inc (fun f => is_in f \/ is_auth f) /\ init_ok inc init /\
  Recv f2i f2u (made inc init) [(B "name", NMap []); (B "amount", NList [])] None = RErr /\
  Recv f2i f2u (made [AFld (B "db") false [] [] [] None (TPtr TBool)] [VPtr (VBool false)]) [] None = RPanic.
Proof.
  intros f2i f2u init. split. { intros f Hf _. repeat (destruct Hf as [<-|Hf]; [reflexivity|]). destruct Hf. }
  split. { intros i f v Hf Hv _ _. six i; injection Hf as <-; reflexivity. }
  split; reflexivity.
Qed.
