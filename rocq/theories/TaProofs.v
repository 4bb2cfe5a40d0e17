(* Data that is read as the same values gives the same calls. *)
From Coq Require Import Bool Ascii String Arith NArith ZArith Lia List Sorted Permutation.
From Verif Require Import Prelude PreludeFacts Utf8Model DecModel DurModel DurProofs EncModel JsonModel KvSpec JsonSpec JsonFacts KvProofs JsonProofs MarModel MarSpec MarFacts MarProofs ConfModel ConfSpec ApiModel ApiSpec ApiMar ApiProofs ApiRecv ApiCall TaModel.
Import ListNotations.

(* the same result, up to what an error leaves behind *)
Definition sameu (r r' : ures * list call) : Prop :=
  match fst r, fst r' with UOk w, UOk w' => w = w' | UErr _, UErr _ => True | UPanic, UPanic => True | _, _ => False end.
Lemma sameu_refl r : sameu r r.
Proof. unfold sameu. destruct (fst r); auto. Qed.
Lemma sameu_sym r r' : sameu r r' -> sameu r' r.
Proof. unfold sameu. destruct (fst r), (fst r'); auto. Qed.
Lemma sameu_trans a b c : sameu a b -> sameu b c -> sameu a c.
Proof. unfold sameu. destruct (fst a), (fst b), (fst c); try tauto; congruence. Qed.
Lemma sameu_num t o o' s a b c : sameu (unm_num t o s a b, c) (unm_num t o' s a b, c).
Proof. unfold sameu, unm_num. cbn [fst]. destruct t; auto; destruct a; auto; destruct b; auto. Qed.
Lemma sameu_old f2i f2u uf t p n o o' : (forall fs, t <> TStruct fs) -> sameu (unm f2i f2u uf t p n o) (unm f2i f2u uf t p n o').
Proof.
  intros Ht. destruct t; try (exfalso; eapply Ht; reflexivity); cbn [unm]; destruct n; try apply sameu_refl; try apply sameu_num; try exact Logic.I;
    repeat match goal with |- context [let (_, _) := ?x in _] => destruct x end; try apply sameu_refl; unfold sameu; cbn [fst snd];
    repeat match goal with |- context [if ?x then _ else _] => destruct x end;
    repeat match goal with |- context [let (_, _) := ?x in _] => destruct x end; cbn [fst]; auto;
    match goal with |- context [match ?e with EOk _ => _ | _ => _ end] => destruct e; auto end.
Qed.
Definition samef (r r' : eres unit * list val * list call) : Prop :=
  match fst (fst r), fst (fst r') with EOk _, EOk _ => snd (fst r) = snd (fst r') | EErr, EErr => True | EPanic, EPanic => True | _, _ => False end.
Lemma fields_same (U : ty -> list pel -> node -> val -> ures * list call) p m m' (fs : list (fld * ty)) : mget beqb m [] = None -> mget beqb m' [] = None -> forall vs os,
  (forall f t, In (f, t) fs -> okfld f) ->
  fieldwise (fun f t v => forall name o, vis f = Some (name, o) ->
    if o && blank v then mget beqb m name = None /\ mget beqb m' name = None else
      exists x x', mget beqb m name = Some x /\ mget beqb m' name = Some x' /\ forall p old, sameu (U t p x old) (U t p x' old)) fs vs ->
  samef (unm_fields p m (map (fun f => (fst f, U (snd f))) fs) os) (unm_fields p m' (map (fun f => (fst f, U (snd f))) fs) os).
Proof.
  intros Hm Hm'. induction fs as [|[f t] fs IH]; intros [|v vs] os Hok Hf; cbn [fieldwise] in Hf; try contradiction; cbn [unm_fields map fst snd].
  - reflexivity.
  - destruct os as [|o os]; [reflexivity|]. destruct Hf as [H Hf].
    assert (Hok' : forall f0 t0, In (f0, t0) fs -> okfld f0) by (intros f0 t0 Hi; eapply Hok; right; eauto).
    specialize (IH vs os Hok' Hf). destruct (unm_fields p m (map (fun f => (fst f, U (snd f))) fs) os) as [[e r] c].
    destruct (unm_fields p m' (map (fun f => (fst f, U (snd f))) fs) os) as [[e' r'] c'].
    assert (Hfl : okfld f) by (apply (Hok f t); now left). destruct Hfl as [_ Hfl].
    assert (Hskip : forall w a b, samef (e, w :: r, a ++ c) (e', w :: r', b ++ c')) by (intros w a b; unfold samef in *; cbn [fst snd] in *; destruct e, e'; auto; congruence).
    destruct (vis_cases f Hfl) as [(E1 & E2)|[(E1 & E2 & E3)|(name & om & E1 & E2 & E3)]].
    + rewrite E1. apply Hskip.
    + rewrite E1, E2. cbn [g_json]. rewrite Hm, Hm'. apply Hskip.
    + rewrite E1, E2. cbn [g_json]. specialize (H _ _ E3). destruct (om && blank v).
      * destruct H as [-> ->]. apply Hskip.
      * destruct H as (x & x' & -> & -> & H). specialize (H (p ++ [PName (f_name f)]) o). unfold sameu in H.
        destruct (U t (p ++ [PName (f_name f)]) x o) as [[w|w|] a], (U t (p ++ [PName (f_name f)]) x' o) as [[w'|w'|] b]; cbn [fst] in H; try contradiction; try reflexivity.
        subst w'. apply Hskip.
Qed.
Lemma unm_same f2i f2u t : forall v n n' p old, wfty t -> hasty t v -> repr t v n -> repr t v n' ->
  sameu (unm f2i f2u None t p n old) (unm f2i f2u None t p n' old).
Proof.
  assert (Hflat : forall t v n n' p old, (forall fs, t <> TStruct fs) -> wfty t -> hasty t v -> repr t v n -> repr t v n' ->
    sameu (unm f2i f2u None t p n old) (unm f2i f2u None t p n' old)).
  { clear. intros t v n n' p old Hs Hw Ht H H'. eapply sameu_trans; [apply (sameu_old _ _ _ _ _ _ _ (zero t) Hs)|]. eapply sameu_trans; [|apply (sameu_old _ _ _ _ _ _ (zero t) _ Hs)].
    pose proof (unm_repr f2i f2u None t v n p Hw Ht H) as [_ A]. pose proof (unm_repr f2i f2u None t v n' p Hw Ht H') as [_ A'].
    unfold sameu. destruct (fst (unm f2i f2u None t p n (zero t))), (fst (unm f2i f2u None t p n' (zero t))); try tauto. destruct A as [_ ->], A' as [_ ->]. reflexivity. }
  induction t as [ | w | w | | t IH | t IH | k t IH | k t IH | fs IH] using ty_nest; intros v n n' p old Hw Ht H H';
    try (match goal with |- sameu (unm _ _ _ ?T _ _ _) _ => assert (Hns : forall fs, T <> TStruct fs) by (intros fs' E; discriminate E); exact (Hflat T v n n' p old Hns Hw Ht H H') end).
  destruct v as [| | | | | | |vs]; cbn [hasty repr] in Ht, H, H'; try contradiction.
  destruct H as (m & Hmap & Hnd & Hin & Hf). destruct H' as (m' & Hmap' & Hnd' & Hin' & Hf'). pose proof (wf_fields fs Hw) as [Hd Hok].
  assert (Hno : forall m : list (bytes * node), (forall k, In k (map fst m) -> In k (vnames (map fst fs))) -> mget beqb m [] = None).
  { clear - Hok. intros m Hin. apply mget_none; [apply beqb_ok|]. intros Hi. apply Hin in Hi. revert Hi. apply vnames_nonnil. intros f Hi. apply in_map_iff in Hi as ([f' t] & <- & Hi).
    now apply (Hok f' t). }
  assert (Hgoal : forall os, samef (unm_fields p m (map (fun f => (fst f, unm f2i f2u None (snd f))) fs) os) (unm_fields p m' (map (fun f => (fst f, unm f2i f2u None (snd f))) fs) os)).
  { intros os. apply (fields_same (unm f2i f2u None) p m m' fs (Hno m Hin) (Hno m' Hin') vs os).
    - intros f t Hi. now apply (Hok f t).
    - eapply fieldwise_impl; [|apply (fieldwise_and _ _ _ _ Hf (fieldwise_and _ _ _ _ Hf' Ht))]. cbn beta. intros f t v Hi (Hx & Hx' & Hv) name o Hvis.
      specialize (Hx _ _ Hvis). specialize (Hx' _ _ Hvis). destruct (o && blank v); [auto|]. destruct Hx as (x & Hx1 & Hx2), Hx' as (x' & Hx1' & Hx2').
      exists x, x'. split; auto. split; auto. intros q old'. apply (IH f t Hi v); auto. now apply (Hok f t). }
  assert (Hfin : forall n m, is_map n m -> forall os, unm f2i f2u None (TStruct fs) p n (VStruct os) =
     let '(e, vs', c) := unm_fields p m (map (fun f => (fst f, unm f2i f2u None (snd f))) fs) os in
     match e with EOk _ => (UOk (VStruct vs'), c) | EErr => (UErr (VStruct vs'), c) | EPanic => (UPanic, c) end).
  { intros x mm [->|(ps & -> & ->)] os; reflexivity. }
  destruct old as [| | | | | | |os];
    try (destruct Hmap as [->|(ps & -> & ->)], Hmap' as [->|(ps' & -> & ->)]; exact Logic.I).
  rewrite (Hfin n m Hmap os), (Hfin n' m' Hmap' os). specialize (Hgoal os). unfold samef in Hgoal.
  destruct (unm_fields p m (map (fun f => (fst f, unm f2i f2u None (snd f))) fs) os) as [[e r] c], (unm_fields p m' (map (fun f => (fst f, unm f2i f2u None (snd f))) fs) os) as [[e' r'] c'].
  cbn [fst snd] in Hgoal. destruct e, e'; try contradiction; unfold sameu; cbn [fst]; auto. congruence.
Qed.

Section Same.
  Context (f2i f2u : floatv -> Z).
  (* two nodes that the field of the type reads alike *)
  Definition alike (t : ty) (n n' : option node) : Prop :=
    match n, n' with
    | None, None => True
    | Some n, Some n' => forall old, sameu (Unmarshal f2i f2u None t n old) (Unmarshal f2i f2u None t n' old)
    | _, _ => False
    end.
  Lemma into_same h obj i n n' : (forall f, nth_error (h_fields h) i = Some f -> alike (a_type f) (Some n) (Some n')) ->
    into f2i f2u h obj i n = into f2i f2u h obj i n'.
  Proof.
    intros H. unfold into. destruct (the_field h obj i) as [[f v]|] eqn:E; auto. apply field_inv in E as [E1 _]. specialize (H f E1 v). unfold sameu in H.
    destruct (a_exported f); auto. destruct (fst (Unmarshal f2i f2u None (a_type f) n v)), (fst (Unmarshal f2i f2u None (a_type f) n' v)); try contradiction; congruence.
  Qed.
  Lemma recv_in_same h d d' l : (forall i name r f, In (i, name, r) l -> nth_error (h_fields h) i = Some f -> alike (a_type f) (mget beqb d name) (mget beqb d' name)) ->
    (forall i name r, In (i, name, r) l -> exists f, nth_error (h_fields h) i = Some f) ->
    forall obj, recv_in f2i f2u h d obj l = recv_in f2i f2u h d' obj l.
  Proof.
    induction l as [|[[i name] r] l IH]; intros H Hx obj; cbn [recv_in]; auto.
    assert (E : match mget beqb d name with None => ROk obj | Some n => into f2i f2u h obj i n end = match mget beqb d' name with None => ROk obj | Some n => into f2i f2u h obj i n end).
    { destruct (Hx i name r (or_introl eq_refl)) as (f & Hf). pose proof (fun f => H i name r f (or_introl eq_refl)) as Ha.
      destruct (mget beqb d name) as [n|], (mget beqb d' name) as [n'|]; auto; try (exfalso; exact (Ha f Hf)). now apply into_same. }
    rewrite E. destruct (match mget beqb d' name with None => ROk obj | Some n => into f2i f2u h obj i n end) as [o| |]; auto.
    destruct (the_field h o i) as [[f v]|]; auto. destruct (r && is_zero (a_type f) v); auto. apply IH.
    - intros j nm r' g Hj. apply (H j nm r' g). now right.
    - intros j nm r' Hj. apply (Hx j nm r'). now right.
  Qed.
  Lemma inits_agree fs : forall vs vs' i, (forall j f, nth_error fs j = Some f -> kept f -> nth_error vs j = nth_error vs' j) -> length vs = length fs -> length vs' = length fs ->
    inits_of i fs vs = inits_of i fs vs'.
  Proof.
    induction fs as [|f fs IH]; intros [|v vs] [|v' vs'] i H L L'; cbn in L, L'; try discriminate; auto. cbn [inits_of].
    rewrite (IH vs vs' (S i)); try lia; [|intros j g Hj; exact (H (S j) g Hj)]. f_equal. destruct (bkept f) eqn:E; auto. apply bkept_iff in E.
    specialize (H 0 f eq_refl E). cbn in H. injection H as ->. reflexivity.
  Qed.

  Context (fs : list afld).
  Notation ins := (flat_map ins_of (idx 0 fs)).
  Notation outs := (flat_map outs_of (idx 0 fs)).
  Lemma sent_alike cvs obj l (P : afld -> Prop) d d' : api_type fs -> typed fs obj -> texts fs P obj ->
    (forall i name, In (i, name) l -> exists f, nth_error fs i = Some f /\ P f /\ wire f name) -> NoDup (map snd l) ->
    send (made fs cvs) obj [] l = Ok d -> carried True d d' -> forall i name f, In (i, name) l -> nth_error fs i = Some f -> alike (a_type f) (mget beqb d name) (mget beqb d' name).
  Proof.
    intros Ha Ht Hq Hl Hnd Hs Hc i name f Hi Hf. destruct (Hl i name Hi) as (g & G1 & G2 & G3). rewrite Hf in G1. injection G1 as <-.
    assert (Hfi : In f fs) by (eapply nth_error_In; eauto). destruct (nth_error_lt obj i) as (v & Ev); [rewrite (typed_length _ _ Ht); eapply nth_error_some_lt; eauto|].
    pose proof (at_wf _ Ha f Hfi) as Hw. pose proof (typed_nth _ _ Ht _ _ _ Hf Ev) as Hty.
    destruct (arrives fs (made fs cvs) obj l d d' True i name f v eq_refl Hs Hnd Hc Hi Hf Ev Hw Hty) as (n' & N1 & N2). { intros _. now apply (Hq i f v). }
    destruct (arrives fs (made fs cvs) obj l d d True i name f v eq_refl Hs Hnd) as (n & N3 & N4); auto. { left. constructor. } { intros _. now apply (Hq i f v). }
    rewrite N1, N3. intros old. unfold Unmarshal. eapply unm_same; eauto.
  Qed.
  (* the data handed over as it is, or as JSON text *)
  Lemma call_same short vs uid do obj : api_type fs -> typed fs obj -> texts fs is_in obj ->
    (forall o o', do o = Some o' -> typed fs o' /\ texts fs is_out o') ->
    api_call f2i f2u (made fs obj) (made fs vs) Some uid do obj = api_call f2i f2u (made fs obj) (made fs vs) (by_json short) uid do obj.
  Proof.
    intros Ha Ht Hq Hdo. unfold api_call, ClientSend. cbn [made h_in].
    assert (Hins : forall i name, In (i, name) (map fst ins) -> exists f, nth_error fs i = Some f /\ is_in f /\ wire f name).
    { intros i name X. apply in_fst_ins in X as (f & F1 & F2 & F3). eauto. }
    assert (Houts : forall i name, In (i, name) outs -> exists f, nth_error fs i = Some f /\ is_out f /\ wire f name).
    { intros i name X. apply outs_in in X as (f & F1 & F2 & F3). eauto. }
    fold (made fs obj). fold (made fs vs).
    destruct (send (made fs obj) obj [] (map fst ins)) as [d|] eqn:Hd; auto.
    destruct (carry_sent fs True (by_json short) obj obj is_in (map fst ins) d) as (d1 & E1 & C1); auto. { right. split; auto. now exists short. }
    rewrite E1. assert (Er : Recv f2i f2u (made fs vs) d uid = Recv f2i f2u (made fs vs) d1 uid).
    { unfold Recv. cbn [made h_in h_fields h_init]. fold (made fs vs). destruct (set_init (made fs vs) (fresh fs) (inits_of 0 fs vs)) as [st|]; auto.
      rewrite (recv_in_same (made fs vs) d d1 ins); auto.
      - intros i name r f Hi Hf. apply (in_map fst) in Hi. cbn [fst] in Hi.
        eapply (sent_alike obj obj (map fst ins) is_in d d1); eauto. apply ins_names. now apply (at_in _ Ha).
      - intros i name r Hi. apply (in_map fst) in Hi. destruct (Hins _ _ Hi) as (f & F & _). eauto. }
    rewrite Er. destruct (Recv f2i f2u (made fs vs) d1 uid) as [sobj| |]; auto. destruct (do sobj) as [sobj'|] eqn:Edo; auto. destruct (Hdo _ _ Edo) as [Hts Hx].
    unfold Send. cbn [made h_out]. fold (made fs vs). destruct (send (made fs vs) sobj' [] outs) as [d2|] eqn:Hd2; auto.
    destruct (carry_sent fs True (by_json short) vs sobj' is_out outs d2) as (d3 & E3 & C3); auto. { right. split; auto. now exists short. }
    rewrite E3. unfold ClientRecv. cbn [made h_out]. fold (made fs obj).
    assert (Hlt : forall i name, In (i, name) outs -> i < length (h_fields (made fs obj))).
    { intros i name Hi. destruct (Houts _ _ Hi) as (f & F & _). eapply nth_error_some_lt; eauto. }
    rewrite !client_recv_in by (auto; exact (typed_length _ _ Ht)). apply recv_in_same.
    - intros i name r f Hi Hf. apply in_map_iff in Hi as ([i' nm] & E & Hi). injection E as -> -> _.
      eapply (sent_alike vs sobj' outs is_out d2 d3); eauto. apply outs_names. now apply (at_out _ Ha).
    - intros i name r Hi. apply in_map_iff in Hi as ([i' nm] & E & Hi). injection E as -> -> _. destruct (Houts _ _ Hi) as (f & F & _). eauto.
  Qed.
  Lemma recv_nobody h d u : nobody (Some u) -> Recv f2i f2u h d (Some u) = Recv f2i f2u h d None.
  Proof. intros [E|E]; [discriminate|]. injection E as ->. unfold Recv, recv_auth. reflexivity. Qed.
  Lemma made_agree vs vs' : length vs = length fs -> agree fs kept vs vs' -> made fs vs = made fs vs'.
  Proof. intros L [L' H]. unfold made. now rewrite (inits_agree fs vs vs' 0) by (auto; lia). Qed.
End Same.
