(* Property C137: /repo/enc/handler.go Handler.Factory. *)
From Coq Require Import Bool Ascii String Arith NArith ZArith List.
From Verif Require Import Prelude PreludeFacts Utf8Model DecModel DurModel EncModel JsonModel MarModel MarProofs FcModel FcSpec.
Import ListNotations.

(* induction over types *)
Section Ind.
  Variable P : fty -> Prop.
  Hypothesis HB : P FBool.
  Hypothesis HI : forall w, P (FInt w).
  Hypothesis HU : forall w, P (FUint w).
  Hypothesis HS : P FStr.
  Hypothesis HF : forall k, P (FIface k).
  Hypothesis HP : forall t, P t -> P (FPtr t).
  Hypothesis HL : forall t, P t -> P (FSlice t).
  Hypothesis HA : forall n t, P t -> P (FArr n t).
  Hypothesis HM : forall k t, P t -> P (FMap k t).
  Hypothesis HT : forall fs, (forall f t, In (f, t) fs -> P t) -> P (FStruct fs).
  Fixpoint fty_all (t : fty) : P t :=
    match t with
    | FBool => HB | FInt w => HI w | FUint w => HU w | FStr => HS | FIface k => HF k
    | FPtr t => HP t (fty_all t) | FSlice t => HL t (fty_all t) | FArr n t => HA n t (fty_all t) | FMap k t => HM k t (fty_all t)
    | FStruct fs => HT fs ((fix go (l : list (fld * fty)) : forall f t, In (f, t) l -> P t :=
        match l return forall f t, In (f, t) l -> P t with
        | [] => fun f t h => match h with end
        | (f0, t0) :: r => fun f t h => match h with
            | or_introl e => eq_ind t0 P (fty_all t0) t (f_equal snd e)
            | or_intror h' => go r f t h' end
        end) fs)
    end.
End Ind.

Section All.
  Context (f2i f2u : floatv -> Z) (implements : nat -> node -> bool) (convertible : fval -> node -> bool).
  Notation U := (unmf f2i f2u implements convertible).

  Lemma use_panics t old x : plain t -> use convertible t old x = FPanic.
  Proof. intros H. unfold use, value_elem, type_elem. destruct t; try reflexivity. destruct old; try reflexivity. destruct o; reflexivity. Qed.
  Ltac fac_case :=
    match goal with F : fty -> option (node -> option fval), E : _ = FOk _ |- _ => cbn [unmf] in E; match type of E with context [F ?t] =>
      let f := fresh "f" in destruct (F t) as [f|]; [match type of E with context [f ?n] => destruct (f n); [rewrite use_panics in E by (intros ?; discriminate); discriminate E|discriminate E] end|] end end.
  Lemma elems_sub f g l vs : (forall n v, f n = FOk v -> g n = FOk v) -> f_elems f l = EOk vs -> f_elems g l = EOk vs.
  Proof.
    intros H. revert vs. induction l as [|n l IH]; intros vs E; cbn [f_elems] in *; [exact E|]. destruct (f n) as [v| |] eqn:Ef; try discriminate. rewrite (H _ _ Ef).
    destruct (f_elems f l) as [ws| |]; try discriminate. rewrite (IH ws eq_refl). exact E.
  Qed.
  Lemma entries_sub k f g l : (forall n v, f n = FOk v -> g n = FOk v) -> forall acc vs, f_entries k f acc l = EOk vs -> f_entries k g acc l = EOk vs.
  Proof.
    intros H. induction l as [|[s n] l IH]; intros acc vs E; cbn [f_entries] in *; [exact E|]. destruct (ukey k s); [|discriminate].
    destruct (f n) as [v| |] eqn:Ef; try discriminate. rewrite (H _ _ Ef). auto.
  Qed.
  Lemma fields_sub m (F G : fty -> node -> fval -> fres) (fs : list (fld * fty)) : (forall f t, In (f, t) fs -> forall n old v, F t n old = FOk v -> G t n old = FOk v) -> forall vs ws,
    f_fields m (map (fun f => (fst f, F (snd f))) fs) vs = (EOk tt, ws) -> f_fields m (map (fun f => (fst f, G (snd f))) fs) vs = (EOk tt, ws).
  Proof.
    intros H. induction fs as [|[f t] fs IH]; intros vs ws E; cbn [map f_fields fst snd] in *; [exact E|]. destruct vs as [|v vs]; [exact E|].
    assert (IH' : forall ws, f_fields m (map (fun f => (fst f, F (snd f))) fs) vs = (EOk tt, ws) -> f_fields m (map (fun f => (fst f, G (snd f))) fs) vs = (EOk tt, ws)).
    { intros w. apply IH. intros f' t' Hi. apply (H f' t'). now right. }
    assert (K : forall w, (let (e, r) := f_fields m (map (fun f => (fst f, F (snd f))) fs) vs in (e, w :: r)) = (EOk tt, ws) ->
      (let (e, r) := f_fields m (map (fun f => (fst f, G (snd f))) fs) vs in (e, w :: r)) = (EOk tt, ws)).
    { intros w Ew. destruct (f_fields m (map (fun f => (fst f, F (snd f))) fs) vs) as [e r] eqn:Ef. assert (e = EOk tt) by congruence. subst e. rewrite (IH' r eq_refl). exact Ew. }
    destruct (f_exported f); [|apply K; exact E]. destruct (parseTag f) as [tg|]; [|discriminate]. destruct (mget beqb m (g_json tg)) as [n|]; [|apply K; exact E].
    destruct (F t n v) as [w| |] eqn:Ef; try discriminate. rewrite (H f t (or_introl eq_refl) n v w Ef). apply K. exact E.
  Qed.

  (* With factories, Unmarshal has exactly the results that it has without them, where it returns one: no value of a factory gets into a
     variable, for every type, node and variable. *)
  Theorem C137_refuted : forall fac t n old v, U fac t n old = FOk v -> U none t n old = FOk v.
  Proof.
    intros fac. induction t as [|w|w| |k|t IH|t IH|m t IH|k t IH|fs IH] using fty_all; intros n old v E.
    6: { cbn [unmf] in *. destruct n; try exact E; (destruct (U fac t _ (fzero t)) as [x|x|] eqn:Ex; try discriminate; rewrite (IH _ _ _ Ex); exact E). }
    all: fac_case; cbn [unmf]; unfold none at 1; cbv zeta in *.
    1-5: exact E.
    - destruct n; try exact E. destruct (f_elems _ l) as [vs| |] eqn:Es; try discriminate. rewrite (elems_sub _ _ _ _ (fun n v => IH n _ v) Es). exact E.
    - destruct n; try exact E. destruct (length l =? m); [|exact E]. destruct (f_elems _ l) as [vs| |] eqn:Es; try discriminate. rewrite (elems_sub _ _ _ _ (fun n v => IH n _ v) Es). exact E.
    - destruct n; try exact E; cbv zeta in *; (destruct (f_entries k _ [] _) as [vs| |] eqn:Es; try discriminate; rewrite (entries_sub _ _ _ _ (fun n v => IH n _ v) _ _ Es); exact E).
    - destruct n; try exact E; cbv zeta in *; (destruct old; try exact E;
        match type of E with context [f_fields ?m ?g ?vs] => destruct (f_fields m g vs) as [e ws] eqn:Es end; destruct e as [u| |]; try discriminate; destruct u;
        rewrite (fields_sub _ _ _ fs (fun f t Hi n old v => IH f t Hi n old v) _ _ Es); exact E).
  Qed.
  (* Whenever a factory makes a value, Unmarshal panics; when it fails, its error is returned. *)
  Theorem C137_panics_refuted : forall fac t f n old, plain t -> fac t = Some f ->
    U fac t n old = match f n with Some _ => FPanic | None => FErr old end.
  Proof.
    intros fac t f n old Hp Hf. assert (E : U fac t n old = match f n with None => FErr old | Some x => use convertible t old x end).
    { destruct t; try (cbn [unmf]; rewrite Hf; reflexivity). destruct (Hp t eq_refl). }
    rewrite E. destruct (f n) as [x|]; [|reflexivity]. now apply use_panics.
  Qed.
  Lemma elems_same f g l : (forall n, f n = g n) -> f_elems f l = f_elems g l.
  Proof. intros H. induction l as [|n l IH]; cbn [f_elems]; [reflexivity|]. now rewrite H, IH. Qed.
  Lemma entries_same k f g l : (forall n, f n = g n) -> forall acc, f_entries k f acc l = f_entries k g acc l.
  Proof. intros H. induction l as [|[s n] l IH]; intros acc; cbn [f_entries]; [reflexivity|]. rewrite H. destruct (ukey k s); [|reflexivity]. destruct (g n); auto. Qed.
  Lemma fields_same m (F G : fty -> node -> fval -> fres) (fs : list (fld * fty)) : (forall f t, In (f, t) fs -> forall n old, F t n old = G t n old) -> forall vs,
    f_fields m (map (fun f => (fst f, F (snd f))) fs) vs = f_fields m (map (fun f => (fst f, G (snd f))) fs) vs.
  Proof.
    intros H. induction fs as [|[f t] fs IH]; intros vs; cbn [map f_fields fst snd]; [reflexivity|]. destruct vs as [|v vs]; [reflexivity|].
    rewrite IH by (intros f' t' Hi; apply (H f' t'); now right). destruct (f_exported f); [|reflexivity]. destruct (parseTag f) as [tg|]; [|reflexivity]. destruct (mget beqb m (g_json tg)) as [n|]; [|reflexivity].
    now rewrite (H f t (or_introl eq_refl)).
  Qed.
  (* Factories for types that occur nowhere in the variable, or only behind nothing but pointers to them, make no difference. *)
  Theorem C137_partial : forall fac t n old, (forall s, part s t -> plain s -> fac s = None) -> U fac t n old = U none t n old.
  Proof.
    intros fac. induction t as [|w|w| |k|t IH|t IH|m t IH|k t IH|fs IH] using fty_all; intros n old H.
    6: { cbn [unmf]. rewrite IH by (intros s Hs; apply H; now constructor). reflexivity. }
    all: cbn [unmf]; rewrite (H _ (pt_self _)) by (intros s; discriminate); unfold none at 1; cbv zeta.
    1-5: reflexivity.
    - destruct n; try reflexivity. erewrite elems_same; [reflexivity|]. intros n. apply IH. intros s Hs. apply H. now constructor.
    - destruct n; try reflexivity. erewrite elems_same; [reflexivity|]. intros n. apply IH. intros s Hs. apply H. now constructor.
    - destruct n; try reflexivity; (erewrite entries_same; [reflexivity|]); intros n; apply IH; intros s Hs; apply H; now constructor.
    - destruct n; try reflexivity; (destruct old; try reflexivity; rewrite (fields_same _ _ (U none) fs); [reflexivity|]); intros f t Hi n old; apply (IH f t Hi); intros s Hs; apply H; econstructor; eauto.
  Qed.
  (* What can get into an interface at all: null, and native values that implement it. *)
  Theorem C137_interface_refuted : forall fac k n old v, U fac (FIface k) n old = FOk v -> (n = NNil /\ v = XAny None) \/ (implements k n = true /\ v = XAny (Some n)).
  Proof.
    intros fac k n old v E. apply C137_refuted in E. cbn [unmf] in E. unfold none in E. destruct n; cbv zeta in E;
      [left; injection E as <-; split; reflexivity|..]; right; match type of E with context [implements k ?n] => destruct (implements k n) end; try discriminate; (split; [reflexivity|congruence]).
  Qed.
  (* Without a factory for an interface the value of the node is stored, and if it is not of the interface Unmarshal panics. *)
  Theorem C137_interface_panics_refuted : forall fac k n old, fac (FIface k) = None -> n <> NNil -> (forall x, n <> NTime x) -> (forall x, n <> NDur x) ->
    U fac (FIface k) n old = if implements k n then FOk (XAny (Some n)) else FPanic.
  Proof.
    intros fac k n old Hf H0 H1 H2. cbn [unmf]. rewrite Hf. destruct n; try reflexivity; [congruence|destruct (H1 _ eq_refl)|destruct (H2 _ eq_refl)].
  Qed.
End All.
Print Assumptions C137_refuted.
Print Assumptions C137_interface_panics_refuted.
Print Assumptions C137_panics_refuted.
Print Assumptions C137_partial.
Print Assumptions C137_interface_refuted.
(* Without factories and interfaces this is the model of C31-C34, C74, C75. *)
Lemma zero_emb t : fzero (emb t) = embv (zero t).
Proof.
  induction t as [ |w|w| |t IH|t IH|n t IH|k t IH|fs IH] using ty_nest; cbn [emb fzero zero embv]; try reflexivity.
  - rewrite IH. f_equal. induction n; cbn; congruence.
  - f_equal. rewrite !map_map. apply map_ext_in. intros [f t] Hi. exact (IH f t Hi).
Qed.
Lemma set_emb m k v : fset (map (fun e => (fst e, embv (snd e))) m) k (embv v) = map (fun e => (fst e, embv (snd e))) (kset m k v).
Proof. induction m as [|[k' v'] m IH]; cbn; [reflexivity|]. destruct (kltb k k'); [reflexivity|]. destruct (kltb k' k); cbn; [now rewrite IH|reflexivity]. Qed.
Lemma elems_emb (f : node -> fres) g p : (forall q n, f n = embr (fst (g q n))) -> forall l i,
  f_elems f l = match fst (unm_elems g p i l) with EOk vs => EOk (map embv vs) | EErr => EErr | EPanic => EPanic end.
Proof.
  intros H. induction l as [|n l IH]; intros i; cbn [f_elems unm_elems]; [reflexivity|]. rewrite (H (p ++ [PIdx i]) n). destruct (g (p ++ [PIdx i]) n) as [u c]. destruct u; cbn [fst embr]; try reflexivity.
  rewrite (IH (S i)). destruct (unm_elems g p (S i) l) as [e c']. destruct e; reflexivity.
Qed.
Lemma entries_emb k (f : node -> fres) g p : (forall q n, f n = embr (fst (g q n))) -> forall l acc,
  f_entries k f (map (fun e => (fst e, embv (snd e))) acc) l = match fst (unm_entries k g p acc l) with EOk m => EOk (map (fun e => (fst e, embv (snd e))) m) | EErr => EErr | EPanic => EPanic end.
Proof.
  intros H. induction l as [|[s n] l IH]; intros acc; cbn [f_entries unm_entries]; [reflexivity|]. destruct (ukey k s) as [x|]; [|reflexivity]. rewrite (H (p ++ [PVal]) n).
  destruct (g (p ++ [PVal]) n) as [u c]. destruct u; cbn [fst embr]; try reflexivity. rewrite set_emb, IH. destruct (unm_entries k g p (kset acc x v) l) as [e c']. destruct e; reflexivity.
Qed.
Lemma fields_emb m p (F : fty -> node -> fval -> fres) (G : ty -> list pel -> node -> val -> ures * list call) (fs : list (fld * ty)) :
  (forall f t, In (f, t) fs -> forall q n old, F (emb t) n (embv old) = embr (fst (G t q n old))) -> forall vs,
  f_fields m (map (fun f => (fst f, F (snd f))) (map (fun f => (fst f, emb (snd f))) fs)) (map embv vs)
  = let '(e, ws, _) := unm_fields p m (map (fun f => (fst f, G (snd f))) fs) vs in (e, map embv ws).
Proof.
  intros H. induction fs as [|[f t] fs IH]; intros [|v vs]; cbn [map f_fields unm_fields fst snd]; try reflexivity.
  rewrite IH by (intros f' t' Hi; apply (H f' t'); now right). destruct (unm_fields p m (map (fun f => (fst f, G (snd f))) fs) vs) as [[e ws] c].
  destruct (f_exported f); [|reflexivity]. destruct (parseTag f) as [tg|]; [|reflexivity]. destruct (mget beqb m (g_json tg)) as [n|]; [|reflexivity].
  rewrite (H f t (or_introl eq_refl) (p ++ [PName (f_name f)])). destruct (G t (p ++ [PName (f_name f)]) n v) as [u c']. destruct u; reflexivity.
Qed.
Theorem C137_plain : forall f2i f2u im cv t p n old, unmf f2i f2u im cv none (emb t) n (embv old) = embr (fst (unm f2i f2u None t p n old)).
Proof.
  intros f2i f2u im cv t. induction t as [ |w|w| |t IH|t IH|k t IH|k t IH|fs IH] using ty_nest; intros p n old.
  5: { cbn [emb unmf unm]. destruct n; try reflexivity; (rewrite zero_emb, (IH p); destruct (unm f2i f2u None t p _ (zero t)) as [u c]; destruct u; reflexivity). }
  1-4: cbn [emb unmf unm]; unfold none; cbv zeta; destruct n; try reflexivity; cbn [f_num unm_num fst embr embv];
    repeat match goal with |- context [match ?o with Some _ => _ | None => _ end] => destruct o end; reflexivity.
  - cbn [emb unmf unm]; unfold none at 1; cbv zeta. destruct n; try reflexivity.
    rewrite (elems_emb _ (fun p n => unm f2i f2u None t p n (zero t)) p) with (i := 0) by (intros q n; rewrite zero_emb; apply IH). destruct (unm_elems _ p 0 l) as [e c]. destruct e; reflexivity.
  - cbn [emb unmf unm]; unfold none at 1; cbv zeta. destruct n; try reflexivity.
    + cbn [fzero fst embr zero embv]. do 2 f_equal. rewrite zero_emb. clear. induction k; cbn; congruence.
    + destruct (length l =? k); [|reflexivity].
      rewrite (elems_emb _ (fun p n => unm f2i f2u None t p n (zero t)) p) with (i := 0) by (intros q n; rewrite zero_emb; apply IH). destruct (unm_elems _ p 0 l) as [e c]. destruct e; reflexivity.
  - cbn [emb unmf unm]; unfold none at 1; cbv zeta. destruct n; try reflexivity;
      (change (@nil (key * fval)) with (map (fun e : key * val => (fst e, embv (snd e))) []); rewrite (entries_emb k _ (fun p n => unm f2i f2u None t p n (zero t)) p) by (intros q n; rewrite zero_emb; apply IH);
       match goal with |- context [unm_entries ?a ?b ?c ?d ?e] => destruct (unm_entries a b c d e) as [r x] end; destruct r; reflexivity).
  - cbn [emb unmf unm]; unfold none at 1; cbv zeta. destruct n; try reflexivity.
    + exact (f_equal FOk (zero_emb (TStruct fs))).
    + destruct old; try reflexivity. cbn [embv]. rewrite (fields_emb _ p _ (unm f2i f2u None) fs) by (intros f t Hi q n old; apply (IH f t Hi)). destruct (unm_fields _ _ _ _) as [[e ws] c]. destruct e; reflexivity.
    + destruct old; try reflexivity. cbn [embv]. rewrite (fields_emb _ p _ (unm f2i f2u None) fs) by (intros f t Hi q n old; apply (IH f t Hi)). destruct (unm_fields _ _ _ _) as [[e ws] c]. destruct e; reflexivity.
Qed.
Print Assumptions C137_plain.
(* a struct with a field of an interface type, and a factory for that type: every object with that field panics, others are read as ever *)
Example C137_ex : let fs := [(Fld (B "N") true [], FInt W64); (Fld (B "Shape") true [], FIface 1)] in
  let fac t := match t with FIface 1 => Some (fun _ => Some (XStr (B "circle"))) | _ => None end in
  let U := unmf (fun _ => 0%Z) (fun _ => 0%Z) (fun _ _ => true) (fun _ _ => true) in
  let n := NMap [(B "N", NDigits (B "5")); (B "Shape", NStr (B "round"))] in
  plain (FIface 1) /\ part (FIface 1) (FStruct fs) /\
  U fac (FStruct fs) n (fzero (FStruct fs)) = FPanic /\ U none (FStruct fs) n (fzero (FStruct fs)) = FOk (XStruct [XNum 5; XAny (Some (NStr (B "round")))]) /\
  U fac (FStruct fs) (NMap [(B "N", NDigits (B "5"))]) (fzero (FStruct fs)) = FOk (XStruct [XNum 5; XAny None]).
Proof.
  cbv zeta. split; [intros s; discriminate|]. split; [eapply pt_field; [right; left; reflexivity|constructor]|]. repeat split; reflexivity.
Qed.
