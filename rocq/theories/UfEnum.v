(* The calls of UnhandledFields are the unknown fields, each once. *)
From Coq Require Import Bool Ascii String Arith NArith ZArith List Lia.
From Verif Require Import Prelude PreludeFacts Utf8Model DecModel DurModel DurProofs KvProofs EncModel JsonModel JsonSpec MarModel MarSpec MarFacts MarProofs MarStruct MarOrder UfSpec.
Import ListNotations.

Definition entry := (list step * bytes * node)%type.
(* the list has exactly these, and each once *)
Definition enum (L : list entry) (P : list step -> bytes -> node -> Prop) : Prop := NoDup (map fst L) /\ forall s k x, In (s, k, x) L <-> P s k x.
Definition under (a : step) (e : entry) : entry := let '(s, k, x) := e in (a :: s, k, x).
Definition render (p : list pel) (e : entry) : call := let '(s, k, x) := e in (p ++ map show s ++ [PKey k], x).
Lemma render_under : forall p a L, map (render p) (map (under a) L) = map (render (p ++ [show a])) L.
Proof. intros p a L. rewrite map_map. apply map_ext. intros [[s k] x]. cbn. rewrite <- app_assoc. reflexivity. Qed.
Lemma enum_nil : forall P : list step -> bytes -> node -> Prop, (forall s k x, ~ P s k x) -> enum [] P.
Proof. intros P H. split; [constructor|]. intros s k x. split; [intros []|intros Q; exact (H _ _ _ Q)]. Qed.
Lemma enum_ext : forall L P Q, (forall s k x, P s k x <-> Q s k x) -> enum L P -> enum L Q.
Proof. intros L P Q H [N E]. split; [exact N|]. intros s k x. rewrite E. apply H. Qed.
Lemma nodup_app : forall {A} (a b : list A), NoDup a -> NoDup b -> (forall x, In x a -> ~ In x b) -> NoDup (a ++ b).
Proof.
  induction a as [|x a IH]; intros b Na Nb D; [exact Nb|]. inversion Na as [|? ? N1 N2]; subst. cbn. constructor.
  - rewrite in_app_iff. intros [I|I]; [exact (N1 I)|exact (D x (or_introl eq_refl) I)].
  - apply IH; auto. intros y I. apply D. right. exact I.
Qed.
Lemma enum_app : forall L M P Q, enum L P -> enum M Q -> (forall s k x y, P s k x -> ~ Q s k y) -> enum (L ++ M) (fun s k x => P s k x \/ Q s k x).
Proof.
  intros L M P Q [N1 E1] [N2 E2] D. split.
  - rewrite map_app. apply nodup_app; auto. intros [s k] I J. apply in_map_iff in I, J. destruct I as ([[s1 k1] x] & F1 & I). destruct J as ([[s2 k2] y] & F2 & J).
    cbn in F1, F2. injection F1 as -> ->. injection F2 as -> ->. apply E1 in I. apply E2 in J. exact (D s k x y I J).
  - intros s k x. rewrite in_app_iff, E1, E2. reflexivity.
Qed.
Lemma enum_under : forall L P a, enum L P -> enum (map (under a) L) (fun s k x => exists s', s = a :: s' /\ P s' k x).
Proof.
  intros L P a [N E]. split.
  - rewrite map_map. assert (F : map (fun e => fst (under a e)) L = map (fun d => (a :: fst d, snd d)) (map fst L)) by (rewrite map_map; apply map_ext; intros [[s k] x]; reflexivity).
    rewrite F. apply FinFun.Injective_map_NoDup; [|exact N]. intros [s k] [s' k'] H. cbn in H. injection H as -> ->. reflexivity.
  - intros s k x. rewrite in_map_iff. split.
    + intros ([[s' k'] x'] & F & I). cbn in F. injection F as <- -> ->. exists s'. split; [reflexivity|]. apply E. exact I.
    + intros (s' & -> & H). exists (s', k, x). split; [reflexivity|]. apply E. exact H.
Qed.
Lemma NoDup_map_fst_sub : forall {A B} (us m : list (A * B)), NoDup us -> incl us m -> NoDup (map fst m) -> NoDup (map fst us).
Proof.
  intros A B0 us m. induction us as [|[a b] us IH]; intros N I M; [constructor|]. inversion N as [|? ? N1 N2]; subst. cbn. constructor; [|apply IH; auto; intros e J; apply I; right; exact J].
  intros J. apply in_map_iff in J. destruct J as ([a' b'] & E & J). cbn in E. subst a'. apply N1. assert (b' = b); [|congruence].
  assert (I1 := I (a, b) (or_introl eq_refl)). assert (I2 := I (a, b') (or_intror J)). clear - M I1 I2. induction m as [|[x y] m IH]; [destruct I1|]. cbn in M. inversion M as [|? ? M1 M2]; subst.
  destruct I1 as [I1|I1]; destruct I2 as [I2|I2]; [congruence| | |exact (IH M2 I1 I2)]; exfalso; apply M1; [injection I1 as -> ->|injection I2 as -> ->]; apply in_map_iff; [exists (a, b')|exists (a, b)]; auto.
Qed.
(* no unknown fields in null *)
Lemma nil_none : forall t s k x, ~ Unknown t NNil s k x.
Proof.
  assert (H : forall t n s k x, Unknown t n s k x -> n = NNil -> False); [|intros t s k x U; exact (H _ _ _ _ _ U eq_refl)].
  intros t n s k x U. induction U as [fs n m k x H|fs n m f t name o y s k x H|t n s k x U IH| | |t j n m w y s k x H]; intros E; try discriminate E; [| |exact (IH E)|].
  all: destruct H as [H|(ps & H & _)]; congruence.
Qed.
Fixpoint shaped (t : ty) (v : val) {struct t} : Prop :=
  match t, v with
  | TStruct fs, VStruct vs => fieldwise (fun _ t' v' => shaped t' v') fs vs
  | TStruct _, _ => False
  | _, _ => True
  end.
Lemma shaped_zero : forall t, shaped t (zero t).
Proof.
  induction t as [ | w | w | | t IH | t IH | k t IH | k t IH | fs IH] using ty_nest; try exact I. cbn [shaped zero]. induction fs as [|[f t] fs IHf]; [exact I|]. cbn.
  split; [exact (IH f t (or_introl eq_refl))|]. apply IHf. intros g u J. exact (IH g u (or_intror J)).
Qed.
Lemma shaped_hasty : forall t v, hasty t v -> shaped t v.
Proof.
  induction t as [ | w | w | | t IH | t IH | k t IH | k t IH | fs IH] using ty_nest; try (intros; exact I). intros [ | | | | | | |vs] H; try destruct H. cbn [shaped hasty] in *.
  revert vs H. induction fs as [|[f t] fs IHf]; intros [|v vs] H; cbn in *; try exact I; try contradiction. destruct H as [H1 H2].
  split; [exact (IH f t (or_introl eq_refl) v H1)|]. apply IHf; [|exact H2]. intros g u J. exact (IH g u (or_intror J)).
Qed.
Lemma fieldwise_nth : forall {A} (P : fld -> A -> val -> Prop) fs vs, fieldwise P fs vs -> length vs = length fs /\
  forall i f t v, nth_error fs i = Some (f, t) -> nth_error vs i = Some v -> P f t v.
Proof.
  induction fs as [|[f t] fs IH]; intros [|v vs] H; cbn in H; try contradiction; [split; [reflexivity|intros [|i]; discriminate]|]. destruct H as [H1 H2]. destruct (IH vs H2) as [L Q].
  split; [cbn; lia|]. intros [|i] f' t' v' E1 E2; cbn in *; [injection E1 as <- <-; injection E2 as <-; exact H1|exact (Q i f' t' v' E1 E2)].
Qed.
Lemma no_empty_list : forall l x, no_empty (NList l) -> In x l -> no_empty x.
Proof. cbn. induction l as [|a l IH]; cbn; intros x H J; [destruct J|]. destruct J as [->|J]; [apply H|]. apply IH; tauto. Qed.
Lemma no_empty_map : forall n m, no_empty n -> is_map n m -> forall k x, In (k, x) m -> k <> [] /\ no_empty x.
Proof.
  assert (A : forall l, no_empty (NMap l) -> forall k x, In (k, x) l -> k <> [] /\ no_empty x).
  { intros l H k x J. cbn in H. induction l as [|e l IH]; [destruct J|]. destruct H as (H1 & H2 & H3). destruct J as [->|J]; [split; assumption|]. exact (IH H3 J). }
  intros n m H [->|(ps & -> & ->)]; [exact (A m H)|]. intros k x J. apply asmap_in in J as [name J]. cbn in H. induction ps as [|e ps IH]; [destruct J|]. destruct H as (H1 & H2 & H3).
  destruct J as [->|J]; [split; assumption|]. exact (IH H3 J).
Qed.
Lemma choose_list : forall {A B} (R : nat -> A -> B -> Prop) l, (forall i a, nth_error l i = Some a -> exists b, R i a b) ->
  exists bs, length bs = length l /\ forall i a b, nth_error l i = Some a -> nth_error bs i = Some b -> R i a b.
Proof.
  intros A B0 R l. revert R. induction l as [|a l IH]; intros R H; [exists []; split; [reflexivity|intros [|i]; discriminate]|].
  destruct (H 0 a eq_refl) as [b Hb]. destruct (IH (fun i => R (S i))) as (bs & L & Q); [intros i c E; exact (H (S i) c E)|].
  exists (b :: bs). split; [cbn; lia|]. intros [|i] c d E1 E2; cbn in *; [injection E1 as <-; injection E2 as <-; exact Hb|exact (Q i c d E1 E2)].
Qed.
(* lists for each of some disjoint predicates, put together *)
Lemma enum_concat : forall Ls (P : nat -> list step -> bytes -> node -> Prop),
  (forall i L, nth_error Ls i = Some L -> enum L (P i)) -> (forall i j s k x y, i < length Ls -> j < length Ls -> P i s k x -> P j s k y -> i = j) ->
  enum (concat Ls) (fun s k x => exists i, i < length Ls /\ P i s k x).
Proof.
  induction Ls as [|L Ls IH]; intros P H D; cbn [concat]; [apply enum_nil; intros s k x (i & Q & _); cbn in Q; lia|].
  assert (E := IH (fun i => P (S i)) (fun i M Q => H (S i) M Q)). cbn [length] in D.
  assert (E' := E (fun i j s k x y Li Lj P1 P2 => eq_add_S _ _ (D (S i) (S j) s k x y (proj1 (Nat.succ_lt_mono _ _) Li) (proj1 (Nat.succ_lt_mono _ _) Lj) P1 P2))). clear E.
  eapply enum_ext; [|apply (enum_app L (concat Ls) (P 0)); [exact (H 0 L eq_refl)|exact E'|]].
  - intros s k x. cbn beta. split.
    + intros [Q|(i & Li & Q)]; [exists 0; split; [cbn; lia|exact Q]|exists (S i); split; [cbn; lia|exact Q]].
    + intros ([|i] & Li & Q); [left; exact Q|right; exists i; split; [cbn in Li; lia|exact Q]].
  - intros s k x y Q (i & Li & Q2). assert (0 = S i) by (apply (D 0 (S i) s k x y); [lia|lia|exact Q|exact Q2]). discriminate.
Qed.

Section E.
  Context (f2i f2u : floatv -> Z) (g : list pel -> node -> bool).
  Notation unm := (unm f2i f2u (Some g)).
  Definition enumerated (t : ty) : Prop := forall p n old r calls, distinct_keys n -> no_empty n -> shaped t old -> unm t p n old = (UOk r, calls) ->
    exists L, enum L (Unknown t n) /\ calls = map (render p) L.
  Lemma elems_enum : forall t, enumerated t -> forall l p i vs calls, (forall x, In x l -> distinct_keys x /\ no_empty x) ->
    unm_elems (fun p n => unm t p n (zero t)) p i l = (EOk vs, calls) ->
    exists L, enum L (fun s k x => exists j y s', s = SElem (i + j) :: s' /\ nth_error l j = Some y /\ Unknown t y s' k x) /\ calls = map (render p) L.
  Proof.
    intros t T. induction l as [|n l IH]; intros p i vs calls W H; cbn [unm_elems] in H.
    - injection H as <- <-. exists []. split; [|reflexivity]. apply enum_nil. intros s k x (j & y & s' & _ & E & _). destruct j; discriminate.
    - destruct (unm t (p ++ [PIdx i]) n (zero t)) as [u c] eqn:U. destruct u as [v|v|]; try discriminate.
      destruct (unm_elems _ p (S i) l) as [e c'] eqn:E. destruct e as [vs'| |]; try discriminate. injection H as <- <-.
      destruct (W n (or_introl eq_refl)) as [W1 W2]. destruct (T _ _ _ _ _ W1 W2 (shaped_zero t) U) as (L1 & E1 & ->).
      destruct (IH p (S i) vs' c' (fun x J => W x (or_intror J)) E) as (L2 & E2 & ->). exists (map (under (SElem i)) L1 ++ L2). split.
      + eapply enum_ext; [|apply (enum_app _ _ _ _ (enum_under _ _ (SElem i) E1) E2)].
        * intros s k x. cbn beta. split.
          -- intros [(s' & -> & Q)|(j & y & s' & -> & N & Q)]; [exists 0, n, s'; rewrite Nat.add_0_r; auto|exists (S j), y, s'; replace (i + S j) with (S i + j) by lia; auto].
          -- intros ([|j] & y & s' & -> & N & Q); [left; injection N as ->; exists s'; rewrite Nat.add_0_r; auto|right; exists j, y, s'; replace (i + S j) with (S i + j) by lia; auto].
        * intros s k x y (s' & -> & _) (j & y' & s'' & E0 & _). injection E0 as E0 _. lia.
      + rewrite map_app, render_under. reflexivity.
  Qed.
  Lemma entries_enum : forall t k0, enumerated t -> forall m p acc vs calls, NoDup (map fst m) -> (forall k x, In (k, x) m -> distinct_keys x /\ no_empty x) ->
    unm_entries k0 (fun p n => unm t p n (zero t)) p acc m = (EOk vs, calls) ->
    exists L, enum L (fun s k x => exists w y s', s = SEntry w :: s' /\ In (w, y) m /\ Unknown t y s' k x) /\ calls = map (render p) L.
  Proof.
    intros t k0 T. induction m as [|[w n] m IH]; intros p acc vs calls ND W H; cbn [unm_entries] in H.
    - injection H as <- <-. exists []. split; [|reflexivity]. apply enum_nil. intros s k x (j & y & s' & _ & [] & _).
    - destruct (ukey k0 w) as [kx|]; [|discriminate]. destruct (unm t (p ++ [PVal]) n (zero t)) as [u c] eqn:U. destruct u as [v|v|]; try discriminate.
      destruct (unm_entries k0 _ p (kset acc kx v) m) as [e c'] eqn:E. injection H as -> <-. cbn [map fst] in ND. inversion ND as [|? ? N1 N2]; subst.
      destruct (W w n (or_introl eq_refl)) as [W1 W2]. destruct (T _ _ _ _ _ W1 W2 (shaped_zero t) U) as (L1 & E1 & ->).
      destruct (IH p _ vs c' N2 (fun k x J => W k x (or_intror J)) E) as (L2 & E2 & ->). exists (map (under (SEntry w)) L1 ++ L2). split.
      + eapply enum_ext; [|apply (enum_app _ _ _ _ (enum_under _ _ (SEntry w) E1) E2)].
        * intros s k x. cbn beta. split.
          -- intros [(s' & -> & Q)|(j & y & s' & -> & N & Q)]; [exists w, n, s'; split; [reflexivity|]; split; [left; reflexivity|exact Q]|exists j, y, s'; split; [reflexivity|]; split; [right; exact N|exact Q]].
          -- intros (j & y & s' & -> & [N|N] & Q); [left; injection N as -> ->; exists s'; auto|right; exists j, y, s'; auto].
        * intros s k x y (s' & -> & _) (j & y' & s'' & E0 & J & _). injection E0 as <- _. apply N1. apply in_map_iff. exists (w, y'). auto.
      + rewrite map_app. cbn [show]. rewrite render_under. reflexivity.
  Qed.
  Lemma all_enum : forall t, tags_ok t -> fields_distinct t -> enumerated t.
  Proof.
    induction t as [ | w | w | | t IH | t IH | k t IH | k t IH | fs IH] using ty_nest; intros TO FD p n old r calls DK NE SH H.
    1-4: assert (calls = []) by (destruct n; cbn in H; congruence); subst calls; exists []; (split; [apply enum_nil; intros s k x U; inversion U|reflexivity]).
    - destruct n; try (cbn [MarModel.unm] in H; match type of H with context [unm t p ?x (zero t)] => destruct (unm t p x (zero t)) as [u c] eqn:U end; destruct u; try discriminate; injection H as <- <-;
        destruct (IH TO FD _ _ _ _ _ DK NE (shaped_zero t) U) as (L & E & ->); exists L; split; [|reflexivity]; apply (enum_ext _ _ _ (fun s k x => conj (u_ptr t _ s k x) (fun Q => match Q in Unknown t' n' s' k' x' return (match t' with TPtr t'' => Unknown t'' n' s' k' x' | _ => True end) with u_ptr _ _ _ _ _ W => W | _ => Logic.I end)) E)).
      cbn in H. injection H as <- <-. exists []. split; [apply enum_nil; intros s k x U; exact (nil_none _ _ _ _ U)|reflexivity].
    - destruct n; try (cbn in H; discriminate H); try (cbn in H; injection H as <- <-; exists []; split; [apply enum_nil; intros s k x U; inversion U|reflexivity]; fail).
      cbn [MarModel.unm] in H. destruct (unm_elems _ p 0 l) as [e c] eqn:E. destruct e; try discriminate. injection H as <- <-.
      destruct (elems_enum t (IH TO FD) l p 0 _ _ (fun x J => conj (distinct_in_list l x DK J) (no_empty_list l x NE J)) E) as (L & EL & ->). exists L. split; [|reflexivity].
      eapply enum_ext; [|exact EL]. intros s k x. cbn beta. split.
      + intros (j & y & s' & -> & N & Q). cbn [Nat.add]. exact (u_slice t l j y s' k x N Q).
      + intros Q. inversion Q; subst. exists i, y, s0. auto.
    - destruct n; try (cbn in H; discriminate H); try (cbn in H; injection H as <- <-; exists []; split; [apply enum_nil; intros s k' x U; inversion U|reflexivity]; fail).
      cbn [MarModel.unm] in H. destruct (length l =? k); [|discriminate]. destruct (unm_elems _ p 0 l) as [e c] eqn:E. destruct e; try discriminate. injection H as <- <-.
      destruct (elems_enum t (IH TO FD) l p 0 _ _ (fun x J => conj (distinct_in_list l x DK J) (no_empty_list l x NE J)) E) as (L & EL & ->). exists L. split; [|reflexivity].
      eapply enum_ext; [|exact EL]. intros s k' x. cbn beta. split.
      + intros (j & y & s' & -> & N & Q). cbn [Nat.add]. exact (u_array t k l j y s' k' x N Q).
      + intros Q. inversion Q; subst. exists i, y, s0. auto.
    - assert (M : forall m, is_map n m -> unm (TMap k t) p n old = (let (e, c) := unm_entries k (fun p n => unm t p n (zero t)) p [] m in (match e with EOk l => UOk (VMap l) | EErr => UErr old | EPanic => UPanic end, c)) ->
         exists L, enum L (Unknown (TMap k t) n) /\ calls = map (render p) L).
      { intros m IM HE. rewrite HE in H. destruct (unm_entries k _ p [] m) as [e c] eqn:E. destruct e; try discriminate. injection H as <- <-.
        destruct (distinct_is_map n m DK IM) as [ND DS]. destruct (entries_enum t k (IH TO FD) m p [] _ _ ND (fun w x J => conj (DS w x J) (proj2 (no_empty_map n m NE IM w x J))) E) as (L & EL & ->).
        exists L. split; [|reflexivity]. eapply enum_ext; [|exact EL]. intros s k' x. cbn beta. split.
        + intros (w & y & s' & -> & N & Q). exact (u_entry t k n m w y s' k' x IM N Q).
        + intros Q. inversion Q; subst. exists w, y, s0. split; [reflexivity|]. split; [|assumption].
          match goal with J : is_map n ?m' |- _ => assert (m' = m) by (destruct J as [J|(ps & J & J2)]; destruct IM as [IM|(qs & IM & IM2)]; congruence); subst m'; assumption end. }
      destruct n; try (cbn in H; discriminate H); try (cbn in H; injection H as <- <-; exists []; split; [apply enum_nil; intros s k' x U; inversion U as [| | | | |? ? ? ? ? ? ? ? ? IM]; subst; destruct IM as [IM|(ps & IM & _)]; discriminate|reflexivity]; fail).
      + apply (M l); [left; reflexivity|reflexivity].
      + apply (M (AsMap l)); [right; exists l; auto|reflexivity].
    - assert (M : forall m, is_map n m -> exists L, enum L (Unknown (TStruct fs) n) /\ calls = map (render p) L).
      { intros m IM. destruct old as [ | | | | | | |vs]; try (cbn in SH; contradiction). cbn [shaped] in SH. destruct (fieldwise_nth _ _ _ SH) as [LV SV].
        destruct (distinct_is_map n m DK IM) as [ND DS]. pose proof (no_empty_map n m NE IM) as NM.
        assert (TG : forall f t, In (f, t) fs -> hidden f \/ exists name o, tagged f name o) by (intros f t J; exact (proj1 (tags_fields fs TO f t J))).
        assert (N0 : ~ In [] (map fst m)) by (intros J; apply in_map_iff in J; destruct J as ([w y] & E & J); cbn in E; subst w; exact (proj1 (NM [] y J) eq_refl)).
        destruct (struct_ok f2i f2u (Some g) fs p n m vs r calls TG IM ND N0 LV H) as (vs' & cs & us & -> & L1 & L2 & FS & -> & UN & US & _).
        destruct FD as [FN FT].
        assert (FDt : forall f t, In (f, t) fs -> fields_distinct t). { clear - FT. induction fs as [|[f t] fs IH]; intros f' t' J; [destruct J|]. destruct FT as [F1 F2]. destruct J as [J|J]; [injection J as <- <-; exact F1|exact (IH F2 f' t' J)]. }
        assert (CH : exists Ls, length Ls = length fs /\ forall i ft L, nth_error fs i = Some ft -> nth_error Ls i = Some L ->
          enum L (fun s k x => exists s' name o y, s = SField (f_name (fst ft)) :: s' /\ tagged (fst ft) name o /\ In (name, y) m /\ Unknown (snd ft) y s' k x) /\
          nth_error cs i = Some (map (render p) L)).
        { destruct (choose_list (fun i ft L => enum L (fun s k x => exists s' name o y, s = SField (f_name (fst ft)) :: s' /\ tagged (fst ft) name o /\ In (name, y) m /\ Unknown (snd ft) y s' k x) /\
            nth_error cs i = Some (map (render p) L)) fs) as (Ls & A1 & A2); [|exists Ls; split; [exact A1|exact A2]].
          intros i [f t] Ef. cbn [fst snd]. assert (Li : i < length fs) by (apply nth_error_Some; congruence).
          destruct (nth_error vs i) as [v|] eqn:Ev; [|apply nth_error_None in Ev; lia]. destruct (nth_error vs' i) as [v'|] eqn:Ev'; [|apply nth_error_None in Ev'; lia].
          destruct (nth_error cs i) as [c|] eqn:Ec; [|apply nth_error_None in Ec; lia]. destruct (FS i f t v v' c Ef Ev Ev' Ec) as [HI VI]. assert (J : In (f, t) fs) by (apply nth_error_In in Ef; exact Ef).
          destruct (TG f t J) as [Hh|(name & o & Ht)].
          - destruct (HI Hh) as [_ ->]. exists []. split; [|reflexivity]. apply enum_nil. intros s k x (s' & name & o & y & _ & Ht & _). apply tagged_vis in Ht. rewrite (hidden_vis f Hh) in Ht. discriminate.
          - specialize (VI name o Ht). assert (UQ : forall name' o', tagged f name' o' -> name' = name) by (intros a b Q; apply tagged_vis in Q, Ht; congruence).
            destruct (mget beqb m name) as [y|] eqn:G.
            + apply (mget_in beqb beqb_ok) in G; [|exact ND]. pose proof (tags_fields fs TO f t J) as [_ TOt].
              destruct (IH f t J TOt (FDt f t J) _ _ _ _ _ (DS name y G) (proj2 (NM name y G)) (SV i f t v Ef Ev) VI) as (L & EL & ->). exists (map (under (SField (f_name f))) L).
              split; [|rewrite render_under; reflexivity]. eapply enum_ext; [|exact (enum_under L _ (SField (f_name f)) EL)]. intros s k x. cbn beta. split.
              * intros (s' & -> & Q). exists s', name, o, y. auto.
              * intros (s' & name' & o' & y' & -> & Q1 & Q2 & Q3). exists s'. split; [reflexivity|]. rewrite (UQ name' o' Q1) in Q2.
                apply (mget_in beqb beqb_ok) in Q2; [|exact ND]. apply (mget_in beqb beqb_ok) in G; [|exact ND]. congruence.
            + destruct VI as [_ ->]. exists []. split; [|reflexivity]. apply enum_nil. intros s k x (s' & name' & o' & y' & _ & Q1 & Q2 & _). rewrite (UQ name' o' Q1) in Q2.
              apply (mget_none beqb beqb_ok) in G. apply G. apply in_map_iff. exists (name, y'). auto. }
        destruct CH as (Ls & A1 & A2).
        assert (CS : cs = map (map (render p)) Ls).
        { apply nth_error_ext. intros i. destruct (nth_error Ls i) as [L|] eqn:EL.
          - destruct (nth_error fs i) as [ft|] eqn:Ef; [|apply nth_error_None in Ef; assert (i < length Ls) by (apply nth_error_Some; congruence); lia].
            rewrite (proj2 (A2 i ft L Ef EL)). symmetry. apply map_nth_error. exact EL.
          - apply nth_error_None in EL. assert (X1 : nth_error cs i = None) by (apply nth_error_None; lia). rewrite X1. symmetry. apply nth_error_None. rewrite map_length. lia. }
        set (P := fun i s k x => exists ft, nth_error fs i = Some ft /\ exists s' name o y, s = SField (f_name (fst ft)) :: s' /\ tagged (fst ft) name o /\ In (name, y) m /\ Unknown (snd ft) y s' k x).
        assert (EC : enum (concat Ls) (fun s k x => exists i, i < length Ls /\ P i s k x)).
        { apply enum_concat.
          - intros i L EL. destruct (nth_error fs i) as [ft|] eqn:Ef; [|apply nth_error_None in Ef; assert (i < length Ls) by (apply nth_error_Some; congruence); lia].
            eapply enum_ext; [|exact (proj1 (A2 i ft L Ef EL))]. intros s k x. unfold P. split; [intros Q; exists ft; auto|]. intros (ft' & E' & Q). rewrite Ef in E'. injection E' as <-. exact Q.
          - intros i j s k x y _ _ ([f1 t1] & E1 & s1 & n1 & o1 & y1 & -> & T1 & _) ([f2 t2] & E2 & s2 & n2 & o2 & y2 & S2 & T2 & _). cbn [fst] in *. injection S2 as S2 _.
            apply (FN i j f1 f2 t1 t2 E1 E2 (proj1 T1) S2). }
        set (us' := map (fun e : bytes * node => ([] : list step, fst e, snd e)) us).
        assert (EU : enum us' (fun s k x => s = [] /\ In (k, x) us)).
        { split.
          - unfold us'. rewrite map_map. cbn [fst]. rewrite <- (map_map fst (fun k : bytes => ([] : list step, k))). apply FinFun.Injective_map_NoDup; [intros a b Q; congruence|].
            apply NoDup_map_fst_sub with (m := m); [exact UN| |exact ND]. intros [k x] J. apply US in J. apply J.
          - intros s k x. unfold us'. rewrite in_map_iff. split; [intros ([k' x'] & E & J); cbn in E; injection E as <- <- <-; auto|]. intros [-> J]. exists (k, x). auto. }
        exists (concat Ls ++ us'). split.
        - eapply enum_ext; [|apply (enum_app _ _ _ _ EC EU)].
          + intros s k x. cbn beta. split.
            * intros [(i & _ & [f t] & Ef & s' & name & o & y & -> & Q1 & Q2 & Q3)|[-> J]].
              -- apply nth_error_In in Ef. exact (u_field fs n m f t name o y s' k x IM Ef Q1 Q2 Q3).
              -- apply US in J. destruct J as [J1 J2]. apply (u_here fs n m k x IM J1). intros f t o J T. apply J2. exists f, t, o. auto.
            * assert (SM : forall m', is_map n m' -> m' = m) by (intros m' J; destruct J as [J|(ps & J & J2)]; destruct IM as [IM|(qs & IM & IM2)]; congruence).
              intros Q. inversion Q as [fs0 n0 m0 k0 x0 IM0 I0 N1|fs0 n0 m0 f t name o y s0 k0 x0 IM0 I1 T0 I2 U0| | | | ]; subst.
              -- right. split; [reflexivity|]. apply US. rewrite (SM m0 IM0) in I0. split; [exact I0|]. intros (f & t & o & J & T). exact (N1 f t o J T).
              -- left. rewrite (SM m0 IM0) in I2. destruct (In_nth_error _ _ I1) as [i Ei]. exists i. split; [rewrite A1; apply nth_error_Some; congruence|].
                 exists (f, t). split; [exact Ei|]. exists s0, name, o, y. auto.
          + intros s k x y (i & _ & ft & _ & s' & name & o & z & -> & _) [E _]. discriminate.
        - rewrite map_app, CS, concat_map. f_equal. unfold us'. rewrite map_map. apply map_ext. intros [k x]. reflexivity. }
      destruct n; try (cbn in H; discriminate H); try (cbn in H; destruct old; discriminate H); try (cbn in H; injection H as <- <-; exists []; split; [apply enum_nil; intros s k x U; inversion U as [? ? ? ? ? IM|? ? ? ? ? ? ? ? ? ? ? IM| | | | ]; subst; destruct IM as [IM|(ps & IM & _)]; discriminate|reflexivity]; fail).
      + apply (M l). left. reflexivity.
      + apply (M (AsMap l)). right. exists l. auto.
  Qed.
  (* success: no call was refused *)
  Definition fine (c : list call) : Prop := forall a, In a c -> g (fst a) (snd a) = false.
  Lemma fine_app : forall a b, fine a -> fine b -> fine (a ++ b).
  Proof. intros a b H1 H2 c J. apply in_app_iff in J. destruct J as [J|J]; auto. Qed.
  Lemma fine_nil : fine [].
  Proof. intros c []. Qed.
  Lemma accepted : forall t p n old r c, unm t p n old = (UOk r, c) -> fine c.
  Proof.
    assert (EL : forall t, (forall p n old r c, unm t p n old = (UOk r, c) -> fine c) -> forall l p i vs c, unm_elems (fun p n => unm t p n (zero t)) p i l = (EOk vs, c) -> fine c).
    { intros t T. induction l as [|n l IH]; intros p i vs c H; cbn [unm_elems] in H; [injection H as <- <-; apply fine_nil|].
      destruct (unm t (p ++ [PIdx i]) n (zero t)) as [u c1] eqn:U. destruct u; try discriminate. destruct (unm_elems _ p (S i) l) as [e c2] eqn:E. destruct e; try discriminate. injection H as <- <-.
      apply fine_app; [exact (T _ _ _ _ _ U)|exact (IH _ _ _ _ E)]. }
    assert (EM : forall t k, (forall p n old r c, unm t p n old = (UOk r, c) -> fine c) -> forall m p acc vs c, unm_entries k (fun p n => unm t p n (zero t)) p acc m = (EOk vs, c) -> fine c).
    { intros t k T. induction m as [|[w n] m IH]; intros p acc vs c H; cbn [unm_entries] in H; [injection H as <- <-; apply fine_nil|]. destruct (ukey k w) as [x|]; [|discriminate].
      destruct (unm t (p ++ [PVal]) n (zero t)) as [u c1] eqn:U. destruct u; try discriminate. destruct (unm_entries k _ p (kset acc x v) m) as [e c2] eqn:E. injection H as -> <-.
      apply fine_app; [exact (T _ _ _ _ _ U)|exact (IH _ _ _ _ E)]. }
    assert (UH : forall p names m c, unhandled g p names m = (false, c) -> fine c).
    { intros p names. induction m as [|[k n] m IH]; intros c H; cbn [unhandled] in H; [injection H as <-; apply fine_nil|]. destruct (existsb (beqb k) names); [exact (IH c H)|].
      destruct (g (p ++ [PKey k]) n) eqn:G; [discriminate|]. destruct (unhandled g p names m) as [e c1] eqn:E. injection H as -> <-. intros a [<-|J]; [exact G|exact (IH c1 eq_refl a J)]. }
    induction t as [ | w | w | | t IH | t IH | k t IH | k t IH | fs IH] using ty_nest; intros p n old r c H.
    1-4: assert (c = []) by (destruct n; cbn in H; congruence); subst c; apply fine_nil.
    - cbn [MarModel.unm] in H. destruct n; try (match type of H with context [unm t p ?x (zero t)] => destruct (unm t p x (zero t)) as [u c1] eqn:U end; destruct u; try discriminate; injection H as <- <-; exact (IH _ _ _ _ _ U)).
      injection H as <- <-. apply fine_nil.
    - destruct n; try (cbn in H; discriminate H); try (cbn in H; injection H as <- <-; apply fine_nil). cbn [MarModel.unm] in H. destruct (unm_elems _ p 0 l) as [e c1] eqn:E. destruct e; try discriminate.
      injection H as <- <-. exact (EL t IH _ _ _ _ _ E).
    - destruct n; try (cbn in H; discriminate H); try (cbn in H; injection H as <- <-; apply fine_nil). cbn [MarModel.unm] in H. destruct (length l =? k); [|discriminate].
      destruct (unm_elems _ p 0 l) as [e c1] eqn:E. destruct e; try discriminate. injection H as <- <-. exact (EL t IH _ _ _ _ _ E).
    - destruct n; try (cbn in H; discriminate H); try (cbn in H; injection H as <- <-; apply fine_nil); cbn [MarModel.unm] in H.
      + destruct (unm_entries k _ p [] l) as [e c1] eqn:E. destruct e; try discriminate. injection H as <- <-. exact (EM t k IH _ _ _ _ _ E).
      + destruct (unm_entries k _ p [] (AsMap l)) as [e c1] eqn:E. destruct e; try discriminate. injection H as <- <-. exact (EM t k IH _ _ _ _ _ E).
    - assert (FI : forall m vs u vs' c, unm_fields p m (map (fun f => (fst f, unm (snd f))) fs) vs = (EOk u, vs', c) -> fine c).
      { clear H n old. intros m. induction fs as [|[f t] fs0 IHf]; intros vs u vs' c0 H; cbn [map unm_fields fst snd] in H; [injection H as <- <- <-; apply fine_nil|]. destruct vs as [|v vs]; [injection H as <- <- <-; apply fine_nil|].
        specialize (IHf (fun f t J => IH f t (or_intror J)) vs).
        assert (SK : forall w c1, fine c1 -> (let '(e, r, c') := unm_fields p m (map (fun f => (fst f, unm (snd f))) fs0) vs in (e, w :: r, c1 ++ c')) = (EOk u, vs', c0) -> fine c0).
        { intros w c1 F1 H1. destruct (unm_fields p m _ vs) as [[e r'] c'] eqn:E. injection H1 as -> <- <-. apply fine_app; [exact F1|exact (IHf _ _ _ eq_refl)]. }
        destruct (f_exported f); [|exact (SK v [] fine_nil H)]. destruct (parseTag f) as [tg|]; [|discriminate]. destruct (mget beqb m (g_json tg)) as [x|]; [|exact (SK v [] fine_nil H)].
        destruct (unm t (p ++ [PName (f_name f)]) x v) as [w c1] eqn:U. destruct w; try discriminate. exact (SK _ c1 (IH f t (or_introl eq_refl) _ _ _ _ _ U) H). }
      assert (M : forall m, (match old with
        | VStruct vs => let '(e, vs', c) := unm_fields p m (map (fun f => (fst f, unm (snd f))) fs) vs in
            match e with EOk _ => let (bad, c') := unhandled g p (seen (map fst fs)) m in
               (if bad then UErr (VStruct vs') else UOk (VStruct vs'), c ++ c') | EErr => (UErr (VStruct vs'), c) | EPanic => (UPanic, c) end
        | _ => (UErr old, []) end) = (UOk r, c) -> fine c).
      { intros m HM. destruct old as [ | | | | | | |vs]; try discriminate. destruct (unm_fields p m _ vs) as [[e vs'] c1] eqn:E. destruct e; try discriminate.
        destruct (unhandled g p (seen (map fst fs)) m) as [bad c2] eqn:U. destruct bad; [discriminate|]. injection HM as <- <-. apply fine_app; [exact (FI _ _ _ _ _ E)|exact (UH _ _ _ _ U)]. }
      destruct n; try (cbn in H; discriminate H); try (cbn in H; injection H as <- <-; apply fine_nil); [exact (M l H)|exact (M (AsMap l) H)].
  Qed.
End E.
