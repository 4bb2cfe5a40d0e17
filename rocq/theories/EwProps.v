(* C156: the messages of the errors of Unmarshal. *)
From Coq Require Import Bool Ascii String Arith NArith ZArith List Lia.
From Verif Require Import Prelude PreludeFacts Utf8Model DecModel DecFacts DurModel DurProofs EncModel JsonModel JsonSpec MarModel MarSpec MarFacts MarProofs UfSpec UfEnum EwModel EwSpec.
Import ListNotations.

Lemma mget_some (m : list (bytes * node)) k x : mget beqb m k = Some x -> In (k, x) m.
Proof. induction m as [|[k' x'] m IH]; cbn; [discriminate|]. destruct (beqb k k') eqn:E; [apply beqb_eq in E; intros H; injection H as <-; left; congruence|right; auto]. Qed.
Section Why.
  Context (f2i f2u : floatv -> Z) (uf : option (list pel -> node -> bool)).
  Notation unm := (unm f2i f2u uf).
  Notation why := (why f2i f2u uf).
  Definition ok (t : ty) (n : node) (p : list pel) (e : emsg) : Prop :=
    match e with
    | MPath q n' t' => exists s, Leads t n s t' n' /\ q = p ++ map show s /\ ~ kind_fits t' n'
    | MKey q k => exists s kt e n' m, Leads t n s (TMap kt e) n' /\ q = p ++ map show s /\ is_map n' m /\ In k (map fst m) /\ bad_key kt k
    | MNum b x => exists s t' d, Leads t n s t' (NDigits d) /\ x = trimDecimal d /\
        ((b = true /\ (exists w, t' = TInt w) /\ parse_int x = None) \/ (b = false /\ (exists w, t' = TUint w) /\ parse_uint x = None))
    | MLen t' j => exists s k e l, Leads t n s t' (NList l) /\ t' = TArr k e /\ length l = j /\ j <> k
    | MFunc => uf <> None
    end.
  Lemma ok_step t n T N0 st p e : (forall s t' n', Leads t n s t' n' -> Leads T N0 (st :: s) t' n') -> ok t n (p ++ [show st]) e -> ok T N0 p e.
  Proof.
    intros H. destruct e as [q n' t'|q k|b x|t' j|]; cbn [ok].
    - intros (s & L & -> & K). exists (st :: s). split; [auto|]. split; [cbn; now rewrite <- app_assoc|exact K].
    - intros (s & kt & e & n' & m & L & -> & K). exists (st :: s), kt, e, n', m. split; [auto|]. split; [cbn; now rewrite <- app_assoc|exact K].
    - intros (s & t' & d & L & K). exists (st :: s), t', d. split; [auto|exact K].
    - intros (s & k & e & l & L & K). exists (st :: s), k, e, l. split; [auto|exact K].
    - auto.
  Qed.
  Definition explained (t : ty) : Prop := forall p n old v cs, shaped t old -> unm t p n old = (UErr v, cs) -> ok t n p (why t p n old).
  Lemma ok_ptr t n p e : ok t n p e -> ok (TPtr t) n p e.
  Proof.
    destruct e as [q n' t'|q k|b x|t' j|]; cbn [ok].
    - intros (s & L & K). exists s. split; [now constructor|exact K].
    - intros (s & kt & e & n' & m & L & K). exists s, kt, e, n', m. split; [now constructor|exact K].
    - intros (s & t' & d & L & K). exists s, t', d. split; [now constructor|exact K].
    - intros (s & k & e & l & L & K). exists s, k, e, l. split; [now constructor|exact K].
    - auto.
  Qed.
  Lemma elems_why t p : explained t -> forall l i cs, unm_elems (fun p n => unm t p n (zero t)) p i l = (EErr, cs) ->
    exists j x, nth_error l j = Some x /\ ok t x (p ++ [PIdx (i + j)]) (why_elems (fun p n => unm t p n (zero t)) (fun p n => why t p n (zero t)) p i l).
  Proof.
    intros E. induction l as [|n l IH]; intros i cs H; [discriminate H|]. cbn [unm_elems why_elems] in *. destruct (unm t (p ++ [PIdx i]) n (zero t)) as [[v|v|] c] eqn:U.
    - destruct (unm_elems (fun p n => unm t p n (zero t)) p (S i) l) as [[a| |] c'] eqn:U2; try discriminate H. destruct (IH (S i) c' U2) as (j & x & J1 & J2). exists (S j), x. split; [exact J1|]. replace (i + S j) with (S i + j) by lia. exact J2.
    - exists 0, n. split; [reflexivity|]. rewrite Nat.add_0_r. exact (E _ _ _ _ _ (shaped_zero t) U).
    - discriminate H.
  Qed.
  Lemma entries_why t k p : explained t -> forall m acc cs, unm_entries k (fun p n => unm t p n (zero t)) p acc m = (EErr, cs) ->
    let e := why_entries k (fun p n => unm t p n (zero t)) (fun p n => why t p n (zero t)) p m in
    (exists s, e = MKey p s /\ In s (map fst m) /\ bad_key k s) \/ (exists w x, In (w, x) m /\ ok t x (p ++ [PVal]) e).
  Proof.
    intros E. induction m as [|[s n] m IH]; intros acc cs H; [discriminate H|]. cbn [unm_entries why_entries] in *. destruct (ukey k s) as [x|] eqn:K.
    - destruct (unm t (p ++ [PVal]) n (zero t)) as [[v|v|] c] eqn:U.
      + destruct (unm_entries k (fun p n => unm t p n (zero t)) p (kset acc x v) m) as [r c'] eqn:U2. injection H as -> <-. destruct (IH _ _ U2) as [(s' & A1 & A2 & A3)|(w & y & A1 & A2)].
        * left. exists s'. cbn. auto.
        * right. exists w, y. cbn. auto.
      + right. exists s, n. split; [left; reflexivity|]. exact (E _ _ _ _ _ (shaped_zero t) U).
      + discriminate H.
    - left. exists s. split; [reflexivity|]. split; [left; reflexivity|]. unfold ukey, bad_key in *. destruct k; [discriminate| |]; [destruct (parse_int s); [discriminate|reflexivity]|destruct (parse_uint s); [discriminate|reflexivity]].
  Qed.
  Lemma tag_name f tg : f_exported f = true -> parseTag f = Ok tg -> (exists o, tagged f (g_json tg) o) \/ (f_tag f = B "-" /\ g_json tg = []).
  Proof.
    intros X P. destruct (g_skip tg) eqn:Sk.
    - right. unfold parseTag in P. destruct (beqb (f_tag f) (B "-")) eqn:E; [apply beqb_eq in E; injection P as <-; auto|]. exfalso. destruct (cut_comma (f_tag f)) as [a b]. destruct (beqb b (B "omitempty")); [injection P as <-; discriminate Sk|]. destruct b; [injection P as <-; discriminate Sk|discriminate P].
    - left. exists (g_omit tg). apply tagged_vis. unfold vis. now rewrite X, P, Sk.
  Qed.
  Lemma fields_why p m : forall fs vs vs' cs, (forall f t, In (f, t) fs -> explained t) -> fieldwise (fun _ t v => shaped t v) fs vs ->
    unm_fields p m (map (fun f => (fst f, unm (snd f))) fs) vs = (EErr, vs', cs) ->
    exists f t name x, In (f, t) fs /\ ((exists o, tagged f name o) \/ (f_tag f = B "-" /\ name = [])) /\ In (name, x) m /\
      ok t x (p ++ [PName (f_name f)]) (why_fields p m (map (fun f => (fst f, (unm (snd f), why (snd f)))) fs) vs).
  Proof.
    induction fs as [|[f t] fs IH]; intros [|v vs] vs' cs E Sh H; try discriminate H. destruct Sh as [Sh1 Sh2]. cbn [map unm_fields why_fields fst snd] in *.
    assert (E2 : forall f0 t0, In (f0, t0) fs -> explained t0) by (intros f0 t0 J; apply (E f0 t0); now right).
    assert (NX : forall vs'' c, unm_fields p m (map (fun f => (fst f, unm (snd f))) fs) vs = (EErr, vs'', c) ->
      exists f0 t0 name x, In (f0, t0) ((f, t) :: fs) /\ ((exists o, tagged f0 name o) \/ (f_tag f0 = B "-" /\ name = [])) /\ In (name, x) m /\
      ok t0 x (p ++ [PName (f_name f0)]) (why_fields p m (map (fun f => (fst f, (unm (snd f), why (snd f)))) fs) vs)).
    { intros vs'' c Q. destruct (IH vs vs'' c E2 Sh2 Q) as (f0 & t0 & name & x & J & K). exists f0, t0, name, x. split; [now right|exact K]. }
    destruct (unm_fields p m (map (fun f => (fst f, unm (snd f))) fs) vs) as [[e0 r0] c0] eqn:Q.
    destruct (f_exported f) eqn:X; [|injection H as -> _ _; eapply NX; reflexivity]. destruct (parseTag f) as [tg|] eqn:P; [|discriminate H].
    destruct (mget beqb m (g_json tg)) as [n|] eqn:G; [|injection H as -> _ _; eapply NX; reflexivity].
    destruct (unm t (p ++ [PName (f_name f)]) n v) as [[w|w|] c] eqn:U; [injection H as -> _ _; eapply NX; reflexivity| |discriminate H].
    exists f, t, (g_json tg), n. split; [now left|]. split; [exact (tag_name f tg X P)|]. split; [exact (mget_some _ _ _ G)|]. exact (E f t (or_introl eq_refl) _ _ _ _ _ Sh1 U).
  Qed.
  Lemma here t n p : ~ kind_fits t n -> ok t n p (MPath p n t).
  Proof. intros K. exists []. split; [constructor|]. split; [cbn; now rewrite app_nil_r|exact K]. Qed.
  Lemma unhandled_some p n t m cs r0 c0 : (match uf with None => (UOk r0, c0) | Some h => let (bad, c') := unhandled h p (seen t) m in (if bad then UErr r0 else UOk r0, c0 ++ c') end) = (UErr n, cs) -> uf <> None.
  Proof. destruct uf; [intros; discriminate|discriminate]. Qed.
  Lemma all_explained : forall t, explained t.
  Proof.
    induction t as [ | w | w | | t IH | t IH | k t IH | k t IH | fs IH] using ty_nest; intros p n old v cs Sh H.
    - destruct n; try discriminate H; apply here; cbn; auto.
    - destruct n; try discriminate H; try (apply here; cbn; auto; fail). cbn in H. destruct (parse_int (trimDecimal s)) eqn:E; [discriminate H|]. exists [], (TInt w), s. split; [constructor|]. split; [reflexivity|]. left. eauto.
    - destruct n; try discriminate H; try (apply here; cbn; auto; fail). cbn in H. destruct (parse_uint (trimDecimal s)) eqn:E; [discriminate H|]. exists [], (TUint w), s. split; [constructor|]. split; [reflexivity|]. right. eauto.
    - destruct n; try discriminate H; apply here; cbn; auto.
    - apply ok_ptr. assert (Q : exists v' cs', unm t p n (zero t) = (UErr v', cs')).
      { cbn [MarModel.unm] in H. destruct n; try discriminate H; match goal with |- exists v' cs', ?X = _ => destruct X as [[a|a|] c]; try discriminate H; eauto end. }
      destruct Q as (v' & cs' & Q). exact (IH _ _ _ _ _ (shaped_zero t) Q).
    - destruct n; try discriminate H; try (apply here; cbn; auto; fail). cbn [MarModel.unm EwModel.why] in *. destruct (unm_elems (fun p n => unm t p n (zero t)) p 0 l) as [[a| |] c] eqn:U; try discriminate H.
      destruct (elems_why t p IH l 0 c U) as (j & x & J & K). apply (ok_step t x _ _ (SElem j)); [intros s t' n' L; exact (l_slice t l j x s t' n' J L)|exact K].
    - destruct n; try discriminate H; try (apply here; cbn; auto; fail). cbn [MarModel.unm EwModel.why] in *. destruct (length l =? k) eqn:Lk.
      + destruct (unm_elems (fun p n => unm t p n (zero t)) p 0 l) as [[a| |] c] eqn:U; try discriminate H.
        destruct (elems_why t p IH l 0 c U) as (j & x & J & K). apply (ok_step t x _ _ (SElem j)); [intros s t' n' L; exact (l_array t k l j x s t' n' J L)|exact K].
      + exists [], k, t, l. split; [constructor|]. apply Nat.eqb_neq in Lk. auto.
    - assert (MP : forall m c, is_map n m -> unm_entries k (fun p n => unm t p n (zero t)) p [] m = (EErr, c) ->
        ok (TMap k t) n p (why_entries k (fun p n => unm t p n (zero t)) (fun p n => why t p n (zero t)) p m)).
      { intros m c M U. destruct (entries_why t k p IH m [] c U) as [(s & -> & A2 & A3)|(w & x & A1 & A2)].
        - exists [], k, t, n, m. split; [constructor|]. split; [cbn; now rewrite app_nil_r|auto].
        - apply (ok_step t x _ _ (SEntry w)); [intros s t' n' L; exact (l_entry t k n m w x s t' n' M A1 L)|exact A2]. }
      destruct n; try discriminate H; try (apply here; cbn; auto; fail); cbn [MarModel.unm EwModel.why] in *.
      + destruct (unm_entries k (fun p n => unm t p n (zero t)) p [] l) as [[a| |] c] eqn:U; try discriminate H. apply (MP _ c); [left; reflexivity|exact U].
      + destruct (unm_entries k (fun p n => unm t p n (zero t)) p [] (AsMap l)) as [[a| |] c] eqn:U; try discriminate H. apply (MP _ c); [right; eauto|exact U].
    - assert (ST : forall m vs e vs' c, is_map n m -> fieldwise (fun _ t v => shaped t v) fs vs -> unm_fields p m (map (fun f => (fst f, unm (snd f))) fs) vs = (e, vs', c) ->
        match e with EOk _ => uf <> None | EErr => True | EPanic => False end ->
        ok (TStruct fs) n p (why_fields p m (map (fun f => (fst f, (unm (snd f), why (snd f)))) fs) vs)).
      { intros m vs e vs' c M F U C. destruct e as [[]| |]; [| |destruct C].
        - assert (W : why_fields p m (map (fun f => (fst f, (unm (snd f), why (snd f)))) fs) vs = MFunc); [|rewrite W; exact C].
          clear - U. revert vs vs' c U. induction fs as [|[f t] r IH]; intros [|v vs] vs' c U; try reflexivity. cbn [map unm_fields why_fields fst snd] in *.
          destruct (unm_fields p m (map (fun f => (fst f, unm (snd f))) r) vs) as [[e0 r0] c0] eqn:Q.
          destruct (f_exported f); [|injection U as -> _ _; eapply IH; exact Q]. destruct (parseTag f) as [tg|]; [|reflexivity].
          destruct (mget beqb m (g_json tg)) as [x|]; [|injection U as -> _ _; eapply IH; exact Q]. destruct (unm t (p ++ [PName (f_name f)]) x v) as [[w|w|] cc]; [injection U as -> _ _; eapply IH; exact Q|discriminate U|discriminate U].
        - destruct (fields_why p m fs vs vs' c IH F U) as (f & t & name & x & J1 & J2 & J3 & J4). apply (ok_step t x _ _ (SField (f_name f))); [|exact J4]. intros s t' n' L. exact (l_field fs n m f t name x s t' n' M J1 J2 J3 L). }
      destruct old as [ | | | | | | |vs]; try (cbn in Sh; contradiction). cbn [shaped] in Sh.
      destruct n; try discriminate H; try (apply here; cbn; auto; fail); cbn [MarModel.unm EwModel.why] in *.
      + destruct (unm_fields p l (map (fun f => (fst f, unm (snd f))) fs) vs) as [[e vs'] c] eqn:U. apply (ST l vs e vs' c (or_introl eq_refl) Sh U). destruct e; [|exact Logic.I|discriminate H]. exact (unhandled_some _ _ _ _ _ _ _ H).
      + destruct (unm_fields p (AsMap l) (map (fun f => (fst f, unm (snd f))) fs) vs) as [[e vs'] c] eqn:U. apply (ST (AsMap l) vs e vs' c (or_intror (ex_intro _ l (conj eq_refl eq_refl))) Sh U). destruct e; [|exact Logic.I|discriminate H]. exact (unhandled_some _ _ _ _ _ _ _ H).
  Qed.
End Why.

(* The message of an error tells what is wrong.  If it has a path, this leads to a node that cannot be read as the type there, or to a map with a key of
   the wrong kind; the errors of numbers and of arrays have none, but are due to such a number or array.  Errors of UnhandledFields are its own. *)
Theorem C156_partial : forall f2i f2u uf t n old e, hasty t old -> message f2i f2u uf t n old = Some e ->
  match e with
  | MPath q n' t' => exists s, Leads t n s t' n' /\ q = place s /\ ~ kind_fits t' n'
  | MKey q k => exists s kt u n' m, Leads t n s (TMap kt u) n' /\ q = place s /\ is_map n' m /\ In k (map fst m) /\ bad_key kt k
  | MNum b x => exists s t' d, Leads t n s t' (NDigits d) /\ x = trimDecimal d /\
      ((b = true /\ (exists w, t' = TInt w) /\ parse_int x = None) \/ (b = false /\ (exists w, t' = TUint w) /\ parse_uint x = None))
  | MLen t' j => exists s k u l, Leads t n s t' (NList l) /\ t' = TArr k u /\ length l = j /\ j <> k
  | MFunc => uf <> None
  end.
Proof.
  intros f2i f2u uf t n old e HT H. unfold message in H. destruct (Unmarshal f2i f2u uf t n old) as [[v|v|] cs] eqn:U; try discriminate H. injection H as <-.
  exact (all_explained f2i f2u uf t [PRoot] n old v cs (shaped_hasty t old HT) U).
Qed.
Print Assumptions C156_partial.
(* What the path as text begins with: *)
Lemma split_at (P : ascii -> Prop) : (forall c, P c \/ ~ P c) -> forall a b a' b' : bytes, Forall (fun c => ~ P c) a -> Forall (fun c => ~ P c) a' ->
  match b with [] => True | c :: _ => P c end -> match b' with [] => True | c :: _ => P c end -> a ++ b = a' ++ b' -> a = a' /\ b = b'.
Proof.
  intros D. induction a as [|c a IH]; intros b [|c' a'] b' A A' Hb Hb' E; cbn in E.
  - auto.
  - subst b. inversion A'; subst. contradiction.
  - subst b'. inversion A; subst. contradiction.
  - injection E as <- E. inversion A; inversion A'; subst. destruct (IH b a' b') as [-> ->]; auto.
Qed.
Definition marks (c : ascii) : Prop := c = "."%char \/ c = "["%char.
Lemma marks_dec c : marks c \/ ~ marks c.
Proof. unfold marks. destruct (ascii_dec c "."%char); [tauto|]. destruct (ascii_dec c "["%char); [tauto|]. right. intros [H|H]; contradiction. Qed.
Definition plain_step (s : step) : Prop := match s with SField x => go_name x | SElem _ => True | SEntry _ => False end.
Lemma steps_text root : forall s s', Forall plain_step s -> Forall plain_step s' ->
  List.concat (map (el_text root) (map show s)) = List.concat (map (el_text root) (map show s')) -> s = s'.
Proof.
  assert (HD : forall s, Forall plain_step s -> match List.concat (map (el_text root) (map show s)) with [] => True | c :: _ => marks c end).
  { intros [|[x|i|k] s] F; cbn; unfold marks; auto. }
  assert (NM : forall x, go_name x -> Forall (fun c => ~ marks c) x).
  { intros x (_ & A & C). apply Forall_forall. intros c J [->| ->]; contradiction. }
  assert (ND : forall i, Forall (fun c => ~ (c = "]"%char)) (dec i)).
  { intros i. eapply Forall_impl; [|apply dec_digits]. intros c H ->. discriminate H. }
  induction s as [|a s IH]; intros [|b s'] F F' E.
  - reflexivity.
  - destruct b; discriminate E.
  - destruct a; discriminate E.
  - inversion F as [|? ? Fa Fs]; inversion F' as [|? ? Fb Fs']; subst. cbn [map List.concat] in E. destruct a as [x|i|k], b as [y|j|k']; try contradiction; cbn [show el_text] in E; try discriminate E.
    + cbn in E. injection E as E. destruct (split_at marks marks_dec x _ y _ (NM _ Fa) (NM _ Fb) (HD _ Fs) (HD _ Fs') E) as [-> E2]. f_equal. exact (IH _ Fs Fs' E2).
    + cbn in E. injection E as E. rewrite <- !app_assoc in E. destruct (split_at (fun c => c = "]"%char) (fun c => match ascii_dec c "]"%char with left e => or_introl e | right e => or_intror e end) _ ("]"%char :: List.concat (map (el_text root) (map show s))) _ ("]"%char :: List.concat (map (el_text root) (map show s'))) (ND (N.of_nat i)) (ND (N.of_nat j)) eq_refl eq_refl E) as [E1 E2].
      apply dec_inj in E1. apply Nat2N.inj in E1. cbn in E2. injection E2 as E2. f_equal; [now f_equal|]. exact (IH _ Fs Fs' E2).
Qed.
Lemma leads_plain t n s t' n' : Leads t n s t' n' -> no_maps t -> go_names t -> Forall plain_step s.
Proof.
  induction 1 as [t n|t n s t' n' L IH|t l i x s t' n' J L IH|t j l i x s t' n' J L IH|t j n m w x s t' n' M J L IH|fs n m f t name x s t' n' M J T K L IH]; intros A C; cbn [no_maps go_names] in *; auto.
  - constructor; [exact Logic.I|auto].
  - constructor; [exact Logic.I|auto].
  - destruct A.
  - assert (Q : go_name (f_name f) /\ no_maps t /\ go_names t).
    { clear - A C J. induction fs as [|e fs IHf]; [destruct J|]. destruct A as [A1 A2]. destruct C as (C1 & C2 & C3). destruct J as [->|J]; [auto|exact (IHf J A2 C3)]. }
    destruct Q as (Q1 & Q2 & Q3). constructor; [exact Q1|exact (IH Q2 Q3)].
Qed.
(* If the type holds no maps, the text of the path tells the place. *)
Theorem C156_where : forall root t n s t' n' m s' u' m', no_maps t -> go_names t -> Leads t n s t' n' -> Leads t m s' u' m' ->
  path_String root (place s) = path_String root (place s') -> s = s'.
Proof.
  intros root t n s t' n' m s' u' m' A C L L' E. apply (steps_text root); [exact (leads_plain _ _ _ _ _ L A C)|exact (leads_plain _ _ _ _ _ L' A C)|].
  unfold path_String, place in E. cbn [map app List.concat el_text] in E. cbn in E. injection E as E. rewrite <- !app_assoc in E. apply app_inv_head in E. cbn in E. now injection E.
Qed.
Print Assumptions C156_where.
(* With a map it does not tell the entry: the message is the same whichever of the entries is wrong. *)
Theorem C156_refuted : forall f2i f2u uf, let t := TMap KTStr TBool in let bad := NStr (B "x") in let good := NBool true in
  let n := NMap [(B "a", bad); (B "b", good)] in let n' := NMap [(B "a", good); (B "b", bad)] in
  exists e, message f2i f2u uf t n VNil = Some e /\ message f2i f2u uf t n' VNil = Some e.
Proof. intros. eexists. split; reflexivity. Qed.
Print Assumptions C156_refuted.
(* Nor which number it was that is too large, or which array too short. *)
Theorem C156_number_refuted : forall f2i f2u uf, let f := Fld (B "A") true [] in let g := Fld (B "B") true [] in
  let big := NDigits (B "99999999999999999999") in let t := TStruct [(f, TInt W64); (g, TInt W64)] in
  exists e, message f2i f2u uf t (NMap [(B "A", big); (B "B", NInt 1)]) (zero t) = Some e /\ message f2i f2u uf t (NMap [(B "A", NInt 1); (B "B", big)]) (zero t) = Some e.
Proof. intros. eexists. split; vm_compute; reflexivity. Qed.
Print Assumptions C156_number_refuted.
(* {"A":[{"B":"x"}]} where B is a bool: the message names A[0].B *)
Example C156_ex : let t := TStruct [(Fld (B "A") true (B "a"), TSlice (TStruct [(Fld (B "B") true [], TPtr TBool)]))] in
  let n := NMap [(B "a", NList [NMap [(B "B", NStr (B "x"))]])] in
  hasty t (zero t) /\ no_maps t /\ go_names t /\
  message (fun _ => 0%Z) (fun _ => 0%Z) None t n (zero t) = Some (MPath (place [SField (B "A"); SElem 0; SField (B "B")]) (NStr (B "x")) TBool) /\
  path_String (B "main.T") (place [SField (B "A"); SElem 0; SField (B "B")]) = B "{main.T}.A[0].B".
Proof. cbv zeta. split; [cbn; auto|]. split; [cbn; auto|]. split; [cbn; unfold go_name; repeat split; try discriminate; intros Q; cbn in Q; destruct Q as [Q|Q]; (discriminate Q || destruct Q)|]. split; vm_compute; reflexivity. Qed.
