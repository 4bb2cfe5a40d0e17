(* The texts the JSON parser takes. *)
From Coq Require Import Bool Ascii String Arith NArith ZArith Lia List.
From Verif Require Import Prelude PreludeFacts Utf8Model Utf8Facts QuoteModel QuoteFacts DecModel DecFacts DurModel DurProofs
  EncModel KvProofs JsonModel JsonSpec JsonFacts JsonProofs JsonParse RfcSpec RfcString.
Import ListNotations.
Local Open Scope N_scope.

Section TreeInd.
  Variable P : jtree -> Prop.
  Hypothesis H1 : P TNull.
  Hypothesis H2 : forall b, P (TBool b).
  Hypothesis H3 : forall s, P (TNum s).
  Hypothesis H4 : forall s, P (TStr s).
  Hypothesis H5 : forall l, Forall P l -> P (TArr l).
  Hypothesis H6 : forall l, Forall (fun e => P (snd e)) l -> P (TObj l).
  Fixpoint jtree_ind2 (v : jtree) : P v :=
    match v with
    | TNull => H1
    | TBool b => H2 b
    | TNum s => H3 s
    | TStr s => H4 s
    | TArr l => H5 l ((fix go l := match l return Forall P l with
                                  | [] => Forall_nil _
                                  | x :: t => Forall_cons x (jtree_ind2 x) (go t)
                                  end) l)
    | TObj l => H6 l ((fix go l := match l return Forall (fun e => P (snd e)) l with
                                  | [] => Forall_nil _
                                  | x :: t => Forall_cons x (jtree_ind2 (snd x)) (go t)
                                  end) l)
    end.
End TreeInd.

Definition puta {V} (es : list (bytes * V)) (acc : list (bytes * V)) : list (bytes * V) :=
  fold_left (fun a e => mset beqb a (fst e) (snd e)) es acc.
Fixpoint jval_of (x : jtree) : jval :=
  match x with
  | TNull => JNull
  | TBool b => JBool b
  | TNum s => JNum s
  | TStr s => JStr s
  | TArr l => JArr (map jval_of l)
  | TObj l => JObj (puta (map (fun e => (fst e, jval_of (snd e))) l) [])
  end.

Definition elem (p : bytes) (x : jtree) : Prop := exists a t b, p = a ++ t ++ b /\ blanks a /\ jtext t x /\ blanks b.
Definition memb (p : bytes) (e : bytes * jtree) : Prop :=
  exists a k b c t d, p = a ++ B """" ++ k ++ B """" ++ b ++ B ":" ++ c ++ t ++ d /\
      blanks a /\ jstring k (fst e) /\ blanks b /\ blanks c /\ jtext t (snd e) /\ blanks d.

(* ---- white space ---- *)
Lemma space_blank c : is_space c = true <-> In (code c) [32; 9; 10; 13].
Proof. unfold is_space. cbn [In]. Nify_bool. lia. Qed.
Lemma ws_split s : exists a, s = a ++ ws s /\ blanks a.
Proof.
  induction s as [|c s (a & IH & Ha)]; [exists []; split; [reflexivity|constructor]|]. cbn [ws]. destruct (is_space c) eqn:E.
  - exists (c :: a). split; [cbn; now rewrite <- IH|]. constructor; auto. now apply space_blank.
  - exists []. split; [reflexivity|constructor].
Qed.
Lemma ws_blanks a s : blanks a -> ws (a ++ s) = ws s.
Proof. induction 1 as [|c a Hc Ha IH]; auto. cbn [app ws]. apply space_blank in Hc. now rewrite Hc. Qed.
Lemma eat_some n s t : n < 256 -> eat n s = Some t -> s = chr n :: t.
Proof. intros Hn. destruct s as [|c s]; cbn; [discriminate|]. destruct (code c =? n) eqn:E; [|discriminate]. intros H. injection H as <-. apply code_eq in E; auto. now subst. Qed.
Lemma eat_ok n t : n < 256 -> eat n (chr n :: t) = Some t.
Proof. intros Hn. cbn. rewrite code_chr by auto. now rewrite N.eqb_refl. Qed.
Lemma strip_some w : forall s t, strip w s = Some t -> s = w ++ t.
Proof.
  induction w as [|x w IH]; intros s t H; cbn in H; [now injection H|]. destruct s as [|y s]; [discriminate|].
  destruct (code x =? code y) eqn:E; [|discriminate]. apply N.eqb_eq, code_inj in E. subst y. cbn. now rewrite <- (IH _ _ H).
Qed.
Lemma strip_ok w t : strip w (w ++ t) = Some t.
Proof. induction w as [|x w IH]; auto. cbn. now rewrite N.eqb_refl. Qed.

Lemma puta_cons {V} (e : bytes * V) es acc : puta (e :: es) acc = puta es (mset beqb acc (fst e) (snd e)).
Proof. reflexivity. Qed.
Lemma max_le {A} (f : A -> nat) l d m : Forall (fun x => f x + d <= m)%nat l -> (d <= m)%nat -> (fold_right (fun y k => Nat.max (f y) k) 0 l + d <= m)%nat.
Proof. induction 1 as [|x l Hx Hl IH]; cbn [fold_right]; intros; [lia|]. specialize (IH H). lia. Qed.
Lemma max_ge {A} (f : A -> nat) l x : In x l -> (f x <= fold_right (fun y k => Nat.max (f y) k) 0 l)%nat.
Proof. induction l as [|y l IH]; cbn; [tauto|]. intros [->|H]; [lia|]. specialize (IH H). lia. Qed.
Lemma join_cons sep (a : bytes) p ps : join sep (a :: p :: ps) = a ++ sep ++ join sep (p :: ps). Proof. reflexivity. Qed.

(* ---- what is taken is in the grammar ---- *)
Lemma parse_sound f : forall d s v r,
  ((d <= maxdepth)%nat -> pvalue f d s = Some (v, r) -> exists a t x, s = a ++ t ++ r /\ blanks a /\ jtext t x /\ v = jval_of x /\ (tdepth x + d <= maxdepth)%nat) /\
  (forall acc, (d <= maxdepth)%nat -> pmembers f d acc s = Some (v, r) -> exists p ps l, s = join (B ",") (p :: ps) ++ B "}" ++ r /\ Forall2 memb (p :: ps) l /\
     v = JObj (puta (map (fun e => (fst e, jval_of (snd e))) l) acc) /\ Forall (fun e => tdepth (snd e) + d <= maxdepth)%nat l) /\
  (forall acc, (d <= maxdepth)%nat -> pelems f d acc s = Some (v, r) -> exists p ps l, s = join (B ",") (p :: ps) ++ B "]" ++ r /\ Forall2 elem (p :: ps) l /\
     v = JArr (acc ++ map jval_of l) /\ Forall (fun x => tdepth x + d <= maxdepth)%nat l).
Proof.
  induction f as [|f IH]; intros d s v r; (split; [|split]); try discriminate.
  - intros Hd H. cbn [pvalue] in H. destruct (ws_split s) as (a & Hs & Ha). destruct (ws s) as [|c t] eqn:Ews; [discriminate|].
    assert (Scalar : forall t0 x, c :: t = t0 ++ r -> jtext t0 x -> v = jval_of x -> (tdepth x + d <= maxdepth)%nat ->
      exists a t x, s = a ++ t ++ r /\ blanks a /\ jtext t x /\ v = jval_of x /\ (tdepth x + d <= maxdepth)%nat).
    { intros t0 x Ht Hj Hv Hx. exists a, t0, x. rewrite <- Ht. auto. }
    destruct (code c =? 123) eqn:E1.
    { apply code_eq in E1; [|lia]. subst c. destruct (maxdepth <=? d)%nat eqn:Em; [discriminate|]. apply Nat.leb_gt in Em.
      destruct (ws_split t) as (w & Ht & Hw).
      destruct (eat 125 (ws t)) as [r1|] eqn:Ee.
      - injection H as <- <-. apply eat_some in Ee; [|lia]. apply (Scalar (B "{" ++ w ++ B "}") (TObj [])).
        + rewrite Ht, Ee, <- !app_assoc. reflexivity.
        + now constructor.
        + reflexivity.
        + cbn [tdepth fold_right]. lia.
      - apply (proj1 (proj2 (IH (S d) t v r))) in H as (p & ps & l & -> & Hf & -> & Hl); [|lia]. apply (Scalar (B "{" ++ join (B ",") (p :: ps) ++ B "}") (TObj l)).
        + rewrite <- !app_assoc. reflexivity.
        + now constructor.
        + reflexivity.
        + cbn [tdepth]. rewrite plus_Sn_m, plus_n_Sm. now apply (max_le (fun e => tdepth (snd e))). }
    destruct (code c =? 91) eqn:E2.
    { apply code_eq in E2; [|lia]. subst c. destruct (maxdepth <=? d)%nat eqn:Em; [discriminate|]. apply Nat.leb_gt in Em.
      destruct (ws_split t) as (w & Ht & Hw).
      destruct (eat 93 (ws t)) as [r1|] eqn:Ee.
      - injection H as <- <-. apply eat_some in Ee; [|lia]. apply (Scalar (B "[" ++ w ++ B "]") (TArr [])).
        + rewrite Ht, Ee, <- !app_assoc. reflexivity.
        + now constructor.
        + reflexivity.
        + cbn [tdepth fold_right]. lia.
      - apply (proj2 (proj2 (IH (S d) t v r))) in H as (p & ps & l & -> & Hf & -> & Hl); [|lia]. apply (Scalar (B "[" ++ join (B ",") (p :: ps) ++ B "]") (TArr l)).
        + rewrite <- !app_assoc. reflexivity.
        + now constructor.
        + reflexivity.
        + cbn [tdepth]. rewrite plus_Sn_m, plus_n_Sm. now apply (max_le tdepth). }
    destruct (code c =? 34) eqn:E3.
    { apply code_eq in E3; [|lia]. subst c. destruct (pstring t) as [[x r1]|] eqn:E; [|discriminate]. injection H as <- <-.
      apply pstr_sound in E as (q & -> & Hq). apply (Scalar (B """" ++ q ++ B """") (TStr x)).
      + rewrite <- !app_assoc. reflexivity.
      + now constructor.
      + reflexivity.
      + cbn [tdepth]. lia. }
    destruct (code c =? 116) eqn:E4.
    { apply code_eq in E4; [|lia]. subst c. destruct (strip (B "rue") t) as [r1|] eqn:E; [|discriminate]. injection H as <- <-. apply strip_some in E. subst t.
      apply (Scalar (B "true") (TBool true)); [reflexivity|constructor|reflexivity|cbn [tdepth]; lia]. }
    destruct (code c =? 102) eqn:E5.
    { apply code_eq in E5; [|lia]. subst c. destruct (strip (B "alse") t) as [r1|] eqn:E; [|discriminate]. injection H as <- <-. apply strip_some in E. subst t.
      apply (Scalar (B "false") (TBool false)); [reflexivity|constructor|reflexivity|cbn [tdepth]; lia]. }
    destruct (code c =? 110) eqn:E6.
    { apply code_eq in E6; [|lia]. subst c. destruct (strip (B "ull") t) as [r1|] eqn:E; [|discriminate]. injection H as <- <-. apply strip_some in E. subst t.
      apply (Scalar (B "null") TNull); [reflexivity|constructor|reflexivity|cbn [tdepth]; lia]. }
    destruct (pnum (c :: t)) as [[x r1]|] eqn:E; [|discriminate]. injection H as <- <-. apply pnum_spec in E as [Ht Hx].
    apply (Scalar x (TNum x)); [exact Ht|now constructor|reflexivity|cbn [tdepth]; lia].
  - intros acc Hd H. cbn [pmembers] in H. destruct (ws_split s) as (a & Hs & Ha).
    destruct (eat 34 (ws s)) as [t|] eqn:E1; [|discriminate]. apply eat_some in E1; [|lia].
    destruct (pstring t) as [[k r0]|] eqn:E2; [|discriminate]. apply pstr_sound in E2 as (q & Hq & Hk).
    destruct (ws_split r0) as (b & Hb1 & Hb). destruct (eat 58 (ws r0)) as [r1|] eqn:E3; [|discriminate]. apply eat_some in E3; [|lia].
    destruct (pvalue f d r1) as [[x r2]|] eqn:E4; [|discriminate]. apply (proj1 (IH d r1 x r2)) in E4 as (c' & t' & y & Hr1 & Hc' & Ht' & -> & Hy); auto.
    destruct (ws_split r2) as (e & He1 & He). destruct (ws r2) as [|c r3] eqn:E5; [discriminate|].
    set (P := a ++ B """" ++ q ++ B """" ++ b ++ B ":" ++ c' ++ t' ++ e).
    assert (Hs' : s = P ++ c :: r3).
    { rewrite Hs, E1, Hq, Hb1, E3, Hr1, He1. unfold P. rewrite <- !app_assoc. reflexivity. }
    assert (HP : memb P (k, y)). { exists a, q, b, c', t', e. repeat (split; auto). }
    destruct (code c =? 44) eqn:E6.
    { apply code_eq in E6; [|lia]. subst c. apply (proj1 (proj2 (IH d r3 v r))) in H as (p & ps & l & -> & Hf & -> & Hl); auto.
      exists P, (p :: ps), ((k, y) :: l). rewrite join_cons, <- !app_assoc. split; [exact Hs'|]. split; [now constructor|]. split; [reflexivity|now constructor]. }
    destruct (code c =? 125) eqn:E7; [|discriminate]. apply code_eq in E7; [|lia]. subst c. injection H as <- <-.
    exists P, [], [(k, y)]. split; [exact Hs'|]. split; [repeat constructor; auto|]. split; [reflexivity|now constructor].
  - intros acc Hd H. cbn [pelems] in H.
    destruct (pvalue f d s) as [[x r2]|] eqn:E4; [|discriminate]. apply (proj1 (IH d s x r2)) in E4 as (c' & t' & y & Hr1 & Hc' & Ht' & -> & Hy); auto.
    destruct (ws_split r2) as (e & He1 & He). destruct (ws r2) as [|c r3] eqn:E5; [discriminate|].
    set (P := c' ++ t' ++ e).
    assert (Hs' : s = P ++ c :: r3).
    { rewrite Hr1, He1. unfold P. rewrite <- !app_assoc. reflexivity. }
    assert (HP : elem P y). { exists c', t', e. repeat (split; auto). }
    destruct (code c =? 44) eqn:E6.
    { apply code_eq in E6; [|lia]. subst c. apply (proj2 (proj2 (IH d r3 v r))) in H as (p & ps & l & -> & Hf & -> & Hl); auto.
      exists P, (p :: ps), (y :: l). rewrite join_cons, <- !app_assoc. split; [exact Hs'|]. split; [now constructor|]. split; [cbn [map]; f_equal; symmetry; apply (app_assoc acc [jval_of y])|now constructor]. }
    destruct (code c =? 93) eqn:E7; [|discriminate]. apply code_eq in E7; [|lia]. subst c. injection H as <- <-.
    exists P, [], [y]. split; [exact Hs'|]. split; [repeat constructor; auto|]. split; [reflexivity|now constructor].
Qed.

(* ---- what is in the grammar is taken, unless nested too deeply ---- *)
Lemma jtext_head t x : jtext t x -> exists c t', t = c :: t' /\ vhead c.
Proof.
  intros H. destruct H as [| | |s Hs|s v Hs|w Hw|p ps l Hl|w Hw|p ps l Hl].
  - exists (chr 110). eexists. split; [reflexivity|]. apply vhead_c; lia.
  - exists (chr 116). eexists. split; [reflexivity|]. apply vhead_c; lia.
  - exists (chr 102). eexists. split; [reflexivity|]. apply vhead_c; lia.
  - destruct (number_head s Hs) as (c & t & -> & Hc & _). eauto.
  - exists (chr 34). eexists. split; [reflexivity|]. apply vhead_c; lia.
  - exists (chr 91). eexists. split; [reflexivity|]. apply vhead_c; lia.
  - exists (chr 91). eexists. split; [reflexivity|]. apply vhead_c; lia.
  - exists (chr 123). eexists. split; [reflexivity|]. apply vhead_c; lia.
  - exists (chr 123). eexists. split; [reflexivity|]. apply vhead_c; lia.
Qed.
Lemma num_end_blanks b c t : blanks b -> code c = 44 \/ code c = 93 \/ code c = 125 -> num_end (b ++ c :: t).
Proof.
  intros Hb Hc. destruct Hb as [|x b Hx Hb]; cbn [app num_end]; unfold is_digit.
  - repeat split; try lia. Nify_bool. lia.
  - cbn [In] in Hx. repeat split; try lia. Nify_bool. lia.
Qed.
Lemma num_end_tail b : blanks b -> num_end b.
Proof. intros Hb. destruct Hb as [|x b Hx Hb]; cbn; auto. unfold is_digit. cbn [In] in Hx. repeat split; try lia. Nify_bool. lia. Qed.
Lemma sep_space c : code c = 44 \/ code c = 93 \/ code c = 125 -> is_space c = false.
Proof. intros H. unfold is_space. Nify_bool. lia. Qed.
Lemma ws_blanks_cons b c t : blanks b -> is_space c = false -> ws (b ++ c :: t) = c :: t.
Proof. intros Hb Hc. rewrite ws_blanks by auto. now apply ws_cons. Qed.

Definition taken (x : jtree) : Prop := forall t, jtext t x -> forall f d a rest, blanks a -> num_end rest -> (d <= maxdepth)%nat ->
  (2 * length (a ++ t ++ rest) + 2 <= f)%nat ->
  pvalue f d (a ++ t ++ rest) = if (tdepth x + d <=? maxdepth)%nat then Some (jval_of x, rest) else None.

Lemma elems_taken ps : forall l, Forall taken l -> Forall2 elem ps l -> ps <> [] -> forall f d acc rest, (d <= maxdepth)%nat ->
  (2 * length (join (B ",") ps ++ B "]" ++ rest) + 3 <= f)%nat ->
  pelems f d acc (join (B ",") ps ++ B "]" ++ rest) =
  if forallb (fun x => tdepth x + d <=? maxdepth)%nat l then Some (JArr (acc ++ map jval_of l), rest) else None.
Proof.
  induction ps as [|p ps IH]; intros l Ht Hf Hne f d acc rest Hd Hfl; [congruence|]. inversion Hf as [|? x ? l' He Hf']; subst.
  inversion Ht as [|? ? Hx Ht']; subst. destruct f as [|f]; [lia|]. cbn [pelems forallb].
  destruct He as (a & t & b & -> & Ha & Hj & Hb).
  assert (Hrest : exists r1 c, join (B ",") (@cons bytes (a ++ t ++ b) ps) ++ B "]" ++ rest = a ++ t ++ b ++ c :: r1 /\
    ((ps = [] /\ c = chr 93 /\ r1 = rest) \/ (ps <> [] /\ c = chr 44 /\ r1 = join (B ",") ps ++ B "]" ++ rest))).
  { destruct ps as [|q ps].
    - exists rest, (chr 93). split; [cbn [join]; rewrite <- !app_assoc; reflexivity|auto].
    - exists (join (B ",") (q :: ps) ++ B "]" ++ rest), (chr 44). split; [rewrite join_cons, <- !app_assoc; reflexivity|]. right. repeat split. congruence. }
  destruct Hrest as (r1 & c & Hr & Hc). rewrite Hr in Hfl |- *.
  assert (Hcc : code c = 44 \/ code c = 93 \/ code c = 125). { destruct Hc as [(_ & -> & _)|(_ & -> & _)]; vm_compute; auto. }
  rewrite (Hx t Hj f d a (b ++ c :: r1)); auto; [|now apply num_end_blanks|lia].
  destruct (tdepth x + d <=? maxdepth)%nat eqn:Ed; [|reflexivity]. rewrite ws_blanks_cons by (auto using sep_space). cbn [andb].
  destruct Hc as [(-> & -> & ->)|(Hn & -> & ->)].
  - inversion Hf'; subst. reflexivity.
  - change (code (chr 44) =? 44) with true. cbv iota. rewrite (IH l'); auto.
    + destruct (forallb _ l'); auto. cbn [map]. now rewrite <- app_assoc.
    + rewrite !app_length in Hfl. cbn [length] in Hfl. rewrite !app_length in *. lia.
Qed.

Lemma membs_taken ps : forall l, Forall (fun e => taken (snd e)) l -> Forall2 memb ps l -> ps <> [] -> forall f d acc rest, (d <= maxdepth)%nat ->
  (2 * length (join (B ",") ps ++ B "}" ++ rest) + 1 <= f)%nat ->
  pmembers f d acc (join (B ",") ps ++ B "}" ++ rest) =
  if forallb (fun e => tdepth (snd e) + d <=? maxdepth)%nat l then Some (JObj (puta (map (fun e => (fst e, jval_of (snd e))) l) acc), rest) else None.
Proof.
  induction ps as [|p ps IH]; intros l Ht Hf Hne f d acc rest Hd Hfl; [congruence|]. inversion Hf as [|? x ? l' He Hf']; subst.
  inversion Ht as [|? ? Hx Ht']; subst. destruct f as [|f]; [lia|]. cbn [pmembers forallb].
  destruct He as (a & k & b & c0 & t & e & -> & Ha & Hk & Hb & Hc0 & Hj & He).
  assert (Hrest : exists r1 c, join (B ",") (@cons bytes (a ++ B """" ++ k ++ B """" ++ b ++ B ":" ++ c0 ++ t ++ e) ps) ++ B "}" ++ rest =
      a ++ chr 34 :: k ++ dquote :: b ++ chr 58 :: c0 ++ t ++ e ++ c :: r1 /\
    ((ps = [] /\ c = chr 125 /\ r1 = rest) \/ (ps <> [] /\ c = chr 44 /\ r1 = join (B ",") ps ++ B "}" ++ rest))).
  { destruct ps as [|q ps].
    - exists rest, (chr 125). split; [cbn [join]; rewrite <- !app_assoc; reflexivity|auto].
    - exists (join (B ",") (q :: ps) ++ B "}" ++ rest), (chr 44). split; [rewrite join_cons, <- !app_assoc; reflexivity|]. right. repeat split. congruence. }
  destruct Hrest as (r1 & c & Hr & Hc). rewrite Hr in Hfl |- *.
  assert (Hcc : code c = 44 \/ code c = 93 \/ code c = 125). { destruct Hc as [(_ & -> & _)|(_ & -> & _)]; vm_compute; auto. }
  rewrite ws_blanks_cons by auto. rewrite eat_ok by lia. rewrite (pstring_complete k (fst x)) by auto.
  rewrite ws_blanks_cons by auto. rewrite eat_ok by lia.
  rewrite !app_length in Hfl. cbn [length] in Hfl. rewrite !app_length in Hfl. cbn [length] in Hfl. rewrite !app_length in Hfl. cbn [length] in Hfl. rewrite !app_length in Hfl. cbn [length] in Hfl.
  rewrite (Hx t Hj f d c0 (e ++ c :: r1)); auto; [|now apply num_end_blanks|rewrite !app_length; cbn [length]; lia].
  destruct (tdepth (snd x) + d <=? maxdepth)%nat eqn:Ed; [|reflexivity]. rewrite ws_blanks_cons by (auto using sep_space). cbn [andb].
  destruct Hc as [(-> & -> & ->)|(Hn & -> & ->)].
  - inversion Hf'; subst. reflexivity.
  - change (code (chr 44) =? 44) with true. cbv iota. rewrite (IH l'); auto.
    rewrite !app_length in *. cbn [length] in *. lia.
Qed.

Lemma forallb_max {A} (g : A -> nat) l d m : (d <= m)%nat -> forallb (fun x => g x + d <=? m)%nat l = (fold_right (fun y k => Nat.max (g y) k) 0 l + d <=? m)%nat.
Proof.
  intros Hd. induction l as [|x l IH]; cbn [forallb fold_right]; [symmetry; apply Nat.leb_le; lia|]. rewrite IH.
  destruct (Nat.leb_spec (g x + d) m), (Nat.leb_spec (fold_right (fun y k => Nat.max (g y) k) 0%nat l + d) m); cbn [andb]; symmetry;
    try apply Nat.leb_le; try apply Nat.leb_gt; lia.
Qed.

Lemma join_nonnil p ps : p <> [] -> exists c t, p = c :: t /\ forall sep, exists u, join sep (p :: ps) = c :: u.
Proof. destruct p as [|c t]; [congruence|]. intros _. exists c, t. split; auto. intros sep. destruct ps; cbn; eauto. Qed.

Lemma join_front sep x y ps : join sep (@cons bytes (x ++ y) ps) = x ++ join sep (@cons bytes y ps).
Proof. destruct ps; cbn [join]; [reflexivity|]. now rewrite <- app_assoc. Qed.

Lemma all_taken x : taken x.
Proof.
  induction x as [|b|s|s|l Hl|l Hl] using jtree_ind2; intros t Hj f d a rest Ha Hr Hd Hf; (destruct f as [|f]; [lia|]).
  - inversion Hj; subst. cbn [tdepth]. rewrite (proj2 (Nat.leb_le (0 + d) maxdepth)) by lia. cbn [pvalue]. rewrite ws_blanks by auto.
    change (ws (B "null" ++ rest)) with (chr 110 :: B "ull" ++ rest). cbv beta iota.
    change (code (chr 110) =? 123) with false. change (code (chr 110) =? 91) with false. change (code (chr 110) =? 34) with false.
    change (code (chr 110) =? 116) with false. change (code (chr 110) =? 102) with false. change (code (chr 110) =? 110) with true. cbv iota.
    now rewrite strip_ok.
  - cbn [tdepth]. rewrite (proj2 (Nat.leb_le (0 + d) maxdepth)) by lia. inversion Hj; subst; cbn [pvalue]; rewrite ws_blanks by auto.
    + change (ws (B "true" ++ rest)) with (chr 116 :: B "rue" ++ rest). cbv beta iota.
      change (code (chr 116) =? 123) with false. change (code (chr 116) =? 91) with false. change (code (chr 116) =? 34) with false.
      change (code (chr 116) =? 116) with true. cbv iota. now rewrite strip_ok.
    + change (ws (B "false" ++ rest)) with (chr 102 :: B "alse" ++ rest). cbv beta iota.
      change (code (chr 102) =? 123) with false. change (code (chr 102) =? 91) with false. change (code (chr 102) =? 34) with false.
      change (code (chr 102) =? 116) with false. change (code (chr 102) =? 102) with true. cbv iota. now rewrite strip_ok.
  - inversion Hj; subst. cbn [tdepth]. rewrite (proj2 (Nat.leb_le (0 + d) maxdepth)) by lia.
    rewrite (pvalue_ws _ _ (a ++ s ++ rest) (s ++ rest)) by now apply ws_blanks. now apply pvalue_num.
  - inversion Hj; subst. cbn [tdepth]. rewrite (proj2 (Nat.leb_le (0 + d) maxdepth)) by lia. cbn [pvalue]. rewrite ws_blanks by auto.
    rewrite <- !app_assoc. change (ws (B """" ++ s0 ++ B """" ++ rest)) with (chr 34 :: s0 ++ dquote :: rest). cbv beta iota.
    change (code (chr 34) =? 123) with false. change (code (chr 34) =? 91) with false. change (code (chr 34) =? 34) with true. cbv iota.
    now rewrite (pstring_complete s0 s).
  - cbn [pvalue]. rewrite ws_blanks by auto. inversion Hj as [| | | | |w Hw|p ps l' Hps| |]; subst.
    + rewrite <- !app_assoc. change (ws (B "[" ++ w ++ B "]" ++ rest)) with (chr 91 :: w ++ chr 93 :: rest). cbv beta iota.
      change (code (chr 91) =? 123) with false. change (code (chr 91) =? 91) with true. cbv iota.
      rewrite ws_blanks_cons by auto. rewrite eat_ok by lia. cbn [tdepth fold_right jval_of map].
      destruct (Nat.leb_spec maxdepth d); destruct (Nat.leb_spec (1 + d) maxdepth); auto; lia.
    + rewrite <- !app_assoc in Hf |- *. change (ws (B "[" ++ join (B ",") (p :: ps) ++ B "]" ++ rest)) with (chr 91 :: join (B ",") (p :: ps) ++ B "]" ++ rest). cbv beta iota.
      change (code (chr 91) =? 123) with false. change (code (chr 91) =? 91) with true. cbv iota.
      assert (He : eat 93 (ws (join (B ",") (p :: ps) ++ B "]" ++ rest)) = None).
      { inversion Hps as [|? y ? l' (b & t & e & -> & Hb & Ht & He) _]; subst. destruct (jtext_head _ _ Ht) as (c & t' & -> & Hc1 & Hc2 & _).
        rewrite join_front, <- app_assoc, ws_blanks by auto. cbn [app]. change (join (B ",") (@cons bytes (c :: t' ++ e) ps)) with (join (B ",") (@cons bytes ([c] ++ (t' ++ e)) ps)).
        rewrite join_front. cbn [app]. rewrite ws_cons by auto. cbn [eat]. apply N.eqb_neq in Hc2. now rewrite Hc2. }
      rewrite He. destruct (Nat.leb_spec maxdepth d) as [Hm|Hm].
      * cbn [tdepth]. destruct (Nat.leb_spec (S (fold_right (fun y m => Nat.max (tdepth y) m) 0%nat l) + d) maxdepth); auto; lia.
      * rewrite (elems_taken (p :: ps) l Hl Hps) by (try congruence; try lia; rewrite !app_length in Hf; change (length (B "[")) with 1%nat in Hf; rewrite !app_length; lia).
        rewrite (forallb_max tdepth l (S d)) by lia. cbn [tdepth]. rewrite plus_Sn_m, plus_n_Sm. destruct (_ <=? _)%nat; auto.
  - cbn [pvalue]. rewrite ws_blanks by auto. inversion Hj as [| | | | | | |w Hw|p ps l' Hps]; subst.
    + rewrite <- !app_assoc. change (ws (B "{" ++ w ++ B "}" ++ rest)) with (chr 123 :: w ++ chr 125 :: rest). cbv beta iota.
      change (code (chr 123) =? 123) with true. cbv iota.
      rewrite ws_blanks_cons by auto. rewrite eat_ok by lia. cbn [tdepth fold_right jval_of map].
      destruct (Nat.leb_spec maxdepth d); destruct (Nat.leb_spec (1 + d) maxdepth); auto; lia.
    + rewrite <- !app_assoc in Hf |- *. change (ws (B "{" ++ join (B ",") (p :: ps) ++ B "}" ++ rest)) with (chr 123 :: join (B ",") (p :: ps) ++ B "}" ++ rest). cbv beta iota.
      change (code (chr 123) =? 123) with true. cbv iota.
      assert (He : eat 125 (ws (join (B ",") (p :: ps) ++ B "}" ++ rest)) = None).
      { inversion Hps as [|? y ? l' (b & k & b2 & c & t & e & -> & Hb & _) _]; subst.
        rewrite join_front, <- app_assoc, ws_blanks by auto. destruct ps; reflexivity. }
      rewrite He. destruct (Nat.leb_spec maxdepth d) as [Hm|Hm].
      * cbn [tdepth]. destruct (Nat.leb_spec (S (fold_right (fun y m => Nat.max (tdepth (snd y)) m) 0%nat l) + d) maxdepth); auto; lia.
      * rewrite (membs_taken (p :: ps) l Hl Hps) by (try congruence; try lia; rewrite !app_length in Hf; change (length (B "{")) with 1%nat in Hf; rewrite !app_length; lia).
        rewrite (forallb_max (fun e => tdepth (snd e)) l (S d)) by lia. cbn [tdepth]. rewrite plus_Sn_m, plus_n_Sm. destruct (_ <=? _)%nat; auto.
Qed.

(* ---- the node ---- *)
Lemma mset_map {V W} (g : V -> W) (m : list (bytes * V)) k v :
  map (fun e => (fst e, g (snd e))) (mset beqb m k v) = mset beqb (map (fun e => (fst e, g (snd e))) m) k (g v).
Proof. induction m as [|[k' v'] m IH]; cbn; auto. destruct (beqb k k'); cbn; [reflexivity|]. now rewrite IH. Qed.
Lemma puta_map {V W} (g : V -> W) (es : list (bytes * V)) : forall acc,
  map (fun e => (fst e, g (snd e))) (puta es acc) = puta (map (fun e => (fst e, g (snd e))) es) (map (fun e => (fst e, g (snd e))) acc).
Proof. induction es as [|e es IH]; intros acc; cbn [map]; [reflexivity|]. rewrite !puta_cons, IH, mset_map. reflexivity. Qed.
Lemma puta_nodup {V} (es : list (bytes * V)) : forall acc, NoDup (map fst acc) -> NoDup (map fst (puta es acc)).
Proof. induction es as [|e es IH]; intros acc H; auto. rewrite puta_cons. apply IH. now apply (mset_nodup beqb beqb_ok). Qed.
Lemma puta_app {V} (a b : list (bytes * V)) acc : puta (a ++ b) acc = puta b (puta a acc).
Proof. unfold puta. apply fold_left_app. Qed.
Lemma puta_last es k : mget beqb (puta es []) k = last_member es k.
Proof.
  induction es as [|e es IH] using rev_ind; [reflexivity|]. rewrite puta_app. unfold last_member. rewrite rev_app_distr. cbn [rev app find].
  change (puta [e] (puta es [])) with (mset beqb (puta es []) (fst e) (snd e)). destruct (beqb (fst e) k) eqn:E.
  - apply beqb_eq in E. subst k. now rewrite (mget_mset_eq beqb beqb_ok).
  - rewrite (mget_mset_ne beqb beqb_ok); [exact IH|]. intros H. rewrite H, beqb_refl in E. discriminate.
Qed.

Lemma stands_of x : stands x (fromNative (jval_of x)).
Proof.
  induction x as [|b|s|s|l Hl|l Hl] using jtree_ind2; cbn [jval_of fromNative]; try constructor.
  - induction Hl; cbn [map]; constructor; auto.
  - set (g := fun x => fromNative (jval_of x)). change (fun e : bytes * jtree => (fst e, jval_of (snd e))) with (fun e : bytes * jtree => (fst e, jval_of (snd e))).
    assert (E : map (fun e : bytes * jval => (fst e, fromNative (snd e))) (puta (map (fun e => (fst e, jval_of (snd e))) l) []) = map (fun e => (fst e, g (snd e))) (puta l [])).
    { rewrite (puta_map g), (puta_map fromNative), map_map. reflexivity. }
    rewrite E. apply sd_obj with (m := puta l []).
    + apply puta_nodup. constructor.
    + intros k v. rewrite <- puta_last. symmetry. apply (mget_in beqb beqb_ok). apply puta_nodup. constructor.
    + assert (Hall : Forall (fun e => stands (snd e) (g (snd e))) (puta l [])).
      { clear E. assert (G : forall acc, Forall (fun e => stands (snd e) (g (snd e))) acc -> Forall (fun e => stands (snd e) (g (snd e))) (puta l acc)); [|apply G; constructor].
        induction Hl as [|e l He Hl IH]; intros acc Ha; auto. rewrite puta_cons. apply IH. clear -He Ha.
        induction Ha as [|[k v] acc H1 H2 IH]; cbn [mset]; [repeat constructor; auto|]. destruct (beqb (fst e) k); constructor; auto. }
      clear -Hall. induction Hall as [|e m H1 H2 IH]; cbn [map]; constructor; auto.
Qed.
