(* C147: the example service. *)
From Coq Require Import Bool Ascii String Arith NArith ZArith Lia List Permutation.
From Verif Require Import Prelude PreludeFacts Utf8Model Utf8Facts DecModel DecFacts DurModel DurProofs EncModel JsonModel JsonSpec JsonFacts JsonProofs JsonParse FlModel FlSpec FlRound FlText FlWrite FlProofs FlRead ExModel ExSpec.
Import ListNotations.

(* ---- the store ---- *)
Lemma last_app k a b : last_set k (a ++ b) = match last_set k b with Some v => Some v | None => last_set k a end.
Proof. induction a as [|c a IH]; cbn [app last_set]; [now destruct (last_set k b)|]. rewrite IH. destruct (last_set k b); reflexivity. Qed.
Lemma look_set s j v k : look (mset beqb s j v) k = if beqb k j then v else look s k.
Proof.
  unfold look. destruct (beqb k j) eqn:E.
  - apply beqb_eq in E as ->. now rewrite (mget_mset_eq beqb beqb_eq).
  - rewrite (mget_mset_ne beqb beqb_eq); [reflexivity|]. intros ->. now rewrite beqb_refl in E.
Qed.
Lemma current_cons s c cs k : current s (c :: cs) k = current (snd (do s c)) cs k.
Proof.
  unfold current. cbn [last_set]. destruct (last_set k cs); [reflexivity|]. destruct c as [j|j v]; cbn [do snd]; [reflexivity|]. rewrite look_set. now destruct (beqb k j).
Qed.
Lemma runs_look cs : forall s k, look (snd (runs s cs)) k = current s cs k.
Proof.
  induction cs as [|c cs IH]; intros s k; [reflexivity|]. rewrite current_cons, <- IH. cbn [runs]. destruct (do s c) as [a s1]. cbn [snd]. destruct (runs s1 cs) as [l s2]. reflexivity.
Qed.
Lemma do_out s c : fst (do s c) = look s (call_key c).
Proof. now destruct c. Qed.
(* Each call returns what was stored last under its key, by the calls before it. *)
Theorem C147_map : forall (s : store) (cs : list call) (i : nat) (c : call), nth_error cs i = Some c ->
  nth_error (fst (runs s cs)) i = Some (current s (firstn i cs) (call_key c)).
Proof.
  intros s cs. revert s. induction cs as [|d cs IH]; intros s i c H; [destruct i; discriminate|]. cbn [runs]. destruct (do s d) as [a s1] eqn:E. destruct (runs s1 cs) as [l s2] eqn:E2. cbn [fst].
  destruct i as [|i]; cbn [nth_error firstn] in *.
  - injection H as <-. f_equal. change (a = look s (call_key d)). rewrite <- (do_out s d), E. reflexivity.
  - rewrite current_cons, E. cbn [snd]. specialize (IH s1 i c H). rewrite E2 in IH. exact IH.
Qed.

(* ---- values ---- *)
Lemma exponent_json ex : (ex = [] \/ exists e g d, ex = e ++ g ++ d /\ (e = B "e" \/ e = B "E") /\ (g = [] \/ g = B "+" \/ g = B "-") /\ all_digits d) ->
  (exists x, exponent ex = Some x) /\ stops ex /\ starts2 46 46 ex = false.
Proof.
  intros [->|(e & g & d & -> & He & Hg & Hn & Hd)]; [split; [eexists; reflexivity|split; reflexivity]|].
  assert (S1 : exists neg, sg_ g neg) by (destruct Hg as [->|[->| ->]]; eexists; constructor). destruct S1 as [neg S1].
  assert (Es : sign (g ++ d) = (neg, d)). { apply sign_app; auto. destruct d as [|c d]; [congruence|]. left. now inversion Hd. }
  assert (Ed : digits d = (d, [])). { rewrite <- (app_nil_r d) at 1. now apply digits_app. }
  split; [|destruct He as [->| ->]; split; reflexivity].
  assert (K : forall c, starts2 101 69 (c :: g ++ d) = true -> exists x, exponent (c :: g ++ d) = Some x).
  { intros c Hc. unfold exponent. rewrite Hc. cbn [tl]. rewrite Es, Ed. destruct d; [congruence|]. eexists. reflexivity. }
  destruct He as [->| ->]; apply K; reflexivity.
Qed.
Lemma decimal_json s : json_number s -> exists neg n k, decimal s = Some (neg, n, k) /\ (0 <= n)%Z.
Proof.
  intros (sg & ip & fr & ex & -> & Hsg & Hip & Hfr & Hex).
  assert (S1 : exists neg, sg_ sg neg) by (destruct Hsg as [->| ->]; eexists; constructor). destruct S1 as [neg S1].
  assert (S2 : all_dig ip /\ ip <> []) by (destruct Hip as [->|[[Hn Hd] _]]; [split; [repeat constructor|discriminate]|now split]). destruct S2 as [S2 S2'].
  assert (S3 : exists d, fr_ fr d) by (destruct Hfr as [->|(d & -> & Hn & Hd)]; eexists; constructor; exact Hd). destruct S3 as [d S3].
  destruct (exponent_json ex Hex) as ((x & Hx) & Ht & Hdot). exists neg, (worth (ip ++ d)), (x - Z.of_nat (length d))%Z. split; [|apply worth_nonneg].
  unfold decimal. rewrite (sign_app sg neg) by first [assumption | destruct ip as [|c ip]; [congruence|left; now inversion S2]].
  rewrite (digits_app ip); [|assumption|destruct S3; [exact Ht|reflexivity]].
  assert (E : (if starts2 46 46 (fr ++ ex) then digits (tl (fr ++ ex)) else ([], fr ++ ex)) = (d, ex)).
  { destruct S3 as [|d Hd]; [cbn [app]; now rewrite Hdot|]. change (starts2 46 46 ((B "." ++ d) ++ ex)) with true. cbv iota. change (tl ((B "." ++ d) ++ ex)) with (d ++ ex). now apply digits_app. }
  match goal with |- context [if ?b then ?y else ?z] => replace (if b then y else z) with (d, ex) by (symmetry; exact E) end. rewrite Hx, number_worth. destruct ip; [congruence|reflexivity].
Qed.
Section Wire.
  Context (other : bytes -> option fl) (value : floatv -> fl) (print : fl -> floatv).
  Notation amarshal := (amarshal print).
  Lemma parsed s f : json_number s -> ParseFloat other s = Some f -> finite f /\ valid F64 f.
  Proof.
    intros J. destruct (decimal_json s J) as (neg & n & k & E & Hn). unfold ParseFloat. rewrite E. unfold round10.
    pose proof (round64 neg (n * 10 ^ Z.max 0 k) (bottom k) (ten_nonneg n k Hn) (bottom_pos k)) as R. fold (bottom k).
    destruct (round F64 neg (n * 10 ^ Z.max 0 k) (bottom k)) as [b m e|b|]; [|discriminate|tauto]. intros [= <-]. destruct R as (_ & _ & R1 & R2 & _). now split.
  Qed.
  Lemma printed : prints print -> forall f, finite f -> valid F64 f -> json_number (f_json (print f)) /\ ParseFloat other (f_json (print f)) = Some f.
  Proof.
    intros P f Ff Vf. destruct (P f Ff Vf) as (sci & neg & d & dp & -> & Hd & Hs). pose proof (json_text_good sci neg d dp Hd) as G. split; [apply G|]. exact (text_read other _ neg d dp f G Hs).
  Qed.
  (* an any as it comes from JSON, written *)
  Definition again (v : jval) : node := amarshal (native other value (fromNative v)).
  Lemma again_arr l : again (JArr l) = NList (map again l).
  Proof. unfold again. cbn. now rewrite !map_map. Qed.
  Lemma again_obj l : again (JObj l) = NMap (map (fun e => (fst e, again (snd e))) l).
  Proof. unfold again. cbn. rewrite !map_map. reflexivity. Qed.
  Lemma again_good (P : prints print) v : good_node (fromNative v) -> convertible other v -> good_node (again v) /\ ndepth (again v) = ndepth (fromNative v).
  Proof.
    induction v as [| |s|s|l Hl|l Hl] using JsonParse.jval_ind2; intros G C; try (split; [exact G|reflexivity]).
    - cbn in *. unfold again. cbn. destruct (ParseFloat other s) as [f|] eqn:E; [|congruence]. destruct (parsed s f G E) as [Ff Vf]. split; [|reflexivity]. cbn. now apply printed.
    - rewrite again_arr. cbn in G, C |- *. revert G C. induction Hl as [|x l Hx Hl IH]; cbn; [auto|]. intros [G1 G2] [C1 C2]. destruct (Hx G1 C1) as [A1 A2]. destruct (IH G2 C2) as [B1 B2]. injection B2 as B2. now rewrite A2, B2.
    - rewrite again_obj. cbn in G, C |- *. destruct G as [N G]. rewrite !map_map in *. cbn in *.
      assert (X : fold_right (fun e P => valid_utf8 (fst e) = true /\ good_node (snd e) /\ P) True (map (fun e => (fst e, again (snd e))) l) /\
        fold_right (fun e m => Nat.max (ndepth (snd e)) m) 0 (map (fun e => (fst e, again (snd e))) l) = fold_right (fun e m => Nat.max (ndepth (snd e)) m) 0 (map (fun e => (fst e, fromNative (snd e))) l)).
      { clear N. revert G C. induction Hl as [|x l Hx Hl IH]; cbn; [auto|]. intros (G0 & G1 & G2) [C1 C2]. destruct (Hx G1 C1) as [A1 A2]. destruct (IH G2 C2) as [B1 B2]. now rewrite A2, B2. }
      destruct X as [X1 X2]. rewrite X2. auto.
  Qed.
  Lemma again_same (P : prints print) v : good_node (fromNative v) -> convertible other v -> forall w, reads_as (again v) (fromNative w) -> same other v w.
  Proof.
    induction v as [| |s|s|l Hl|l Hl] using JsonParse.jval_ind2; intros G C w R.
    - inversion R as [E1 E2| | | | | | | | | |]. destruct w; try discriminate. constructor.
    - inversion R as [|b' E1 E2| | | | | | | | |]. destruct w; try discriminate. cbn in *. injection E2 as <-. constructor.
    - unfold again in R. cbn in *. destruct (ParseFloat other s) as [f|] eqn:E; [|congruence]. destruct (parsed s f G E) as [Ff Vf]. cbn in R. inversion R as [| | |f' E1 E2| | | | | | |]. destruct w; try discriminate. cbn in E2. injection E2 as <-. apply (same_num other s _ f E). now apply printed.
    - inversion R as [| | | | |s' E1 E2| | | | |]. destruct w; try discriminate. cbn in *. injection E2 as <-. constructor.
    - rewrite again_arr in R. inversion R as [| | | | | | | |a b F E1 E2| |]. subst. destruct w as [| | | |ws|]; try discriminate. cbn in E2. injection E2 as ->. constructor. cbn in G, C. clear R. revert ws G C F.
      induction Hl as [|x l Hx Hl IH]; intros ws G C F; destruct ws as [|w ws]; cbn in F; inversion F as [|? ? ? ? F1 F2]; subst; constructor; cbn in G, C; destruct G, C; auto.
    - rewrite again_obj in R. inversion R as [| | | | | | | | |a p b Pm F E1 E2|]. subst. destruct w as [| | | | |ws]; try discriminate. cbn in E2. injection E2 as ->. cbn in G, C. destruct G as [_ G].
      symmetry in Pm. apply Permutation_map_inv in Pm as (l2 & -> & P2). apply (same_obj other l l2 ws P2).
      assert (A : Forall (fun e => forall w, reads_as (again (snd e)) (fromNative w) -> same other (snd e) w) l).
      { clear -Hl G C. revert G C. induction Hl as [|x l Hx Hl IH]; cbn; [constructor|]. intros (G0 & G1 & G2) [C1 C2]. constructor; auto. }
      rewrite P2 in A. clear -A F. revert ws F. induction A as [|x l2 Hx A IH]; intros ws F; destruct ws as [|w ws]; cbn in F; inversion F as [|? ? ? ? [F1 F2] F3]; subst; constructor; auto.
  Qed.
  Lemma mget_map {X Y} (f : X -> Y) (l : list (bytes * X)) k : mget beqb (map (fun e => (fst e, f (snd e))) l) k = option_map f (mget beqb l k).
  Proof. induction l as [|[a x] l IH]; cbn; [reflexivity|]. destruct (beqb k a); [reflexivity|exact IH]. Qed.
  Lemma mget_fold (l : list (bytes * node)) k n : mget beqb l k = Some n -> fold_right (fun e P => valid_utf8 (fst e) = true /\ good_node (snd e) /\ P) True l -> good_node n /\ ndepth n <= fold_right (fun e m => Nat.max (ndepth (snd e)) m) 0 l.
  Proof.
    induction l as [|[a x] l IH]; cbn; [discriminate|]. destruct (beqb k a); [intros [= ->] (_ & G & _); split; [exact G|lia]|]. intros E (_ & _ & G). destruct (IH E G). split; [assumption|lia].
  Qed.
End Wire.

(* ---- digits that are exact: there is a printer ---- *)
Section Exact.
  Local Open Scope Z_scope.
  Definition exact_digits (m e : Z) : bytes * Z :=
    let n := if 0 <=? e then m * 2 ^ e else m * 5 ^ (- e) in
    if n =? 0 then ([], 0) else (dec (Z.to_N n), Z.of_nat (length (dec (Z.to_N n))) + Z.min 0 e).
  Definition exact_print (f : fl) : floatv :=
    match f with FFin neg m e => Floatv [] [] (json_text false neg (fst (exact_digits m e)) (snd (exact_digits m e))) | _ => Floatv [] [] [] end.
  Lemma worth_lt s : all_dig s -> worth s < 10 ^ Z.of_nat (length s).
  Proof.
    induction 1 as [|c s Hc Hs IH]; cbn [worth length]; [reflexivity|]. rewrite pow10_S. assert (Z.of_N (dval c) <= 9). { apply digit_code in Hc. unfold dval. lia. } nia.
  Qed.
  Lemma worth_ge c s : is_digit c = true -> c <> chr 48 -> 10 ^ Z.of_nat (length s) <= worth (c :: s).
  Proof.
    intros Hc Hn. cbn [worth]. pose proof (worth_nonneg s). pose proof (pow10_pos (length s)). assert (1 <= Z.of_N (dval c)); [|nia].
    apply digit_code in Hc. assert (code c <> 48%N). { intros E. apply Hn. rewrite <- E, chr_code. reflexivity. } unfold dval. lia.
  Qed.
  Lemma exact_prints : prints exact_print.
  Proof.
    intros [neg m e| |] Ff Vf; [|easy|easy]. exists false, neg, (fst (exact_digits m e)), (snd (exact_digits m e)). split; [reflexivity|].
    assert (V := Vf). destruct Vf as (Hm & He & _). cbn [F64 f_prec f_emin f_emax] in Hm, He.
    set (n := if 0 <=? e then m * 2 ^ e else m * 5 ^ (- e)).
    assert (Hn0 : 0 <= n). { unfold n. destruct (0 <=? e); apply Z.mul_nonneg_nonneg; try lia; apply Z.pow_nonneg; lia. }
    assert (Hn1 : n < 10 ^ 900).
    { unfold n. destruct (Z.leb_spec 0 e) as [H|H].
      - apply Z.le_lt_trans with (2 ^ 53 * 2 ^ 971); [|vm_compute; reflexivity]. apply Z.mul_le_mono_nonneg; [lia|lia|apply Z.pow_nonneg; lia|apply Z.pow_le_mono_r; lia].
      - apply Z.le_lt_trans with (2 ^ 53 * 5 ^ 1074); [|vm_compute; reflexivity]. apply Z.mul_le_mono_nonneg; [lia|lia|apply Z.pow_nonneg; lia|apply Z.pow_le_mono_r; lia]. }
    assert (Hn2 : n <> 0 -> e <= -1000 -> 5 ^ 1000 <= n).
    { intros Hz H. unfold n in *. destruct (Z.leb_spec 0 e) as [H1|H1]; [lia|]. assert (1 <= m). { destruct (Z.eq_dec m 0) as [->|]; [now rewrite Z.mul_0_l in Hz|lia]. }
      apply Z.le_trans with (1 * 5 ^ (- e)); [rewrite Z.mul_1_l; apply Z.pow_le_mono_r; lia|]. apply Z.mul_le_mono_nonneg_r; [apply Z.pow_nonneg|]; lia. }
    assert (Q : shown (fst (exact_digits m e)) (snd (exact_digits m e)) /\ worth (fst (exact_digits m e)) = n /\ (n = 0 \/ snd (exact_digits m e) - Z.of_nat (length (fst (exact_digits m e))) = Z.min 0 e) /\ (n = 0 -> exact_digits m e = ([], 0))).
    { unfold exact_digits. fold n. destruct (Z.eqb_spec n 0) as [E|E]; cbn [fst snd].
      - split; [split; [constructor|split; [discriminate|split; [reflexivity|lia]]]|]. split; [rewrite E; reflexivity|]. split; [now left|reflexivity].
      - set (d := dec (Z.to_N n)). assert (Hd : all_dig d) by apply dec_digits. assert (Hw : worth d = n). { unfold d. rewrite dec_worth, Z2N.id by exact Hn0. reflexivity. }
        assert (Hh : exists c t, d = c :: t /\ is_digit c = true /\ c <> chr 48).
        { destruct (dec_head (Z.to_N n)) as (x & t & Ex & Hx & Hx0). exists (digit x), t. split; [exact Ex|]. split; [unfold d in Hd; rewrite Ex in Hd; now inversion Hd|].
          intros Ec. assert (x = 0%N). { destruct (N.eq_dec x 0) as [|Nx]; [assumption|]. exfalso. unfold digit in Ec. apply (f_equal code) in Ec. rewrite !code_chr in Ec by lia. lia. }
          destruct (Hx0 H) as [Hz _]. apply E. lia. }
        destruct Hh as (c & t & Ed & Hc & Hc0).
        assert (L1 : Z.of_nat (length d) < 1000).
        { destruct (Z.lt_ge_cases (Z.of_nat (length d)) 1000) as [|L]; [assumption|]. exfalso. pose proof (worth_ge c t Hc Hc0) as W. rewrite <- Ed, Hw in W.
          assert (Hl : 999 <= Z.of_nat (length t)). { rewrite Ed in L. cbn [length] in L. lia. } assert (10 ^ 900 <= 10 ^ Z.of_nat (length t)) by (apply Z.pow_le_mono_r; lia). lia. }
        assert (L2 : -1000 < Z.of_nat (length d) + Z.min 0 e).
        { destruct (Z.lt_ge_cases (-1000) (Z.of_nat (length d) + Z.min 0 e)) as [|L]; [assumption|]. exfalso. assert (He2 : e <= -1000) by lia. specialize (Hn2 E He2). pose proof (worth_lt d Hd) as W. rewrite Hw in W.
          assert (10 ^ Z.of_nat (length d) <= 10 ^ 74) by (apply Z.pow_le_mono_r; lia). assert (10 ^ 74 < 5 ^ 1000) by (vm_compute; reflexivity). lia. }
        split; [split; [exact Hd|split; [rewrite Ed; change (Some c <> Some (chr 48)); congruence|split; [intros X; rewrite Ed in X; discriminate|lia]]]|]. split; [exact Hw|]. split; [right; lia|intros X; congruence]. }
    destruct Q as (Q1 & Q2 & Q3 & Q4). split; [exact Q1|]. unfold shows. rewrite Q2. set (k := snd (exact_digits m e) - Z.of_nat (length (fst (exact_digits m e)))) in *. clearbody k.
    assert (Eq : equals F64 (top neg n k) (bottom k) (FFin neg m e)).
    { split; [exact Logic.I|]. unfold away, units, top, bottom. cbn [F64 f_emin]. apply Z.abs_0_iff. change (- -1074) with 1074. replace (e - -1074) with (e + 1074) by lia.
      assert (K : m * 2 ^ (e + 1074) * 10 ^ Z.max 0 (- k) = n * 10 ^ Z.max 0 k * 2 ^ 1074).
      { destruct Q3 as [Hz|Hk].
        - assert (m = 0). { unfold n in Hz. destruct (Z.leb_spec 0 e); apply Z.mul_eq_0 in Hz as [|Hz]; auto; exfalso; [pose proof (Z.pow_pos_nonneg 2 e ltac:(lia) ltac:(lia))|pose proof (Z.pow_pos_nonneg 5 (- e) ltac:(lia) ltac:(lia))]; lia. }
          rewrite Hz, H. lia.
        - unfold n. destruct (Z.leb_spec 0 e) as [H|H].
          + replace (Z.max 0 (- k)) with 0 by lia. replace (Z.max 0 k) with 0 by lia. rewrite Z.pow_add_r by lia. change (10 ^ 0) with 1. ring.
          + replace (Z.max 0 (- k)) with (- e) by lia. replace (Z.max 0 k) with 0 by lia. change (10 ^ 0) with 1. assert (E2 : 2 ^ 1074 = 2 ^ (e + 1074) * 2 ^ (- e)) by (rewrite <- Z.pow_add_r by lia; f_equal; lia). rewrite E2. clear E2.
            change 10 with (2 * 5) at 1. rewrite (Z.pow_mul_l 2 5). ring. }
      destruct neg; [|lia]. rewrite !Z.mul_opp_l. lia. }
    pose proof (bottom_pos k) as Bk. split; [reflexivity|]. split.
    - exact (equals_small F64 ltac:(reflexivity) ltac:(reflexivity) ltac:(reflexivity) _ _ _ Bk V Eq).
    - apply equals_nearest; try reflexivity; auto.
  Qed.
End Exact.

(* ---- C147: what was set is got back ---- *)
Section Got.
  Context (other : bytes -> option fl) (value : floatv -> fl) (print : fl -> floatv).
  (* The JSON that is got says the same as the JSON that was set, whatever is done in between to other keys, provided that the numbers are float64. *)
  Theorem C147_got_partial : prints print -> forall (body : bytes) (vs : list (bytes * jval)) (k : bytes) (v : jval),
    says body (JObj vs) -> mget beqb vs (B "key") = Some (JStr k) -> mget beqb vs (B "value") = Some v -> convertible other v ->
    exists c, read_set other value body = Some c /\
      forall (s : store) (cs : list call) (short indent : bool), last_set k cs = None ->
        exists j ws w, reply print short indent (Get k) (fst (do (snd (runs s (c :: cs))) (Get k))) = Ok j /\ says j (JObj ws) /\
          mget beqb ws (B "key") = Some (JStr k) /\ mget beqb ws (B "value") = Some w /\ same other v w.
  Proof.
    intros P body vs k v Hb Hk Hv C. unfold says in Hb. cbn [fromNative] in Hb. exists (Set_ k (into_any other value (fromNative v))).
    assert (Hg := decode_good_node _ _ Hb). destruct Hg as [[_ G] D].
    assert (Hn : mget beqb (map (fun e => (fst e, fromNative (snd e))) vs) (B "value") = Some (fromNative v)) by (rewrite (mget_map fromNative), Hv; reflexivity).
    destruct (mget_fold _ _ _ Hn G) as [Gv Dv].
    assert (Hkn : mget beqb (map (fun e => (fst e, fromNative (snd e))) vs) (B "key") = Some (NStr k)) by (rewrite (mget_map fromNative), Hk; reflexivity).
    destruct (mget_fold _ _ _ Hkn G) as [Gk _].
    split. { unfold read_set, members. rewrite Hb. unfold key_of, value_of. rewrite Hkn, Hn. reflexivity. }
    intros s cs short indent Hc. cbn [do fst]. rewrite runs_look. unfold current. cbn [last_set]. rewrite Hc, beqb_refl.
    assert (Ei : into_any other value (fromNative v) = native other value (fromNative v)) by (destruct v; reflexivity). rewrite Ei. unfold reply. cbn [call_key].
    change (amarshal print (native other value (fromNative v))) with (again other value print v).
    destruct (again_good other value print P v Gv C) as [Ga Da].
    assert (Dn : (N.of_nat (ndepth (NMap [(B "key", NStr k); (B "value", again other value print v)])) <= 10000)%N).
    { cbn [ndepth fold_right snd] in *. rewrite Da. lia. }
    destruct (encode_decode short indent _ ltac:(idtac; refine (_ : good_node (NMap [(B "key", NStr k); (B "value", again other value print v)])); cbn; split; [repeat constructor; cbn; intuition discriminate|auto]) Dn) as (j & m & E1 & E2 & R).
    assert (M : exists w0, m = fromNative w0). { unfold Decode in E2. destruct j; [discriminate|]. destruct (pvalue _ _ _) as [[w0 r]|]; [|discriminate]. exists w0. now injection E2 as <-. }
    destruct M as (w0 & ->). inversion R as [| | | | | | | | |a p b Pm F E3 E4|]. subst. destruct w0 as [| | | | |ws]; try discriminate. cbn in E4. injection E4 as ->.
    apply Permutation_length_2_inv in Pm.
    assert (Q : mget beqb (map (fun e => (fst e, fromNative (snd e))) ws) (B "key") = Some (NStr k) /\ exists x, mget beqb (map (fun e => (fst e, fromNative (snd e))) ws) (B "value") = Some x /\ reads_as (again other value print v) x).
    { destruct Pm as [->| ->]; inversion F as [|? b1 ? l1 [F1 F2] F3 Z1 Z2]; subst; inversion F3 as [|? b2 ? l2 [F4 F5] F6 Z3 Z4]; subst; inversion F6; subst; destruct b1 as [k1 n1], b2 as [k2 n2]; cbn [fst snd] in *; subst k1 k2.
      - inversion F2; subst. split; [reflexivity|]. exists n2. split; [reflexivity|exact F5].
      - inversion F5; subst. split; [reflexivity|]. exists n1. split; [reflexivity|exact F2]. }
    destruct Q as (Qk & x & Qv & Rx). rewrite (mget_map fromNative) in Qk, Qv. destruct (mget beqb ws (B "key")) as [wk|] eqn:Ek; [|discriminate]. destruct (mget beqb ws (B "value")) as [w|] eqn:Ew; [|discriminate].
    cbn in Qk, Qv. injection Qk as Qk. injection Qv as <-. destruct wk; try discriminate. cbn in Qk. injection Qk as ->.
    exists j, ws, w. split; [exact E1|]. split; [exact E2|]. split; [exact Ek|]. split; [exact Ew|]. exact (again_same other value print P v Gv C w Rx).
  Qed.
  (* A number that is too big for a float64 is got back as a text, and an integer of more than 53 bits as another one. *)
  Theorem C147_got_refuted :
    (exists c j, read_set other value (B "{""key"":""k"",""value"":1e400}") = Some c /\
      reply print true false (Get (B "k")) (fst (do (snd (runs [] [c])) (Get (B "k")))) = Ok j /\ j = B "{""key"":""k"",""value"":""1e400""}") /\
    (exists c c', read_set other value (B "{""key"":""k"",""value"":9007199254740993}") = Some c /\ read_set other value (B "{""key"":""k"",""value"":9007199254740992}") = Some c' /\ c = c').
  Proof. split; (eexists; eexists; split; [vm_compute; reflexivity|split; vm_compute; reflexivity]). Qed.
End Got.
Print Assumptions C147_map.
Print Assumptions C147_got_partial.
Print Assumptions C147_got_refuted.

Example C147_ex : prints exact_print /\
  let body := B "{""key"":""k"",""value"":{""b"":[1.50,null],""a"":""x""}}" in let v := JObj [(B "b", JArr [JNum (B "1.50"); JNull]); (B "a", JStr (B "x"))] in
  says body (JObj [(B "key", JStr (B "k")); (B "value", v)]) /\ convertible (fun _ => None) v /\
  exists c, read_set (fun _ => None) (fun _ => FNaN) body = Some c /\
    reply exact_print true false (Get (B "k")) (fst (do (snd (runs [] [c; Set_ (B "other") ANil])) (Get (B "k")))) = Ok (B "{""key"":""k"",""value"":{""a"":""x"",""b"":[1.5" ++ repeat "0"%char 51 ++ B ",null]}}").
Proof.
  split; [exact exact_prints|]. split; [vm_compute; reflexivity|]. split; [vm_compute; intuition discriminate|]. eexists. split; [vm_compute; reflexivity|]. vm_compute. reflexivity.
Qed.
