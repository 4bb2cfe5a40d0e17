(* Theorems about floats: C113, C114, C115. *)
From Coq Require Import Bool Ascii String Arith NArith ZArith Lia List.
From Verif Require Import Prelude PreludeFacts Utf8Model DecModel DurModel DurProofs EncModel JsonModel JsonSpec JsonFacts JsonProofs JsonParse FlModel FlSpec FlRound FlText FlWrite FlProofs FlRead.
Import ListNotations.
Local Open Scope Z_scope.

(* ---- C113: a float survives marshalling ---- *)
(* Whatever digits are written, in either form, if they are nearer to f than to any other float, then f is read back. *)
Theorem C113_float64 : forall (other : bytes -> option fl) (short indent sci neg : bool) (d : bytes) (dp : Z) (f : fl) (go str : bytes),
  shown d dp -> shows F64 neg d dp f ->
  exists j s, Encode short indent (NFloat (Floatv go str (json_text sci neg d dp))) = Ok j /\ Decode j = Good (Some (NDigits s)) /\
    into64 other (NumDigits s) = Some f.
Proof. intros. now apply (float_json other). Qed.
Print Assumptions C113_float64.

(* A float32 is written as the float64 it is equal to, and read back as itself. *)
Theorem C113_float32 : forall (other : bytes -> option fl) (f : fl), finite f -> valid F32 f ->
  exists w, widened f w /\ into32 other (NumFloat w) = Some f /\
  forall (short indent sci neg : bool) (d : bytes) (dp : Z) (go str : bytes), shown d dp -> shows F64 neg d dp w ->
    exists j s, Encode short indent (NFloat (Floatv go str (json_text sci neg d dp))) = Ok j /\ Decode j = Good (Some (NDigits s)) /\
      into32 other (NumDigits s) = Some f.
Proof.
  intros other f Ff Vf. destruct (widen f Ff Vf) as [w Hw]. exists w. split; [exact Hw|]. unfold into32. cbn [Float64]. rewrite (wide_back f w Ff Vf Hw). split; [reflexivity|].
  intros short indent sci neg d dp go str Hd Hs. destruct (float_json other short indent sci neg d dp w go str Hd Hs) as (j & s & E1 & E2 & E3). exists j, s. split; [exact E1|]. split; [exact E2|]. rewrite E3. now rewrite (wide_back f w Ff Vf Hw).
Qed.
Print Assumptions C113_float32.

(* With omitempty only zeros are left out. *)
Theorem C113_omitted : forall (f : fl), keeps true f = false -> exists neg e, f = FFin neg 0 e.
Proof. intros [neg m e| |]; cbn; try discriminate. destruct (Z.eqb_spec m 0) as [->|]; [eauto|discriminate]. Qed.
Print Assumptions C113_omitted.

(* But the sign of a zero is lost then: the field is left out, and reads as the other zero. *)
Theorem C113_refuted : exists f : fl, valid F64 f /\ finite f /\ keeps true f = false /\ f <> FFin false 0 (-1074) /\
  forall sci : bool, ParseFloat (fun _ => None) (json_text sci true [] 0) = Some f.
Proof. exists (FFin true 0 (-1074)). repeat split; try discriminate. intros []; vm_compute; reflexivity. Qed.
Print Assumptions C113_refuted.

Lemma shows_round F neg d dp f : 1 < f_prec F -> f_emin F < 0 -> 0 < f_emax F -> let k := dp - Z.of_nat (length d) in
  round F neg (worth d * 10 ^ Z.max 0 k) (bottom k) = f -> finite f -> shows F neg d dp f.
Proof.
  intros H1 H2 H3 k Ef Hf. pose proof (round_nearest F H1 H2 H3 neg (worth d * 10 ^ Z.max 0 k) (bottom k) (ten_nonneg _ _ (worth_nonneg d)) (bottom_pos k)) as R. unfold shows. fold k. rewrite top_sgn. rewrite Ef in R.
  destruct f as [b m e|b|]; [|easy|easy]. destruct R as (-> & R). split; [reflexivity|exact R].
Qed.
Example C113_ex : shown (B "1") 0 /\ shows F64 false (B "1") 0 (FFin false 7205759403792794 (-56)) /\
  json_text false false (B "1") 0 = B "0.1" /\ json_text true false (B "1") 0 = B "1e-1" /\
  shown (B "17976931348623157") 309 /\ shows F64 true (B "17976931348623157") 309 (FFin true 9007199254740991 971) /\
  json_text true true (B "17976931348623157") 309 = B "-1.7976931348623157e+308" /\
  (* a float32 *)
  finite (FFin false 13421773 (-27)) /\ valid F32 (FFin false 13421773 (-27)) /\ widened (FFin false 13421773 (-27)) (FFin false 7205759511166976 (-56)) /\
  shows F64 false (B "10000000149011612") 0 (FFin false 7205759511166976 (-56)) /\ keeps true (FFin true 0 (-1074)) = false.
Proof.
  assert (S1 : shown (B "1") 0) by (split; [repeat constructor|]; split; [vm_compute; discriminate|]; split; [discriminate|lia]).
  assert (S2 : shown (B "17976931348623157") 309) by (split; [repeat constructor|]; split; [vm_compute; discriminate|]; split; [discriminate|lia]).
  split; [exact S1|]. split.
  { apply shows_round; [reflexivity..|vm_compute; reflexivity|exact Logic.I]. }
  split; [vm_compute; reflexivity|]. split; [vm_compute; reflexivity|]. split; [exact S2|]. split.
  { apply shows_round; [reflexivity..|vm_compute; reflexivity|exact Logic.I]. }
  split; [vm_compute; reflexivity|]. split; [exact Logic.I|]. split; [vm_compute; intuition congruence|]. split.
  { split; [exact Logic.I|]. split; [vm_compute; intuition congruence|]. split; [reflexivity|vm_compute; reflexivity]. }
  split; [|reflexivity].
  apply shows_round; [reflexivity..|vm_compute; reflexivity|exact Logic.I].
Qed.

(* ---- C114: a number is read as the nearest float ---- *)
(* A decimal number is read as the float64 nearest to it, with its sign; it is an error exactly if it is too big. *)
Theorem C114_float64 : forall (other : bytes -> option fl) (s : bytes) (neg : bool) (n k : Z), numeral s neg n k ->
  (into64 other (NumDigits s) = None <-> too_big F64 (top neg n k) (bottom k)) /\
  forall f, into64 other (NumDigits s) = Some f -> minus f = neg /\ nearest F64 (top neg n k) (bottom k) f.
Proof.
  intros other s neg n k H. pose proof (parse_numeral other s neg n k H) as P. unfold into64. cbn [Float64]. destruct (ParseFloat other s) as [g|].
  - destruct P as (P1 & P2 & P3). split; [split; [discriminate|tauto]|]. intros f [= <-]. auto.
  - split; [tauto|discriminate].
Qed.
Print Assumptions C114_float64.

(* There is one such float. *)
Theorem C114_one : forall (x d : Z) (f g : fl), 0 < d ->
  (nearest F64 x d f -> nearest F64 x d g -> minus f = minus g -> f = g) /\ (nearest F32 x d f -> nearest F32 x d g -> minus f = minus g -> f = g).
Proof. intros x d f g Hd. split; apply nearest_one; try reflexivity; assumption. Qed.
Print Assumptions C114_one.

(* The numbers of JSON are decimal numbers, unless the exponent is 100000 or more. *)
Theorem C114_json : forall (s : bytes), json_number s ->
  (exists neg n k, numeral s neg n k) \/ exists a e g d, s = a ++ e ++ g ++ d /\ all_dig d /\ 100000 <= worth d.
Proof. exact json_numeral. Qed.
Print Assumptions C114_json.

(* A decimal number that is a float64 is read as that one. *)
Theorem C114_exact : forall (other : bytes -> option fl) (s : bytes) (neg : bool) (n k : Z) (f : fl), numeral s neg n k -> valid F64 f ->
  minus f = neg -> equals F64 (top neg n k) (bottom k) f -> into64 other (NumDigits s) = Some f.
Proof.
  intros other s neg n k f H V Hs E. apply (parse_exact other s neg n k); auto.
  - apply (equals_small F64 ltac:(reflexivity) ltac:(reflexivity) ltac:(reflexivity) _ _ f (bottom_pos k) V E).
  - apply equals_nearest; try reflexivity; auto. apply bottom_pos.
Qed.
Print Assumptions C114_exact.

(* An int64 is read as the nearest float64, which is equal to it up to 2^53. *)
Theorem C114_integer : forall (other : bytes -> option fl) (z : Z), - 2 ^ 63 <= z < 2 ^ 63 ->
  exists f, into64 other (NumInt z) = Some f /\ nearest F64 z 1 f /\ (Z.abs z <= 2 ^ 53 -> equals F64 z 1 f).
Proof.
  intros other z Hz. unfold into64. cbn [Float64]. unfold of_int. pose proof (round64 (z <? 0) (Z.abs z) 1 ltac:(lia) ltac:(lia)) as R.
  assert (Es : sgn (z <? 0) (Z.abs z) = z) by (unfold sgn; destruct (Z.ltb_spec z 0); lia). rewrite Es in R.
  assert (NB : ~ too_big F64 z 1).
  { unfold too_big. change (f_prec F64) with 53. change (f_emax F64) with 971. intros X. assert (Y : Z.abs z <= 2 ^ 63) by lia. assert (W : 2 ^ 63 < (2 ^ (53 + 1) - 1) * 2 ^ (971 - 1) * 1) by (vm_compute; reflexivity). lia. }
  destruct (round F64 (z <? 0) (Z.abs z) 1) as [b m e|b|]; [|tauto|tauto]. destruct R as (-> & _ & N). exists (FFin (z <? 0) m e). split; [reflexivity|]. split; [exact N|]. intros Hsm.
  (* z itself is a float *)
  assert (G : exists g, finite g /\ valid F64 g /\ equals F64 z 1 g).
  { destruct (Z.eq_dec z 0) as [->|Hz0].
    - exists (FFin false 0 (-1074)). split; [exact Logic.I|]. split; [vm_compute; intuition congruence|]. split; [exact Logic.I|reflexivity].
    - assert (Hpos : 0 < Z.abs z) by lia. pose proof (Z.log2_spec _ Hpos) as [L1 L2]. rewrite <- Z.add_1_r in L2. destruct (Z.eq_dec (Z.abs z) (2 ^ 53)) as [E53|N53].
      + exists (FFin (z <? 0) (2 ^ 52) 1). split; [exact Logic.I|]. split; [vm_compute; intuition congruence|]. split; [exact Logic.I|]. unfold away, units. assert (Ez : z = if z <? 0 then - 2 ^ 53 else 2 ^ 53) by (destruct (Z.ltb_spec z 0); lia). revert Ez. destruct (z <? 0); intros ->; vm_compute; reflexivity.
      + assert (Hlog : 0 <= Z.log2 (Z.abs z) < 53). { split; [apply Z.log2_nonneg|]. apply Z.log2_lt_pow2; lia. }
        set (s := 52 - Z.log2 (Z.abs z)). assert (Hs : 0 <= s) by lia. pose proof (pow2_pos s Hs) as H2.
        assert (M1 : 2 ^ 52 <= Z.abs z * 2 ^ s). { replace 52 with (Z.log2 (Z.abs z) + s) by lia. rewrite Z.pow_add_r by lia. apply Z.mul_le_mono_nonneg_r; lia. }
        assert (M2 : Z.abs z * 2 ^ s < 2 ^ 53). { replace 53 with (Z.log2 (Z.abs z) + 1 + s) by lia. rewrite Z.pow_add_r by lia. apply Z.mul_lt_mono_pos_r; lia. }
        exists (FFin (z <? 0) (Z.abs z * 2 ^ s) (- s)). split; [exact Logic.I|]. split; [cbn [valid]; change (f_prec F64) with 53; change (f_emin F64) with (-1074); change (f_emax F64) with 971; change (53 - 1) with 52; lia|].
        split; [exact Logic.I|]. unfold away, units. change (f_emin F64) with (-1074).
        assert (E : 2 ^ s * 2 ^ (- s - -1074) = 2 ^ 1074) by (rewrite <- Z.pow_add_r by lia; f_equal; lia).
        assert (E1 : (if z <? 0 then - (Z.abs z * 2 ^ s) else Z.abs z * 2 ^ s) = z * 2 ^ s) by (destruct (Z.ltb_spec z 0); [rewrite Z.abs_neq by lia; ring|now rewrite Z.abs_eq by lia]).
        rewrite E1, <- (Z.mul_assoc z), E, Z.mul_1_r. change (- -1074) with 1074. rewrite Z.sub_diag. reflexivity. }
  destruct G as (g & Fg & Vg & Eg). split; [exact Logic.I|]. destruct N as (_ & _ & N). destruct (N g Fg Vg) as [N1 _]. destruct Eg as [_ Eg]. unfold away in *. lia.
Qed.
Print Assumptions C114_integer.

(* A float32 takes the float nearest to the float64, or infinity if that is too big, without an error. *)
Theorem C114_float32_partial : forall (other : bytes -> option fl) (x : num) (f : fl), into64 other x = Some f -> finite f -> valid F64 f ->
  exists g, into32 other x = Some g /\ minus g = minus f /\
    (finite g -> ~ too_big F32 (units F64 f) (2 ^ 1074) /\ nearest F32 (units F64 f) (2 ^ 1074) g) /\
    (~ finite g -> g = FInf (minus f) /\ too_big F32 (units F64 f) (2 ^ 1074)).
Proof.
  intros other x f E Ff Vf. unfold into32. unfold into64 in E. rewrite E. exists (to32 f). split; [reflexivity|]. pose proof (to32_ok f Ff Vf) as T.
  destruct (to32 f) as [b m e|b|]; [|destruct T as [-> T]|easy].
  - destruct T as (-> & T). split; [reflexivity|]. split; [auto|]. intros X. now elim X.
  - split; [reflexivity|]. split; [easy|]. auto.
Qed.
Print Assumptions C114_float32_partial.

(* ---- not exact ---- *)
(* 2^53 + 1 is read as 2^53, without an error. *)
Theorem C114_refuted : forall (other : bytes -> option fl),
  into64 other (NumInt (2 ^ 53 + 1)) = into64 other (NumInt (2 ^ 53)) /\ into64 other (NumDigits (B "9007199254740993")) = into64 other (NumDigits (B "9007199254740992")).
Proof. intros other. split; vm_compute; reflexivity. Qed.
Print Assumptions C114_refuted.

(* Infinity is read from a number, into a float32, without an error. *)
Theorem C114_float32_refuted : forall (other : bytes -> option fl), json_number (B "1e300") /\ into32 other (NumDigits (B "1e300")) = Some (FInf false).
Proof. intros other. split; [apply is_number_spec; reflexivity|vm_compute; reflexivity]. Qed.
Print Assumptions C114_float32_refuted.

Lemma numeral_by s neg ip fr d ex x t n k : sg_ s neg -> all_dig ip -> fr_ fr d -> ip ++ d <> [] -> ex_ ex x ->
  t = s ++ ip ++ fr ++ ex -> n = worth (ip ++ d) -> k = x - Z.of_nat (length d) -> numeral t neg n k.
Proof. intros. subst. now apply numeral_. Qed.
(* The float32 that is read need not be the nearest one: the number is rounded twice. *)
Definition twice_n : Z := 10 ^ 60 + 5 ^ 24 * 10 ^ 36 + 5 ^ 60.
Theorem C114_twice_refuted : forall (other : bytes -> option fl), exists (s : bytes) (g : fl), numeral s false twice_n (-60) /\ json_number s /\
  into32 other (NumDigits s) = Some g /\ ~ nearest F32 (top false twice_n (-60)) (bottom (-60)) g.
Proof.
  intros other. exists (dec (Z.to_N twice_n) ++ B "e-60"), (FFin false (2 ^ 23) (-23)).
  split; [|split; [|split]].
  - apply (numeral_by [] false (dec (Z.to_N twice_n)) [] [] (B "e-60") (-60)); [constructor| |constructor| | |reflexivity| |reflexivity].
    + apply DecFacts.dec_digits.
    + rewrite app_nil_r. apply DecFacts.dec_nonnil.
    + apply (ex_some (B "e") (B "-") true (B "60")); [now left|constructor|repeat constructor|discriminate|reflexivity].
    + rewrite app_nil_r, dec_worth. vm_compute. reflexivity.
  - apply is_number_spec. vm_compute. reflexivity.
  - vm_compute. reflexivity.
  - intros (_ & _ & N). destruct (N (FFin false (2 ^ 23 + 1) (-23)) Logic.I) as [N1 _]; [vm_compute; intuition congruence|]. vm_compute in N1. congruence.
Qed.
Print Assumptions C114_twice_refuted.

Example C114_ex : numeral (B "0.30") false 30 (-2) /\ (exists f, into64 (fun _ => None) (NumDigits (B "0.30")) = Some f /\ f = FFin false 5404319552844595 (-54)) /\
  numeral (B "-1E+400") true 1 400 /\ into64 (fun _ => None) (NumDigits (B "-1E+400")) = None /\
  equals F64 (top false 25 (-2)) (bottom (-2)) (FFin false (2 ^ 52) (-54)) /\ valid F64 (FFin false (2 ^ 52) (-54)).
Proof.
  split; [|split; [eexists; split; vm_compute; reflexivity|]].
  - apply (numeral_by [] false (B "0") (B ".30") (B "30") [] 0); try reflexivity; try discriminate; try (repeat constructor; fail).
  - split; [|split; [vm_compute; reflexivity|split; [split; [exact Logic.I|vm_compute; reflexivity]|vm_compute; intuition congruence]]].
    apply (numeral_by (B "-") true (B "1") [] [] (B "E+400") 400); try reflexivity; try discriminate; try (repeat constructor; fail).
    apply (ex_some (B "E") (B "+") false (B "400")); [now right|constructor|repeat constructor|discriminate|reflexivity].
Qed.

(* ---- C115: interfaces ---- *)
Section Any.
  Context (other : bytes -> option fl) (value : floatv -> fl).
  Lemma std_native v : forall x, std other v x -> native other value (fromNative v) = x.
  Proof.
    induction v as [| | | |l Hl|l Hl] using JsonParse.jval_ind2; intros x H; inversion H as [| |? f E| |? l' Hf|? l' Hf]; subst; cbn [fromNative native]; auto.
    - now rewrite E.
    - f_equal. clear H. revert l' Hf. induction Hl as [|y l Hy Hl IH]; intros l' Hf; inversion Hf; subst; cbn [map]; [reflexivity|]. f_equal; auto.
    - f_equal. clear H. revert l' Hf. induction Hl as [|y l Hy Hl IH]; intros l' Hf; inversion Hf as [|? z ? ? [E1 E2]]; subst; cbn [map]; [reflexivity|]. f_equal; auto. destruct z as [zk zv]. cbn [fst snd] in *. now rewrite (Hy zv E2), E1.
  Qed.
  Lemma native_std v : convertible other v -> std other v (native other value (fromNative v)).
  Proof.
    induction v as [| | | |l Hl|l Hl] using JsonParse.jval_ind2; intros H; cbn [fromNative native convertible] in *; try constructor.
    - destruct (ParseFloat other s) as [f|] eqn:E; [now constructor|congruence].
    - revert H. induction Hl as [|y l Hy Hl IH]; intros H; cbn [map fold_right] in *; constructor; [now apply Hy|now apply IH].
    - revert H. induction Hl as [|y l Hy Hl IH]; intros H; cbn [map fold_right] in *; constructor; [|now apply IH]. split; [reflexivity|]. now apply Hy.
  Qed.
  Lemma std_convertible v : forall x, std other v x -> convertible other v.
  Proof.
    induction v as [| | | |l Hl|l Hl] using JsonParse.jval_ind2; intros x H; inversion H as [| |? f E| |? l' Hf|? l' Hf]; subst; cbn [convertible]; auto.
    - congruence.
    - clear H. revert l' Hf. induction Hl as [|y l Hy Hl IH]; intros l' Hf; inversion Hf; subst; cbn [fold_right]; [exact Logic.I|]. split; eauto.
    - clear H. revert l' Hf. induction Hl as [|y l Hy Hl IH]; intros l' Hf; inversion Hf as [|? z ? ? [E1 E2]]; subst; cbn [fold_right]; [exact Logic.I|]. split; eauto.
  Qed.
End Any.
(* A decoded text, in an interface, is what encoding/json would put there, provided all numbers can be converted; otherwise encoding/json fails. *)
Theorem C115_partial : forall (other : bytes -> option fl) (value : floatv -> fl) (data : bytes) (n : node), Decode data = Good (Some n) ->
  exists v, n = fromNative v /\ (convertible other v -> std other v (into_any other value n)) /\
    (forall x, std other v x -> x = into_any other value n) /\ (~ convertible other v -> forall x, ~ std other v x).
Proof.
  intros other value data n H. unfold Decode in H. destruct data as [|c s]; [discriminate|]. destruct (pvalue _ _ _) as [[v r]|]; [|discriminate]. injection H as <-. exists v. split; [reflexivity|].
  assert (E : into_any other value (fromNative v) = native other value (fromNative v)) by (destruct v; reflexivity). rewrite E. split; [apply native_std|]. split; [intros x Hx; symmetry; now apply std_native|]. intros Hn x Hx. apply Hn. exact (std_convertible other v x Hx).
Qed.
Print Assumptions C115_partial.

(* A number that is too big for a float64 becomes a text; encoding/json fails. *)
Theorem C115_refuted : forall (other : bytes -> option fl) (value : floatv -> fl), exists (data : bytes) (n : node),
  Decode data = Good (Some n) /\ into_any other value n = AText (B "1e400") /\ forall v x, n = fromNative v -> ~ std other v x.
Proof.
  intros other value. exists (B "1e400"), (NDigits (B "1e400")). split; [vm_compute; reflexivity|].
  assert (P : ParseFloat other (B "1e400") = None) by (vm_compute; reflexivity).
  split; [unfold into_any; cbn [native]; now rewrite P|]. intros v x E Hx. destruct v; try discriminate E. injection E as E1. change (B "1e400" = s) in E1. rewrite E1 in P. clear E1. inversion Hx as [| |? f E2| | |]. rewrite P in E2. discriminate E2.
Qed.
Print Assumptions C115_refuted.

(* What Marshal gives, read into an interface directly, is not what is read from its JSON: integers are int64, and a struct in a struct has the names
   of its fields for keys, though the outer one has those of JSON. *)
Definition nested : node := NPairs [((B "A", B "a"), NPairs [((B "B", B "b"), NBool true)]); ((B "N", B "n"), NInt 1)].
Theorem C115_direct_refuted : forall (other : bytes -> option fl) (value : floatv -> fl),
  into_any other value nested = AMap [(B "a", AMap [(B "B", ABool true)]); (B "n", AInt 1)] /\
  exists j m, Encode true false nested = Ok j /\ Decode j = Good (Some m) /\
    into_any other value m = AMap [(B "a", AMap [(B "b", ABool true)]); (B "n", AFloat (FFin false (2 ^ 52) (-52)))].
Proof. intros other value. split; [reflexivity|]. eexists. eexists. split; [reflexivity|]. split; [vm_compute; reflexivity|]. vm_compute. reflexivity. Qed.
Print Assumptions C115_direct_refuted.

Example C115_ex : let n := NMap [(B "a", NList [NDigits (B "1.5"); NNil]); (B "b", NStr (B "x"))] in
  Decode (B " {""a"":[1.5, null], ""b"":""x""}") = Good (Some n) /\ convertible (fun _ => None) (JObj [(B "a", JArr [JNum (B "1.5"); JNull]); (B "b", JStr (B "x"))]) /\
  into_any (fun _ => None) (fun _ => FNaN) n = AMap [(B "a", AList [AFloat (FFin false (3 * 2 ^ 51) (-52)); ANil]); (B "b", AText (B "x"))].
Proof. split; [vm_compute; reflexivity|]. split; [|vm_compute; reflexivity]. vm_compute. intuition discriminate. Qed.
