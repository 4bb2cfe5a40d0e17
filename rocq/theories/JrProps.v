(* C150: ctx.JSON and json.RawMessage. *)
From Coq Require Import Bool Ascii String Arith NArith Lia List.
From Verif Require Import Prelude JrModel JrSpec.
Import ListNotations.

Lemma nth_ext_all {A} (a b : list A) : (forall p, nth_error a p = nth_error b p) -> a = b.
Proof.
  revert b. induction a as [|x a IH]; intros [|y b] H; auto; try (specialize (H 0); discriminate). pose proof (H 0) as H0. cbn in H0. injection H0 as ->. f_equal. apply IH. intros p. exact (H (S p)).
Qed.
Lemma nth_firstn {A} n : forall (l : list A) p, nth_error (firstn n l) p = if p <? n then nth_error l p else None.
Proof. induction n as [|n IH]; intros [|x l] [|p]; cbn; try reflexivity; [now destruct n as [|m]; [|destruct (p <=? m)]|]. rewrite IH. reflexivity. Qed.
Lemma nth_skipn {A} n : forall (l : list A) p, nth_error (skipn n l) p = nth_error l (n + p).
Proof. induction n as [|n IH]; intros l p; [reflexivity|]. destruct l as [|x l]; cbn [skipn]; [destruct p; reflexivity|]. apply IH. Qed.
Lemma nth_poke b off d p : off <= length b -> nth_error (poke b off d) p = if p <? off then nth_error b p else if p <? off + length d then nth_error d (p - off) else nth_error b p.
Proof.
  intros H. unfold poke. assert (L : length (firstn off b) = off) by (rewrite firstn_length; lia). destruct (Nat.ltb_spec p off) as [H1|H1].
  - rewrite nth_error_app1 by lia. rewrite nth_firstn. now destruct (Nat.ltb_spec p off); [|lia].
  - rewrite nth_error_app2, L by lia. destruct (Nat.ltb_spec p (off + length d)) as [H2|H2]; [rewrite nth_error_app1 by lia; reflexivity|]. rewrite nth_error_app2 by lia. rewrite nth_skipn. f_equal. lia.
Qed.
Lemma poke_length b off d : off + length d <= length b -> length (poke b off d) = length b.
Proof. intros H. unfold poke. rewrite !app_length, firstn_length, skipn_length. lia. Qed.
Lemma write_length h a off d : a < length h -> length (write h a off d) = length h.
Proof. intros H. unfold write. rewrite app_length, firstn_length. cbn [length]. rewrite skipn_length. lia. Qed.
Lemma arr_write h a off d x : a < length h -> arr (write h a off d) x = if x =? a then poke (arr h a) off d else arr h x.
Proof.
  intros H. unfold arr at 1, write. assert (L : length (firstn a h) = a) by (rewrite firstn_length; lia). destruct (Nat.eqb_spec x a) as [->|Hx].
  - rewrite app_nth2 by lia. now rewrite L, Nat.sub_diag.
  - unfold arr. destruct (Nat.lt_ge_cases x a).
    + rewrite app_nth1 by lia. rewrite <- (firstn_skipn a h) at 2. rewrite app_nth1 by lia. reflexivity.
    + rewrite app_nth2 by lia. rewrite L. destruct (x - a) as [|n] eqn:E; [lia|]. cbn [nth]. rewrite <- (firstn_skipn (S a) h) at 2. rewrite app_nth2; rewrite firstn_length; [|lia]. f_equal. lia.
Qed.
Lemma write_len h a off d x : a < length h -> off + length d <= length (arr h a) -> length (arr (write h a off d) x) = length (arr h x).
Proof. intros H1 H2. rewrite arr_write by exact H1. destruct (Nat.eqb_spec x a) as [->|]; [now apply poke_length|reflexivity]. Qed.
Lemma nth_at h s p : nth_error (at_ h s) p = if p <? s_len s then nth_error (arr h (s_arr s)) (s_off s + p) else None.
Proof. unfold at_. rewrite nth_firstn. now rewrite nth_skipn. Qed.
Lemma one_apart h s w : fits h w -> apart s w -> at_ (write h (fst (fst w)) (snd (fst w)) (snd w)) s = at_ h s.
Proof.
  destruct w as [[a off] d]. intros [F1 F2] A. unfold apart in A. cbn [fst snd] in *. apply nth_ext_all. intros p. rewrite !nth_at. destruct (Nat.ltb_spec p (s_len s)) as [Hp|Hp]; [|reflexivity].
  rewrite arr_write by exact F1. destruct (Nat.eqb_spec (s_arr s) a) as [E|]; [|reflexivity]. rewrite E. rewrite nth_poke by lia. destruct (Nat.ltb_spec (s_off s + p) off); [reflexivity|]. destruct (Nat.ltb_spec (s_off s + p) (off + length d)); [|reflexivity]. lia.
Qed.
Lemma fits_write h a off d w : a < length h -> off + length d <= length (arr h a) -> fits h w -> fits (write h a off d) w.
Proof. intros H1 H2 [F1 F2]. split; [now rewrite write_length|]. now rewrite write_len. Qed.
Lemma all_apart ws : forall h s, Forall (fits h) ws -> Forall (apart s) ws -> at_ (apply h ws) s = at_ h s.
Proof.
  induction ws as [|w ws IH]; intros h s F A; [reflexivity|]. inversion F as [|? ? F1 F2]; subst. inversion A as [|? ? A1 A2]; subst. cbn [apply fold_left]. fold (apply (write h (fst (fst w)) (snd (fst w)) (snd w)) ws).
  rewrite IH; [now apply one_apart| |exact A2]. clear -F1 F2. destruct F1 as [G1 G2]. induction F2; constructor; auto. now apply fits_write.
Qed.
Lemma alloc_old h d x : x < length h -> arr (h ++ [d]) x = arr h x.
Proof. intros H. unfold arr. now rewrite app_nth1. Qed.
Lemma alloc_new h d : at_ (h ++ [d]) (Slice (length h) 0 (length d)) = d.
Proof. unfold at_, arr. cbn [s_len s_off s_arr skipn]. rewrite app_nth2 by lia. rewrite Nat.sub_diag. cbn. apply firstn_all. Qed.
Lemma fits_alloc h d w : fits h w -> fits (h ++ [d]) w.
Proof. intros [F1 F2]. split; [rewrite app_length; lia|]. now rewrite alloc_old. Qed.
Lemma fresh_kept h d ws : Forall (fits h) ws -> at_ (apply (h ++ [d]) ws) (Slice (length h) 0 (length d)) = d.
Proof.
  intros F. rewrite all_apart; [apply alloc_new| |]; induction F as [|w ws F1 F2 IH]; constructor; auto; [now apply fits_alloc|]. left. destruct F1. cbn. lia.
Qed.

(* A ctx.JSON that was read from a text stays what it was as long as that part of the text is not written to. *)
Theorem C150_partial : forall (h : heap) (text : slice) (before len : nat) (ws : writes), within h text -> before + len <= s_len text ->
  Forall (fits h) ws -> Forall (apart (Slice (s_arr text) (s_off text + before) len)) ws ->
  let (h1, v) := json_unmarshal ctx_unmarshal h text before len in at_ h1 v = firstn len (skipn before (at_ h text)) /\ at_ (apply h1 ws) v = at_ h1 v.
Proof.
  intros h text before len ws W B0 F A. unfold json_unmarshal, ctx_unmarshal. split; [|now apply all_apart]. apply nth_ext_all. intros p. rewrite nth_at, nth_firstn, nth_skipn, nth_at. cbn [s_len s_off s_arr]. destruct (Nat.ltb_spec p len); [|reflexivity]. destruct (Nat.ltb_spec (before + p) (s_len text)); [|lia]. f_equal. lia.
Qed.
(* Otherwise it becomes what is written there, whatever that is. *)
Theorem C150_refuted : forall (h : heap) (text : slice) (before len : nat) (data : bytes), within h text -> before + len <= s_len text -> length data = len ->
  let (h1, v) := json_unmarshal ctx_unmarshal h text before len in at_ (write h1 (s_arr text) (s_off text + before) data) v = data.
Proof.
  intros h text before len data [W1 W2] B0 L. unfold json_unmarshal, ctx_unmarshal. apply nth_ext_all. intros p. rewrite nth_at. cbn [s_len s_off s_arr]. rewrite arr_write, Nat.eqb_refl by exact W1. rewrite nth_poke by lia.
  destruct (Nat.ltb_spec p len) as [Hp|Hp]; [|symmetry; apply nth_error_None; lia]. destruct (Nat.ltb_spec (s_off text + before + p) (s_off text + before)); [lia|]. destruct (Nat.ltb_spec (s_off text + before + p) (s_off text + before + length data)); [|lia]. f_equal. lia.
Qed.
(* A json.RawMessage stays what it was, whatever is written to the arrays that were there before. *)
Theorem C150_raw : forall (h : heap) (text : slice) (before len : nat) (ws : writes), within h text -> before + len <= s_len text -> Forall (fits h) ws ->
  let (h1, v) := json_unmarshal raw_unmarshal h text before len in at_ (apply h1 ws) v = firstn len (skipn before (at_ h text)).
Proof.
  intros h text before len ws W B0 F. destruct (C150_partial h text before len [] W B0 ltac:(constructor) ltac:(constructor)) as [E _]. unfold json_unmarshal, raw_unmarshal, alloc. rewrite <- E. now apply fresh_kept.
Qed.
(* So does a ctx.JSON that is read by this package: it gets a text that nobody else has. *)
Theorem C150_enc : forall (h : heap) (text : bytes) (ws : writes), Forall (fits h) ws ->
  let (h1, v) := enc_unmarshal ctx_unmarshal h text in at_ (apply h1 ws) v = text.
Proof. intros h text ws F. unfold enc_unmarshal, ctx_unmarshal, alloc. now apply fresh_kept. Qed.

(* ---- streams ---- *)
Lemma room_write h docs d ds : room h docs -> docs = d :: ds -> room (write h 0 0 d) ds.
Proof.
  intros [R1 R2] ->. inversion R2 as [|? ? R3 R4]; subst. split; [now rewrite write_length|]. revert R4. apply Forall_impl. intros x Hx. now rewrite write_len.
Qed.
Lemma stream_byte docs : forall h p, room h docs -> nth_error (arr (fst (stream ctx_unmarshal h docs)) 0) p = match shown_at docs p with Some c => Some c | None => nth_error (arr h 0) p end.
Proof.
  induction docs as [|d ds IH]; intros h p R; [reflexivity|]. cbn [stream next ctx_unmarshal]. specialize (IH (write h 0 0 d) p (room_write _ _ _ _ R eq_refl)). destruct (stream ctx_unmarshal (write h 0 0 d) ds) as [h2 l]. cbn [fst] in *. rewrite IH. cbn [shown_at].
  destruct (shown_at ds p); [reflexivity|]. rewrite arr_write by apply R. cbn [Nat.eqb]. rewrite nth_poke by lia. destruct (Nat.ltb_spec p 0); [lia|]. change (0 + length d) with (length d). rewrite Nat.sub_0_r. destruct (Nat.ltb_spec p (length d)) as [H1|H1].
  - destruct (nth_error d p) eqn:E; [reflexivity|]. apply nth_error_None in E. lia.
  - now rewrite (proj2 (nth_error_None d p)).
Qed.
(* What was read from a stream: each byte of a ctx.JSON becomes that of the last later document that is long enough. *)
Theorem C150_stream : forall (docs : list bytes) (h : heap) (i : nat) (d : bytes) (v : slice), room h docs ->
  nth_error docs i = Some d -> nth_error (snd (stream ctx_unmarshal h docs)) i = Some v ->
  forall p, p < length d -> nth_error (at_ (fst (stream ctx_unmarshal h docs)) v) p = shown_at (skipn i docs) p.
Proof.
  induction docs as [|x ds IH]; intros h i d v R Hd Hv p Hp; [destruct i; discriminate|]. destruct i as [|i].
  - cbn in Hd. injection Hd as ->. pose proof (stream_byte (d :: ds) h p R) as S1. cbn [stream next ctx_unmarshal] in *. destruct (stream ctx_unmarshal (write h 0 0 d) ds) as [h2 l]. cbn in Hv. injection Hv as <-. cbn [fst] in *. rewrite nth_at. cbn [s_len s_off s_arr]. destruct (Nat.ltb_spec p (length d)); [|lia]. change (0 + p) with p. rewrite S1. cbn [skipn].
    destruct (shown_at (d :: ds) p) eqn:E; [reflexivity|]. cbn [shown_at] in E. destruct (shown_at ds p); [discriminate|]. apply nth_error_None in E. lia.
  - cbn [nth_error skipn stream next ctx_unmarshal] in *. specialize (IH (write h 0 0 x) i d v (room_write _ _ _ _ R eq_refl) Hd). destruct (stream ctx_unmarshal (write h 0 0 x) ds) as [h2 l]. cbn [fst snd nth_error] in *. now apply IH.
Qed.
(* So the first of two documents of the same length becomes the second. *)
Theorem C150_stream_refuted : forall (h : heap) (d1 d2 : bytes), room h [d1; d2] -> length d1 = length d2 ->
  exists v v', snd (stream ctx_unmarshal h [d1; d2]) = [v; v'] /\ at_ (fst (next ctx_unmarshal h d1)) v = d1 /\ at_ (fst (stream ctx_unmarshal h [d1; d2])) v = d2.
Proof.
  intros h d1 d2 R L. eexists. eexists. split; [reflexivity|]. assert (R1 : room h [d1]) by (destruct R as [Ra Rb]; inversion Rb; split; [assumption|constructor; [assumption|constructor]]).
  split; apply nth_ext_all; intros p.
  - destruct (Nat.lt_ge_cases p (length d1)) as [H|H].
    + exact (C150_stream [d1] h 0 d1 _ R1 eq_refl eq_refl p H).
    + rewrite nth_at. cbn [s_len]. destruct (Nat.ltb_spec p (length d1)); [lia|]. symmetry. apply nth_error_None. lia.
  - destruct (Nat.lt_ge_cases p (length d1)) as [H|H].
    + etransitivity; [exact (C150_stream [d1; d2] h 0 d1 _ R eq_refl eq_refl p H)|]. cbn. destruct (nth_error d2 p) eqn:E; [reflexivity|]. apply nth_error_None in E. lia.
    + rewrite nth_at. cbn [s_len]. destruct (Nat.ltb_spec p (length d1)); [lia|]. symmetry. apply nth_error_None. lia.
Qed.
(* A json.RawMessage stays the document it was read from. *)
Lemma raw_stream docs : forall h, room h docs -> length (fst (stream raw_unmarshal h docs)) >= length h /\
  (forall s, 0 < s_arr s -> s_arr s < length h -> at_ (fst (stream raw_unmarshal h docs)) s = at_ h s) /\
  Forall2 (fun d v => at_ (fst (stream raw_unmarshal h docs)) v = d) docs (snd (stream raw_unmarshal h docs)).
Proof.
  induction docs as [|d ds IH]; intros h R; [cbn; auto with arith|]. 
  set (h0 := write h 0 0 d). pose proof (room_write _ _ _ _ R eq_refl : room h0 ds) as R0. set (dd := at_ h0 (Slice 0 0 (length d))).
  assert (R1 : room (h0 ++ [dd]) ds). { destruct R0 as [Ra Rb]. split; [rewrite app_length; lia|]. revert Rb. apply Forall_impl. intros x Hx. now rewrite alloc_old. }
  assert (Ed : dd = d).
  { pose proof (C150_stream [d] h 0 d (Slice 0 0 (length d))) as S1. apply nth_ext_all. intros p. destruct (Nat.lt_ge_cases p (length d)) as [H|H].
    - refine (S1 _ eq_refl eq_refl p H). destruct R as [Ra Rb]; inversion Rb; split; [assumption|constructor; [assumption|constructor]].
    - unfold dd. rewrite nth_at. cbn [s_len]. destruct (Nat.ltb_spec p (length d)); [lia|]. symmetry. apply nth_error_None. lia. }
  assert (L0 : length h0 = length h) by (apply write_length; apply R).
  assert (E : stream raw_unmarshal h (d :: ds) = let (h2, l) := stream raw_unmarshal (h0 ++ [dd]) ds in (h2, Slice (length h0) 0 (length dd) :: l)) by reflexivity.
  rewrite E. clear E. destruct (IH _ R1) as (I1 & I2 & I3). destruct (stream raw_unmarshal (h0 ++ [dd]) ds) as [h2 l]. cbn [fst snd] in *. rewrite app_length in I1. cbn [length] in I1. split; [lia|]. split.
  - intros s Hs1 Hs2. rewrite I2 by (try rewrite app_length; cbn [length]; lia). unfold at_. rewrite alloc_old by lia. unfold h0. rewrite arr_write by apply R. destruct (Nat.eqb_spec (s_arr s) 0); [lia|reflexivity].
  - constructor; [|exact I3]. rewrite I2; cbn [s_arr]; [|destruct R as [Rl Rr]; rewrite L0; exact Rl|rewrite app_length; cbn [length]; lia]. rewrite alloc_new. exact Ed.
Qed.
Theorem C150_stream_raw : forall (docs : list bytes) (h : heap), room h docs ->
  Forall2 (fun d v => at_ (fst (stream raw_unmarshal h docs)) v = d) docs (snd (stream raw_unmarshal h docs)).
Proof. intros docs h R. apply raw_stream, R. Qed.

(* ---- writing ---- *)
(* Both are written the same, except nil, for which there is an error instead of null. *)
Theorem C150_marshal : forall (compact : bytes -> option bytes),
  (forall b, ctx_marshal compact (Some b) = raw_marshal compact (Some b)) /\
  (compact [] = None -> compact (B "null") = Some (B "null") -> ctx_marshal compact None = None /\ raw_marshal compact None = Some (B "null")).
Proof. intros compact. split; [reflexivity|]. intros E1 E2. split; [exact E1|exact E2]. Qed.

(* Two log lines with one tag each, read from a stream: the tag of the first reads as the one of the second. *)
Example C150_ex : room [B "........................"] [B "{""user"":1}"; B "{""user"":2}"] /\
  (let (h, l) := stream ctx_unmarshal [B "........................"] [B "{""user"":1}"; B "{""user"":2}"] in map (at_ h) l = [B "{""user"":2}"; B "{""user"":2}"]) /\
  (let (h, l) := stream raw_unmarshal [B "........................"] [B "{""user"":1}"; B "{""user"":2}"] in map (at_ h) l = [B "{""user"":1}"; B "{""user"":2}"]) /\
  within [B "x: [12, 3]"] (Slice 0 3 7) /\ fits [B "x: [12, 3]"] (0, 0, B "y") /\ apart (Slice 0 4 2) (0, 0, B "y").
Proof. repeat split; cbn; try lia; repeat constructor; cbn; lia. Qed.

Print Assumptions C150_partial.
Print Assumptions C150_refuted.
Print Assumptions C150_raw.
Print Assumptions C150_enc.
Print Assumptions C150_stream.
Print Assumptions C150_stream_refuted.
Print Assumptions C150_stream_raw.
Print Assumptions C150_marshal.
Print Assumptions C150_ex.
