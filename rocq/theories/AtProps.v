(* C149: a text as a time or a duration. *)
From Coq Require Import Bool Ascii String Arith NArith ZArith Lia List.
From Verif Require Import Prelude DurModel DurSpec DurProofs TimeModel TimeSpec TimeProofs AtModel.
Import ListNotations.

Section Any.
  Context {T : Type} (parse : bytes -> option T) (v : T).
  Lemma both_call s : both CallFirst parse v s = match parse s with Some t => (t, true) | None => (v, false) end.
  Proof. reflexivity. Qed.
  Lemma both_ok o s : snd (both o parse v s) = match parse s with Some _ => true | None => false end.
  Proof. destruct o; cbn; unfold Parse; destruct (parse s); reflexivity. Qed.
  Lemma must_parse s : must parse v s = match parse s with Some t => Ok t | None => Panic end.
  Proof. unfold must, Parse. now destruct (parse s). Qed.
End Any.

(* With the call evaluated first: a text of RFC 3339 gives its time and no error, a text of a duration gives that. *)
Theorem C149_partial : forall (lenient : bytes -> option gtime) (fracval : N -> N -> nat -> N),
  (forall s t, rfc3339 s t -> AsTime lenient CallFirst s = (t, true)) /\
  (forall d, float_exact fracval -> int64 d -> AsDuration fracval CallFirst (dur_text d) = (d, true)) /\
  (forall s, snd (AsTime lenient CallFirst s) = false -> fst (AsTime lenient CallFirst s) = zeroTime) /\
  (forall s, snd (AsDuration fracval CallFirst s) = false -> fst (AsDuration fracval CallFirst s) = 0%Z).
Proof.
  intros lenient fracval. split; [|split; [|split]].
  - intros s t H. unfold AsTime. rewrite both_call. now rewrite (parse_strict lenient s t (proj2 (parse_rfc s t) H)).
  - intros d Hf Hd. unfold AsDuration. rewrite both_call. now rewrite (dur_text_round fracval d Hf Hd).
  - intros s. unfold AsTime. rewrite both_call. destruct (parse lenient s); [discriminate|reflexivity].
  - intros s. unfold AsDuration. rewrite both_call. destruct (dur_parse fracval s); [discriminate|reflexivity].
Qed.
(* In either order there is an error exactly if MustTime or MustDuration panics; otherwise those return the time and the duration of the text. *)
Theorem C149_must : forall (lenient : bytes -> option gtime) (fracval : N -> N -> nat -> N) (o : order) (s : bytes),
  (snd (AsTime lenient o s) = false <-> MustTime lenient s = Panic) /\ (snd (AsDuration fracval o s) = false <-> MustDuration fracval s = Panic) /\
  (forall t, rfc3339 s t -> MustTime lenient s = Ok t) /\ (forall d, float_exact fracval -> int64 d -> s = dur_text d -> MustDuration fracval s = Ok d).
Proof.
  intros lenient fracval o s. unfold AsTime, AsDuration, MustTime, MustDuration. rewrite !both_ok, !must_parse. split; [destruct (parse lenient s); split; congruence|]. split; [destruct (dur_parse fracval s); split; congruence|]. split.
  - intros t H. now rewrite (parse_strict lenient s t (proj2 (parse_rfc s t) H)).
  - intros d Hf Hd ->. now rewrite (dur_text_round fracval d Hf Hd).
Qed.
(* With the variable evaluated first, as the language allows, every text gives the zero time and the zero duration, also when there is no error. *)
Theorem C149_refuted : forall (lenient : bytes -> option gtime) (fracval : N -> N -> nat -> N),
  (forall s t, rfc3339 s t -> AsTime lenient VarFirst s = (zeroTime, true)) /\
  (forall d, float_exact fracval -> int64 d -> AsDuration fracval VarFirst (dur_text d) = (0%Z, true)).
Proof.
  intros lenient fracval. split.
  - intros s t H. unfold AsTime. cbn. unfold Parse. now rewrite (parse_strict lenient s t (proj2 (parse_rfc s t) H)).
  - intros d Hf Hd. unfold AsDuration. cbn. unfold Parse. now rewrite (dur_text_round fracval d Hf Hd).
Qed.
Print Assumptions C149_partial.
Print Assumptions C149_must.
Print Assumptions C149_refuted.

Example C149_ex : rfc3339 (B "2023-10-05T12:34:56.5+02:00") (GTime 1696502096 500000000 7200) /\ float_exact frac_floor /\ int64 90000000000 /\ dur_text 90000000000 = B "1m30s" /\
  AsTime (fun _ => None) CallFirst (B "2023-10-05T12:34:56.5+02:00") = (GTime 1696502096 500000000 7200, true) /\
  AsDuration frac_floor CallFirst (B "1m30s") = (90000000000%Z, true) /\ AsDuration frac_floor VarFirst (B "1m30s") = (0%Z, true) /\ MustDuration frac_floor (B "soon") = Panic.
Proof.
  split; [apply parse_rfc; vm_compute; reflexivity|]. split; [exact frac_floor_exact|]. split; [unfold int64; lia|]. vm_compute. auto 6.
Qed.
