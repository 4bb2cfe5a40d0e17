(* Theorems about times: C95, C96. *)
From Coq Require Import Bool Ascii String Arith NArith ZArith Lia List.
From Verif Require Import Prelude Utf8Model DecModel DurModel EncModel JsonModel JsonSpec JsonFacts JsonProofs TimeModel TimeSpec TimeCal TimeProofs.
Import ListNotations.
Local Open Scope Z_scope.

Lemma over_json_format short lenient shown t : over_json short lenient (marshal_time shown t) = parse lenient (format t).
Proof.
  unfold over_json, marshal_time, Encode. cbn [encodable jenc t_rfc].
  destruct (string_decode short false (format t)) as (j & E & D). unfold Encode in E. cbn [encodable jenc] in E. injection E as <-.
  rewrite D. cbn [encodable jenc]. replace (cleaned (format t)) with (format t).
  - rewrite plain_jstr by apply format_plain. apply unmarshal_plain, format_plain.
  - symmetry. apply cleaned_valid. apply plain_valid, format_plain.
Qed.
Lemma time_json_format short lenient t : time_unmarshal lenient (time_marshal short t) = parse lenient (format t).
Proof.
  unfold time_unmarshal, time_marshal, unmarshal_string.
  pose proof (pvalue_str short (2 * length (jstr short (format t)) + 1) 0 (format t) [] (plain_valid _ (format_plain t))) as Hp.
  rewrite app_nil_r in Hp. replace (S (2 * length (jstr short (format t)) + 1))%nat with (2 * length (jstr short (format t)) + 2)%nat in Hp by lia.
  rewrite Hp. reflexivity.
Qed.

(* C95: a time comes back as it was, to the nanosecond and with its offset: a time.Time through enc.MarshalJSON and enc.UnmarshalJSON, an
   enc.Time through its own methods.  Not true of years before 0 or after 9999, nor of offsets with seconds, see below; offsets of a day or
   more are not covered. *)
Theorem C95_round_trip_partial : forall short lenient shown t y, proper t -> year_of t y -> 0 <= y <= 9999 -> Z.abs (t_off t) < 86400 -> t_off t mod 60 = 0 ->
  over_json short lenient (marshal_time shown t) = Some t /\ time_unmarshal lenient (time_marshal short t) = Some t.
Proof.
  intros short lenient shown t y P Y Hy Ho Hm. rewrite over_json_format, time_json_format.
  assert (parse lenient (format t) = Some t) by (apply parse_strict, (parse_format_exact t y P Y); auto). auto.
Qed.
Print Assumptions C95_round_trip_partial.

(* C95: and the strict texts give it back in no other case. *)
Theorem C95_exact : forall short shown t y, proper t -> year_of t y ->
  over_json short (fun _ => None) (marshal_time shown t) = Some t <-> 0 <= y <= 9999 /\ Z.abs (t_off t) < 86400 /\ t_off t mod 60 = 0.
Proof.
  intros short shown t y P Y. rewrite over_json_format, <- (parse_format_exact t y P Y). unfold parse.
  destruct (parseRFC3339 (format t)); [reflexivity|]. destruct (format t) as [|? [|? [|? [|? [|]]]]]; try reflexivity.
  destruct (_ && _); reflexivity.
Qed.
Print Assumptions C95_exact.

(* C95: years before 0 or after 9999 are written, and then not readable. *)
Theorem C95_year_refuted : forall short lenient shown t y, year_of t y -> y < 0 \/ 9999 < y ->
  (exists j, Encode short false (marshal_time shown t) = Ok j) /\ over_json short lenient (marshal_time shown t) = None /\
  time_unmarshal lenient (time_marshal short t) = None.
Proof.
  intros short lenient shown t y Y H. split; [eexists; reflexivity|]. rewrite over_json_format, time_json_format.
  assert (parse lenient (format t) = None) by (apply parse_opens, (format_bad_year t y Y); auto). auto.
Qed.
Print Assumptions C95_year_refuted.

(* C95: with an offset of, say, 53 minutes 28 seconds, another instant comes back. *)
Theorem C95_seconds_refuted : forall short lenient shown t y, proper t -> year_of t y -> 0 <= y <= 9999 -> Z.abs (t_off t) < 86400 -> t_off t mod 60 <> 0 ->
  exists t', over_json short lenient (marshal_time shown t) = Some t' /\ time_unmarshal lenient (time_marshal short t) = Some t' /\
    t_sec t' - t_sec t = Z.rem (t_off t) 60 /\ t_sec t' <> t_sec t.
Proof.
  intros short lenient shown t y P Y Hy Ho Hm. exists (whole_minutes t). rewrite over_json_format, time_json_format.
  assert (parse lenient (format t) = Some (whole_minutes t)) by (apply parse_strict, parse_rfc, format_rfc with y; auto).
  split; [assumption|]. split; [assumption|]. split; [|now apply whole_differs].
  unfold whole_minutes. cbn [t_sec]. pose proof (Z.quot_rem' (t_off t) 60). lia.
Qed.
Print Assumptions C95_seconds_refuted.

Ltac year := eexists; eexists; apply date_abs; vm_compute; reflexivity.
(* 2024-02-29 in India; year 10000; Amsterdam in 1930 (offset 19 minutes 32 seconds) *)
Example C95_ex :
  let t := GTime 1709164800 120000000 19800 in let t2 := GTime 253402300800 0 0 in let t3 := GTime (-1261440000) 5 1172 in
  (proper t /\ year_of t 2024 /\ over_json true (fun _ => None) (marshal_time [] t) = Some t /\ format t = B "2024-02-29T05:30:00.12+05:30") /\
  (year_of t2 10000 /\ over_json true (fun _ => None) (marshal_time [] t2) = None /\ format t2 = B "10000-01-01T00:00:00Z") /\
  (year_of t3 1930 /\ over_json true (fun _ => None) (marshal_time [] t3) = Some (GTime (-1261439968) 5 1140)).
Proof.
  cbv zeta. repeat split; try year; try (vm_compute; reflexivity); vm_compute; discriminate.
Qed.

(* C96: the text of a time means this time, by the calendar and RFC 3339. *)
Theorem C96_written : forall t y, proper t -> year_of t y -> 0 <= y <= 9999 -> Z.abs (t_off t) < 86400 -> t_off t mod 60 = 0 -> rfc3339 (format t) t.
Proof. intros t y P Y Hy Ho Hm. rewrite <- (whole_same t Hm) at 2. now apply format_rfc with y. Qed.
Print Assumptions C96_written.

(* C96: a text of RFC 3339 is read as what it means, from a string node and by enc.Time. *)
Theorem C96_read : forall short lenient s t, rfc3339 s t ->
  over_json short lenient (NStr s) = Some t /\ time_unmarshal lenient (jstr short s) = Some t /\ parse lenient s = Some t.
Proof.
  intros short lenient s t H. pose proof (rfc_plain _ _ H) as Pl. apply parse_rfc in H. apply (parse_strict lenient) in H.
  split; [|split; [|assumption]].
  - unfold over_json. destruct (string_decode short false s) as (j & E & D). rewrite E, D. unfold Encode. cbn [encodable jenc].
    rewrite cleaned_valid by (now apply plain_valid). rewrite plain_jstr, unmarshal_plain by auto. exact H.
  - unfold time_unmarshal, unmarshal_string.
    pose proof (pvalue_str short (2 * length (jstr short s) + 1) 0 s [] (plain_valid _ Pl)) as Hp.
    rewrite app_nil_r in Hp. replace (S (2 * length (jstr short s) + 1))%nat with (2 * length (jstr short s) + 2)%nat in Hp by lia.
    rewrite Hp. exact H.
Qed.
Print Assumptions C96_read.

(* C96: a null is read as the zero time, the first of January of the year 1. *)
Theorem C96_null : forall short lenient, exists t, over_json short lenient NNil = Some t /\ rfc3339 (B "0001-01-01T00:00:00Z") t.
Proof. intros short lenient. exists (GTime (-62135596800) 0 0). split; [reflexivity|]. apply parse_rfc. vm_compute. reflexivity. Qed.
Print Assumptions C96_null.

(* C96: a text means one time. *)
Theorem C96_one : forall s t t', rfc3339 s t -> rfc3339 s t' -> t = t'.
Proof. intros s t t' H H'. apply parse_rfc in H, H'. congruence. Qed.
Print Assumptions C96_one.

(* C96: apart from what time.Parse tolerates, nothing else is accepted. *)
Theorem C96_only : forall s t, parse (fun _ => None) s = Some t -> rfc3339 s t.
Proof.
  intros s t H. apply parse_rfc. unfold parse in H. destruct (parseRFC3339 s); [exact H|].
  destruct s as [|? [|? [|? [|? [|]]]]]; try discriminate. destruct (_ && _); discriminate.
Qed.
Print Assumptions C96_only.

(* the date of a day is unique, and every day has one: the calendar of the specification is a calendar *)
Theorem C96_calendar : forall n, exists x, date n x /\ forall x', date n x' -> x' = x.
Proof. intros n. destruct (date_total n) as (x & D). exists x. split; auto. intros x' D'. eapply date_unique; eauto. Qed.
Print Assumptions C96_calendar.

Example C96_ex : rfc3339 (B "2024-02-29T23:59:59.000000001-05:30") (GTime 1709270999 1 (-19800)) /\
  over_json true (fun _ => None) (NStr (B "2023-02-29T00:00:00Z")) = None /\
  ~ (exists t, rfc3339 (B "2023-02-29T00:00:00Z") t).
Proof.
  split; [apply parse_rfc; vm_compute; reflexivity|]. split; [vm_compute; reflexivity|].
  intros (t & H). apply parse_rfc in H. revert H. vm_compute. discriminate.
Qed.
