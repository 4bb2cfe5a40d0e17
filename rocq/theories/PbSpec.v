(* Vocabulary of the statements about requests and the reading of metrics: C145. *)
From Coq Require Import Bool Arith List.
From Verif Require Import Prelude PbModel.
Import ListNotations.

Section Spec.
  Context {K : Type}.
  (* anyone; anyone but this reader of the metrics; only this request *)
  Definition anyone (w : who) : Prop := True.
  Definition but (j : nat) (w : who) : Prop := w <> Scrape j.
  Definition alone (i : nat) (w : who) : Prop := w = Request i.
  (* only readers of the metrics that are at the series, and this request *)
  Definition reading (s : @st K) (i : nat) (ks : list K) (w : who) : Prop :=
    w = Request i \/ exists j k n t, w = Scrape j /\ scrs s j = Within k n t /\ In k ks.
  (* the series that a request still has to be observed in *)
  Definition wants (r : @request K) : list K := match r with Serving ks | Served ks => ks | _ => [] end.
  Definition present (r : @request K) : Prop := match r with Absent => False | _ => True end.
End Spec.
