(* Vocabulary of the statements about the context of a test: C152. *)
From Coq Require Import Bool Ascii String Arith NArith List.
From Verif Require Import Prelude CtxModel.
Import ListNotations.

(* c was made from p by any functions but WithTester *)
Inductive derived (tester : N) (p : context) : context -> Prop :=
| D_self : derived tester p p
| D_value c k v : derived tester p c -> k <> KUser tester -> derived tester p (Val c k v)
| D_cancel c i d : derived tester p c -> derived tester p (Cancel c i d)
| D_tag c k j : derived tester p c -> derived tester p (Tag c k j)
| D_track c i l : derived tester p c -> derived tester p (Track c i l)
| D_detach c : derived tester p c -> derived tester p (Detach c).
(* by any functions but Detach *)
Inductive attached (p : context) : context -> Prop :=
| A_self : attached p p
| A_value c k v : attached p c -> attached p (Val c k v)
| A_cancel c i d : attached p c -> attached p (Cancel c i d)
| A_tag c k j : attached p c -> attached p (Tag c k j)
| A_track c i l : attached p c -> attached p (Track c i l).
(* the operation ends the context numbered n: its cancel function is called, or its time is over *)
Definition ends_ (n : nat) (o : op) : Prop := o = OTimer n \/ exists ca, o = OFire n ca.
