(* Vocabulary of the statements about registrations on a Server in use. *)
From Coq Require Import Bool Arith List.
From Verif Require Import Prelude DurModel RgModel.
Import ListNotations.

(* the last thing that was observed of g's calls, in a trace with the newest first; requests apart *)
Fixpoint last (g : nat) (tr : list (nat * event)) : option event :=
  match tr with
  | [] => None
  | (h, e) :: r => match e with EReq _ _ => last g r | _ => if Nat.eqb h g then Some e else last g r end
  end.
(* g registers, g gets the document, at the end of the trace *)
Definition registers (g : nat) (tr : list (nat * event)) : Prop := exists ps d, last g tr = Some (ECall ps d).
Definition gets (g : nat) (tr : list (nat * event)) : Prop := last g tr = Some EGet.
(* no registration goes on together with another one, nor with a GET of the document *)
Definition alone (tr : list (nat * event)) : Prop :=
  forall new g e old, tr = new ++ (g, e) :: old ->
    match e with ECall _ _ => forall h, ~ registers h old /\ ~ gets h old | EGet => forall h, ~ registers h old | _ => True end.
