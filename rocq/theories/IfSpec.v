(* Vocabulary of the statements about concurrent calls of Unmarshal. *)
From Coq Require Import Bool Arith List.
From Verif Require Import Prelude IfModel.
Import ListNotations.

(* Unmarshal has a warning for such a variable *)
Definition warned_about (v : leaf) (m : msg) : Prop := (v = LfRaw /\ m = MRaw) \/ exists n, v = LfJson n /\ m = MJson n.
(* goroutine i has left Unmarshal *)
Definition finished (s : st) (i : nat) : Prop := nth_error (gos s) i = Some (Going []).
(* at most one goroutine at a time is in Unmarshal *)
Definition alone (s : st) : Prop := forall i j p q, nth_error (gos s) i = Some p -> nth_error (gos s) j = Some q -> p <> Going [] -> q <> Going [] -> i = j.
(* a schedule in which a call begins only when no other is in progress *)
Fixpoint one_by_one (s : st) (ls : list label) : Prop :=
  match ls with
  | [] => True
  | l :: r => (match l with Begin _ => forall i, i < length (gos s) -> finished s i | _ => True end) /\
              match step s l with Some s' => one_by_one s' r | None => True end
  end.
(* the variables of all calls *)
Definition variables (ls : list label) : list leaf := flat_map (fun l => match l with Begin v => v | _ => [] end) ls.
