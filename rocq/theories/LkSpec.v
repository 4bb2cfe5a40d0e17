(* Vocabulary of the statements about objects used by several goroutines at once. *)
From Coq Require Import Bool Arith List.
From Verif Require Import Prelude KvModel LkModel.
Import ListNotations.

Section Spec.
  Context {S O R : Type} (run : S -> O -> R * S).
  (* the calls one after the other, each with its answer, lead from s to s' *)
  Fixpoint sequential (s : S) (l : list (nat * O * R)) (s' : S) : Prop :=
    match l with [] => s' = s | (_, o, r) :: t => r = fst (run s o) /\ sequential (snd (run s o)) t s' end.
  (* i comes before j *)
  Definition before (i j : nat) (l : list nat) : Prop := exists a b c, l = a ++ i :: b ++ j :: c.
  (* The execution (newest event first) is as if the calls of l had been made one after the other: all calls that have returned, with their
     answers, maybe some that have not yet returned; a call that returned before another was made comes before it. *)
  Record linear (s0 : S) (tr : list (event O R)) (l : list (nat * O * R)) (s1 : S) : Prop := {
    l_run : sequential s0 l s1;
    l_once : NoDup (map (fun e => fst (fst e)) l);
    l_calls : forall i o r, In (i, o, r) l -> In (Call i o) tr;
    l_rets : forall i r, In (Ret i r) tr -> exists o, In (i, o, r) l;
    l_order : forall new old i r j o, tr = new ++ Call j o :: old -> In (Ret i r) old -> In j (map (fun e => fst (fst e)) l) -> before i j (map (fun e => fst (fst e)) l) }.
  (* no call of the trace is without its return *)
  Definition all_returned (tr : list (event O R)) : Prop := forall i o, In (Call i o) tr -> exists r, In (Ret i r) tr.
  (* no loader calls the object *)
  Definition simple (s : st S O R) : Prop := forall i, match calls s i with Waiting _ inner | Holding _ _ inner => inner = [] | _ => True end.
  (* the calls and answers of a sequence *)
  Definition ops (l : list (nat * O * R)) : list O := map (fun e => snd (fst e)) l.
  Definition answers (l : list (nat * O * R)) : list R := map snd l.
End Spec.
(* the writing calls *)
Definition writing (l : list kvcall) : list kvop := flat_map (fun o => match o with KWrite w => [w] | KGet _ => [] end) l.
