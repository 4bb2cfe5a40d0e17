(* The reference for the typed sync.Map: a partial function. *)
From Coq Require Import Bool Arith List.
From Verif Require Import Prelude SMapModel.
Import ListNotations.

Section Spec.
  Context {K V : Type} (eqb : K -> K -> bool) (zero : V).

  Definition put (f : K -> option V) (k : K) (v : option V) : K -> option V := fun x => if eqb x k then v else f x.
  Definition same (f g : K -> option V) : Prop := forall x, f x = g x.
  Definition or_zero (o : option V) : V := match o with Some v => v | None => zero end.
  Definition present (o : option V) : bool := match o with Some _ => true | None => false end.

  (* what an operation does to the function, and what it must answer *)
  Definition spec_op (f : K -> option V) (o : @op K V) (f' : K -> option V) (a : @answer V) : Prop :=
    match o with
    | OStore k v => same f' (put f k (Some v)) /\ a = ANone
    | ODelete k => same f' (put f k None) /\ a = ANone
    | OLoad k => same f' f /\ a = AVB (or_zero (f k)) (present (f k))
    | OGet k => same f' f /\ a = AV (or_zero (f k))
    | OIsEmpty => same f' f /\ exists b, a = AB b /\ (b = true <-> forall k, f k = None)
    | OLoadOrStore k v => 
        match f k with
        | Some w => same f' f /\ a = AVB w true
        | None => same f' (put f k (Some v)) /\ a = AVB v false
        end
    | OGetOrStore k v =>
        match f k with
        | Some w => same f' f /\ a = AV w
        | None => same f' (put f k (Some v)) /\ a = AV v
        end
    | OLoadAndDelete k => same f' (put f k None) /\ a = AVB (or_zero (f k)) (present (f k))
    end.
  Inductive spec_run : (K -> option V) -> list (@op K V) -> (K -> option V) -> list (@answer V) -> Prop :=
  | sr_nil f : spec_run f [] f []
  | sr_cons f o f1 a t f2 l : spec_op f o f1 a -> spec_run f1 t f2 l -> spec_run f (o :: t) f2 (a :: l).
End Spec.

(* What a Range over the entries es does: it calls the callback on the entries one after the other, each once, with the
   state it left the last time, up to the first call that says stop. *)
Inductive visits {K V S : Type} (f : S -> K -> V -> S * bool) : list (K * V) -> S -> S -> Prop :=
| v_end s : visits f [] s s
| v_stop k v t s s' : f s k v = (s', false) -> visits f ((k, v) :: t) s s'
| v_next k v t s s1 s2 : f s k v = (s1, true) -> visits f t s1 s2 -> visits f ((k, v) :: t) s s2.
