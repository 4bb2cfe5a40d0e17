(* Specification vocabulary for OrderedMap: an association list in insertion order. *)
From Coq Require Import List.
From Verif Require Import OMapModel.
Import ListNotations.

Section Spec.
  Context {K V : Type} (dec : forall x y : K, {x = y} + {x <> y}).

  Fixpoint find (l : list (K * V)) (k : K) : option V :=
    match l with
    | [] => None
    | (k', v) :: t => if dec k k' then Some v else find t k
    end.

  (* overwrite in place, or add at the end *)
  Definition put (l : list (K * V)) (k : K) (v : V) : list (K * V) :=
    match find l k with
    | Some _ => map (fun p => if dec k (fst p) then (fst p, v) else p) l
    | None => l ++ [(k, v)]
    end.

  Definition del (l : list (K * V)) (k : K) : list (K * V) :=
    filter (fun p => if dec k (fst p) then false else true) l.

  (* each call answers with what was there before *)
  Definition spec_step (l : list (K * V)) (o : oop K V) : option V * list (K * V) :=
    match o with
    | OGet k => (find l k, l)
    | OPut k v => (find l k, put l k v)
    | ODelete k => (find l k, del l k)
    end.

  Fixpoint spec_run (l : list (K * V)) (ops : list (oop K V)) : list (option V) * list (K * V) :=
    match ops with
    | [] => ([], l)
    | o :: rest =>
        let '(r, l1) := spec_step l o in
        let '(rs, l2) := spec_run l1 rest in (r :: rs, l2)
    end.

  (* call f on the entries in order until it returns an error *)
  Fixpoint visit {S E} (f : S -> K -> V -> S * option E) (l : list (K * V)) (s : S) : S * option E :=
    match l with
    | [] => (s, None)
    | (k, v) :: t =>
        match f s k v with
        | (s', Some e) => (s', Some e)
        | (s', None) => visit f t s'
        end
    end.
End Spec.
