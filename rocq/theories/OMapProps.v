(* Theorems about OrderedMap: C06. *)
From Coq Require Import Bool Arith ZArith Lia List.
From Verif Require Import Prelude OMapModel OMapSpec OMapProofs.
Import ListNotations.

(* C06: no history of Get, Put and Delete panics, every answer is the one of an association
   list in insertion order, and Len, Keys, Values and Range show that list. *)
Theorem C06_ordered_map : forall (K V : Type) (eqb : K -> K -> bool), eqb_ok eqb ->
  forall (dec : forall x y : K, {x = y} + {x <> y}) (ops : list (oop K V)),
  exists m, orun eqb NewOrderedMap ops = Ok (fst (spec_run dec [] ops), m) /\
    let l := snd (spec_run dec [] ops) in
    oLen m = length l /\ oKeys m = map fst l /\ oValues m = map snd l /\
    forall (S E : Type) (f : S -> K -> V -> S * option E) s, oRange f m s = visit f l s.
Proof. exact @ordered_map. Qed.
Print Assumptions C06_ordered_map.

(* The specification list never holds a key twice. *)
Theorem C06_keys_distinct : forall (K V : Type) (dec : forall x y : K, {x = y} + {x <> y})
  (ops : list (oop K V)), NoDup (map fst (snd (spec_run dec [] ops))).
Proof. intros. apply spec_nodup. constructor. Qed.
Print Assumptions C06_keys_distinct.

Example C06_ex :
  let ops := [OPut 1 10; OPut 2 20; OPut 3 30; OPut 1 11; ODelete 2; OPut 2 21; ODelete 9; OGet 1] in
  spec_run Nat.eq_dec [] ops =
    ([None; None; None; Some 10; Some 20; None; None; Some 11], [(1, 11); (3, 30); (2, 21)]) /\
  exists m, orun Nat.eqb NewOrderedMap ops = Ok (fst (spec_run Nat.eq_dec [] ops), m) /\
    oKeys m = [1; 3; 2] /\
    oRange (fun s k _ => (s ++ [k], if k =? 3 then Some 7 else None)) m [] = ([1; 3], Some 7).
Proof. split; [reflexivity|]. eexists. split; [vm_compute; reflexivity|]. vm_compute. auto. Qed.
