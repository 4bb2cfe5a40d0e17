(* Model of /repo/utils/ordered_map.go. *)
From Coq Require Import Bool Arith ZArith Lia List.
From Verif Require Import Prelude.
Import ListNotations.

Section OMap.
  Context {K V : Type} (eqb : K -> K -> bool).

  (* utils/ordered_map.go:3-6 OrderedMap; a nil pair pointer is None.  byKey is never iterated:
     a function. *)
  Record omap := OMap { olist : list (option (K * V)); byKey : K -> option nat }.

  (* utils/ordered_map.go:13-17 NewOrderedMap *)
  Definition NewOrderedMap : omap := OMap [] (fun _ => None).

  (* this.list[i] with i from byKey, then a field of the pointed pair (utils/ordered_map.go:27,36,51):
     panics when out of range or nil *)
  Definition pair_at (m : omap) (i : nat) : res (K * V) :=
    match nth_error (olist m) i with
    | Some (Some p) => Ok p
    | _ => Panic
    end.

  (* utils/ordered_map.go:24-31 Get; MapEntry{v, true} is Some v, MapEntry{} is None *)
  Definition oGet (m : omap) (k : K) : res (option V) :=
    match byKey m k with
    | Some i => rbind (pair_at m i) (fun p => Ok (Some (snd p)))
    | None => Ok None
    end.

  (* utils/ordered_map.go:33-45 Put; the previous value is returned *)
  Definition oPut (m : omap) (k : K) (v : V) : res (option V * omap) :=
    match byKey m k with
    | Some i => rbind (pair_at m i) (fun p =>
        Ok (Some (snd p), OMap (upd (olist m) i (Some (fst p, v))) (byKey m)))
    | None => Ok (None, OMap (olist m ++ [Some (k, v)])
                          (fun k' => if eqb k' k then Some (length (olist m)) else byKey m k'))
    end.

  (* utils/ordered_map.go:48-58 Delete *)
  Definition oDelete (m : omap) (k : K) : res (option V * omap) :=
    match byKey m k with
    | Some i => rbind (pair_at m i) (fun p =>
        Ok (Some (snd p), OMap (upd (olist m) i None) (fun k' => if eqb k' k then None else byKey m k')))
    | None => Ok (None, m)
    end.

  (* utils/ordered_map.go:60-71 Range.  The callback threads a state S (what it closes over) and
     returns an optional error.  A callback that writes to the map is not modelled. *)
  Section Range.
    Context {S E : Type} (f : S -> K -> V -> S * option E).
    (* utils/ordered_map.go:61-69 the loop *)
    Fixpoint range_list (l : list (option (K * V))) (s : S) : S * option E :=
      match l with
      | [] => (s, None)
      | None :: t => range_list t s
      | Some (k, v) :: t =>
          match f s k v with
          | (s', Some e) => (s', Some e)
          | (s', None) => range_list t s'
          end
      end.
    (* utils/ordered_map.go:60-71 *)
    Definition oRange (m : omap) (s : S) : S * option E := range_list (olist m) s.
  End Range.

  (* utils/ordered_map.go:73-80 Len *)
  Definition oLen (m : omap) : nat :=
    fst (oRange (E := Empty_set) (fun n _ _ => (S n, None)) m 0).
  (* utils/ordered_map.go:82-89 Keys *)
  Definition oKeys (m : omap) : list K :=
    fst (oRange (E := Empty_set) (fun l k _ => (l ++ [k], None)) m []).
  (* utils/ordered_map.go:91-98 Values *)
  Definition oValues (m : omap) : list V :=
    fst (oRange (E := Empty_set) (fun l _ v => (l ++ [v], None)) m []).

  (* calls on the map: utils/ordered_map.go:24,33,48 *)
  Inductive oop := OGet (k : K) | OPut (k : K) (v : V) | ODelete (k : K).

  (* one call, utils/ordered_map.go:24-58 *)
  Definition ostep (m : omap) (o : oop) : res (option V * omap) :=
    match o with
    | OGet k => rbind (oGet m k) (fun r => Ok (r, m))
    | OPut k v => oPut m k v
    | ODelete k => oDelete m k
    end.

  (* a history of calls, utils/ordered_map.go:24-58 *)
  Fixpoint orun (m : omap) (ops : list oop) : res (list (option V) * omap) :=
    match ops with
    | [] => Ok ([], m)
    | o :: rest => rbind (ostep m o) (fun '(r, m1) =>
                   rbind (orun m1 rest) (fun '(rs, m2) => Ok (r :: rs, m2)))
    end.
End OMap.
Arguments omap : clear implicits.
Arguments oop : clear implicits.
