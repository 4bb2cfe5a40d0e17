(* Vocabulary of the metric theorems. *)
From Coq Require Import Bool Ascii String Arith NArith ZArith Lia List.
From Verif Require Import Prelude PromModel.
Import ListNotations.

(* equality of lists of label values *)
Definition lbeqb (a b : list bytes) : bool := if list_eq_dec (list_eq_dec ascii_dec) a b then true else false.

Section S.
  Context {V : Type}.

  (* the observations finished by a schedule, oldest first, with their label values: a caller that
     entered with the right number of labels and then updated *)
  Definition obs_step (nkeys : nat) (st : (nat -> option (list bytes * V)) * list (list bytes * V))
      (l : mlabel V) : (nat -> option (list bytes * V)) * list (list bytes * V) :=
    let '(p, d) := st in
    match l with
    | LFind t v vals =>
        match p t with
        | Some _ => st
        | None => if (nkeys =? length vals)%nat
                  then ((fun u => if Nat.eqb u t then Some (vals, v) else p u), d) else st
        end
    | LUpdate t =>
        match p t with
        | Some x => ((fun u => if Nat.eqb u t then None else p u), d ++ [x])
        | None => st
        end
    | LPrint _ => st
    end.
  Definition finished (nkeys : nat) (ls : list (mlabel V)) : list (list bytes * V) :=
    snd (fold_left (obs_step nkeys) ls ((fun _ => None), [])).

  (* the values observed for one list of label values *)
  Definition values_of (vals : list bytes) (d : list (list bytes * V)) : list V :=
    map snd (filter (fun e => lbeqb (fst e) vals) d).
  (* how many of them are not above a bound *)
  Definition count_le (leb : V -> V -> bool) (b : V) (os : list V) : nat :=
    length (filter (fun x => leb x b) os).
End S.

(* what a call adds to counter cell id *)
Definition delta (id : nat) (o : gop) : Z :=
  match o with
  | GInc i a => if Nat.eqb i id then a else 0
  | GDec i a => if Nat.eqb i id then - a else 0
  | _ => 0
  end%Z.
Definition total (id : nat) (ops : list gop) : Z := fold_right Z.add 0%Z (map (delta id) ops).
Definition sets_func (k : bytes) (o : gop) : Prop := exists f, o = GSetFunc k f.
