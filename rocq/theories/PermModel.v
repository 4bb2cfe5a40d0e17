(* Model of /repo/utils/lists/perm.go. *)
From Coq Require Import Bool Arith ZArith Lia List.
From Verif Require Import Prelude.
Import ListNotations.

(* utils/lists/perm.go:28-31 permElem *)
Record permElem := PE { right : bool; orig : nat }.

(* utils/lists/perm.go:58-71, the tests that skip an element that cannot move.  Out of range
   reads (which would panic in Go) count as "cannot move"; they do not occur since
   the border tests come first. *)
Definition can_move (elems : list permElem) (i : nat) : bool :=
  match nth_error elems i with
  | None => false
  | Some el =>
      if right el then
        if i =? length elems - 1 then false
        else match nth_error elems (i + 1) with
             | Some e' => if orig el <? orig e' then false else true
             | None => false
             end
      else
        if i =? 0 then false
        else match nth_error elems (i - 1) with
             | Some e' => if orig el <? orig e' then false else true
             | None => false
             end
  end.

(* utils/lists/perm.go:73-77, remember the best one.  None stands for best = -1,
   best_orig = -1; Some (best, best_orig) otherwise. *)
Definition scan_step (elems : list permElem) (acc : option (nat * nat)) (i : nat)
  : option (nat * nat) :=
  if can_move elems i then
    match nth_error elems i with
    | None => acc
    | Some el =>
        match acc with
        | None => Some (i, orig el)
        | Some (_, best_orig) => if best_orig <? orig el then Some (i, orig el) else acc
        end
    end
  else acc.

(* utils/lists/perm.go:55-78, the first loop of next *)
Definition scan (elems : list permElem) : option (nat * nat) :=
  fold_left (scan_step elems) (seq 0 (length elems)) None.

(* utils/lists/perm.go:94-99, the last loop of next *)
Definition flip_bigger (best_orig : nat) (elems : list permElem) : list permElem :=
  map (fun el => if best_orig <? orig el then PE (negb (right el)) (orig el) else el) elems.

Section Perm.
  Context {T : Type}.

  (* utils/lists/perm.go:33-36 permGen, with the flag `first` of the closure, utils/lists/perm.go:18 *)
  Record permGen := Gen { first : bool; inplace : list T; elems : list permElem }.

  (* utils/lists/perm.go:51-101 next.  The result is the boolean returned, the elements and the
     slice of the caller after the call. *)
  Definition next (es : list permElem) (sl : list T)
    : res (bool * list permElem * list T) :=
    match scan es with
    | None => Ok (false, es, sl)
    | Some (best, best_orig) =>
        match nth_error es best with
        | None => Panic
        | Some b =>
            let other := if right b then best + 1 else best - 1 in
            rbind (swap es best other) (fun es' =>
            rbind (swap sl best other) (fun sl' =>
            Ok (true, flip_bigger best_orig es', sl')))
        end
    end.

  (* utils/lists/perm.go:38-49 permute and utils/lists/perm.go:16-18, the state captured by the closure *)
  Definition Permute (a : list T) : permGen :=
    Gen true a (map (fun i => PE false i) (seq 0 (length a))).

  (* utils/lists/perm.go:19-25, one call of the closure returned by Permute *)
  Definition call (g : permGen) : res (bool * permGen) :=
    if first g then Ok (true, Gen false (inplace g) (elems g))
    else
      rbind (next (elems g) (inplace g)) (fun '(b, es, sl) => Ok (b, Gen false sl es)).

  (* k successive calls (utils/lists/perm.go:19-25); records what the caller sees after each:
     the boolean and the content of the slice. *)
  Fixpoint calls (k : nat) (g : permGen) : res (list (bool * list T)) :=
    match k with
    | 0 => Ok []
    | S k' => rbind (call g) (fun '(b, g') =>
              rbind (calls k' g') (fun rest => Ok ((b, inplace g') :: rest)))
    end.
End Perm.
Arguments permGen T : clear implicits.
