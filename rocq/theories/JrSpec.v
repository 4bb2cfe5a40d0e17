(* Vocabulary of the statements about ctx.JSON: C150. *)
From Coq Require Import Bool Ascii String Arith NArith List.
From Verif Require Import Prelude JrModel.
Import ListNotations.

(* a slice lies in its array *)
Definition within (h : heap) (s : slice) : Prop := s_arr s < length h /\ s_off s + s_len s <= length (arr h (s_arr s)).
(* writes by the rest of the program: the array, the place, the bytes; each within its array *)
Definition writes := list (nat * nat * bytes).
Definition apply (h : heap) (ws : writes) : heap := fold_left (fun h w => write h (fst (fst w)) (snd (fst w)) (snd w)) ws h.
Definition fits (h : heap) (w : nat * nat * bytes) : Prop := fst (fst w) < length h /\ snd (fst w) + length (snd w) <= length (arr h (fst (fst w))).
(* a write and a slice have no byte in common *)
Definition apart (s : slice) (w : nat * nat * bytes) : Prop :=
  fst (fst w) <> s_arr s \/ snd (fst w) + length (snd w) <= s_off s \/ s_off s + s_len s <= snd (fst w).
(* the byte at p of what was read as the first of these documents, when all have been read: of the last one that is long enough *)
Fixpoint shown_at (docs : list bytes) (p : nat) : option ascii :=
  match docs with
  | [] => None
  | d :: ds => match shown_at ds p with Some c => Some c | None => nth_error d p end
  end.
(* every one of these documents fits into the array of the decoder, the first one of the program *)
Definition room (h : heap) (docs : list bytes) : Prop := 0 < length h /\ Forall (fun d => length d <= length (arr h 0)) docs.
