(* Vocabulary of the theorems about EqualsJSON. *)
From Coq Require Import Bool Ascii String Arith NArith ZArith Lia List Sorted.
From Verif Require Import Prelude Utf8Model DecModel DurModel EncModel JsonSpec RfcSpec.
Import ListNotations.
Local Open Scope N_scope.

(* ---- numbers ---- *)
Definition numeral (s : bytes) : N := fold_left (fun a c => 10 * a + (code c - 48)) s 0.
Definition sign_of (g : bytes) : Z := if beqb g (B "-") then (-1)%Z else 1%Z.
(* the number a text says: a sign, and the quotient P/Q *)
Definition says (s : bytes) (neg : bool) (P Q : N) : Prop :=
  exists ip fd g ed, all_digits ip /\ Forall (fun c => is_digit c = true) fd /\ Forall (fun c => is_digit c = true) ed /\
    (g = [] \/ g = B "+" \/ g = B "-") /\
    (exists fr, (fr = [] /\ fd = [] \/ fr = B "." ++ fd /\ fd <> []) /\
     exists ex, (ex = [] /\ g = [] /\ ed = [] \/ (ex = B "e" ++ g ++ ed \/ ex = B "E" ++ g ++ ed) /\ ed <> []) /\
     s = (if neg then B "-" else []) ++ ip ++ fr ++ ex) /\
    let E := (sign_of g * Z.of_N (numeral ed) - Z.of_nat (length fd))%Z in
    P = numeral (ip ++ fd) * 10 ^ Z.to_N E /\ Q = 10 ^ Z.to_N (- E).

(* the magnitudes of float64, in units of 2^-1074 and without upper limit *)
Definition grid (k : N) : Prop := exists m j, m < 2 ^ 53 /\ k = m * 2 ^ j.
(* the distance of k from P/Q, in units of 2^-1074/Q *)
Definition dist (P Q k : N) : N := Z.to_N (Z.abs (Z.of_N (P * 2 ^ 1074) - Z.of_N (k * Q))).
(* the nearest one; of two the one with the even significand, which is divisible by a higher power of two *)
Definition nearest (P Q k : N) : Prop :=
  grid k /\ forall g, grid g -> g <> k ->
    dist P Q k < dist P Q g \/ (dist P Q k = dist P Q g /\ exists i, N.divide (2 ^ i) k /\ ~ N.divide (2 ^ i) g).
(* the float64 a number text is read as: sign and magnitude *)
Definition reads_float (s : bytes) (f : bool * N) : Prop :=
  exists P Q, says s (fst f) P Q /\ nearest P Q (snd f) /\ snd f < 2 ^ (1024 + 1074).
Definition too_large (s : bytes) : Prop := exists neg P Q k, says s neg P Q /\ nearest P Q k /\ 2 ^ (1024 + 1074) <= k.

(* numbers that float64 holds exactly *)
Definition exact (s : bytes) : Prop := exists neg P Q k, says s neg P Q /\ grid k /\ k < 2 ^ (1024 + 1074) /\ P * 2 ^ 1074 = k * Q.
(* the same number with the same sign, so that 0 and -0 differ *)
Definition same_number (s t : bytes) : Prop := exists neg P Q P' Q', says s neg P Q /\ says t neg P' Q' /\ P * Q' = P' * Q.
Definition same_float (s t : bytes) : Prop := exists f, reads_float s f /\ reads_float t f.

(* every number in a tree, also below members that do not count *)
Fixpoint all_numbers (A : bytes -> Prop) (x : jtree) : Prop :=
  match x with
  | TNum s => A s
  | TArr l => fold_right (fun y P => all_numbers A y /\ P) True l
  | TObj l => fold_right (fun e P => all_numbers A (snd e) /\ P) True l
  | _ => True
  end.

(* two texts say the same, when R tells which numbers are the same *)
Inductive alike (R : bytes -> bytes -> Prop) : jtree -> jtree -> Prop :=
| al_null : alike R TNull TNull
| al_bool b : alike R (TBool b) (TBool b)
| al_num s t : R s t -> alike R (TNum s) (TNum t)
| al_str s : alike R (TStr s) (TStr s)
| al_arr l m : Forall2 (alike R) l m -> alike R (TArr l) (TArr m)
| al_obj l m :
    (forall k x, last_member l k = Some x -> exists y, last_member m k = Some y /\ alike R x y) ->
    (forall k y, last_member m k = Some y -> exists x, last_member l k = Some x) -> alike R (TObj l) (TObj m).

(* a node without floats, times and durations and a text say the same *)
Inductive agrees : node -> jtree -> Prop :=
| ag_nil : agrees NNil TNull
| ag_bool b : agrees (NBool b) (TBool b)
| ag_int z s P Q : says s (z <? 0)%Z P Q -> P = Z.abs_N z * Q -> agrees (NInt z) (TNum s)
| ag_str s : agrees (NStr s) (TStr s)
| ag_list l m : Forall2 agrees l m -> agrees (NList l) (TArr m)
| ag_map l m :
    (forall k n, In (k, n) l -> exists y, last_member m k = Some y /\ agrees n y) ->
    (forall k y, last_member m k = Some y -> exists n, In (k, n) l) -> agrees (NMap l) (TObj m)
| ag_pairs l m :
    (forall i k n, In (i, k, n) l -> exists y, last_member m k = Some y /\ agrees n y) ->
    (forall k y, last_member m k = Some y -> exists i n, In (i, k, n) l) -> agrees (NPairs l) (TObj m).

(* every number in the text is within the range of float64 *)
Definition in_range (x : jtree) : Prop := all_numbers (fun s => exists f, reads_float s f) x.
(* the finite float64 *)
Definition float64 (f : bool * N) : Prop := grid (snd f) /\ snd f < 2 ^ (1024 + 1074).
(* what is asked of encoding/json's text of floats: a number, another one for every float, and plain digits for small integers *)
Definition prints (ftext : bool * N -> bytes) : Prop :=
  (forall f, float64 f -> json_number (ftext f)) /\
  (forall f g, float64 f -> float64 g -> ftext f = ftext g -> f = g) /\
  (forall z, (Z.abs z <= 2 ^ 53)%Z -> ftext ((z <? 0)%Z, Z.abs_N z * 2 ^ 1074) = decz z).

(* the order of texts byte by byte, as in a dictionary *)
Inductive before : bytes -> bytes -> Prop :=
| bf_end c t : before [] (c :: t)
| bf_less c d s t : code c < code d -> before (c :: s) (d :: t)
| bf_same c s t : before s t -> before (c :: s) (c :: t).
Definition in_order (l : list bytes) : Prop := StronglySorted before l.
Definition json_names (l : list (bytes * bytes * node)) : list bytes := map (fun e => snd (fst e)) l.

(* values without floats, times and durations, with integers that float64 holds and with the fields of structs in order *)
Fixpoint plain (n : node) : Prop :=
  match n with
  | NNil | NBool _ => True
  | NInt z => (Z.abs z <= 2 ^ 53)%Z
  | NStr s => valid_utf8 s = true
  | NList l => fold_right (fun x P => plain x /\ P) True l
  | NMap l => NoDup (map fst l) /\ fold_right (fun e P => valid_utf8 (fst e) = true /\ plain (snd e) /\ P) True l
  | NPairs l => in_order (json_names l) /\ fold_right (fun e P => valid_utf8 (snd (fst e)) = true /\ plain (snd e) /\ P) True l
  | _ => False
  end.
