(* Model of Handler.Marshal of /repo/enc/handler.go over values that refer to memory, so that they can refer to themselves.  Methods
   (enc/handler.go:177-197) are left out: see CuModel. *)
From Coq Require Import Bool Ascii String Arith NArith ZArith List.
From Verif Require Import Prelude Utf8Model DecModel DurModel EncModel JsonModel MarModel.
Import ListNotations.

(* what refers to memory: a pointer, a slice (of n elements beginning with i of an array), a map; enc/handler.go:219,224,241 *)
Inductive ref := RPtr (a : nat) | RSlice (a i n : nat) | RMap (a : nat).
(* A value, as Marshal sees it (what an interface holds instead of the interface): bool, number or string, with its node; nil; a func
   (enc/handler.go:207); something that refers to memory; an array; a struct.  enc/handler.go:199-275 *)
Inductive gv := GLeaf (n : node) | GNil | GFunc | GRef (r : ref) | GArr (l : list gv) | GStruct (fs : list (fld * gv)).
(* memory: variables, arrays, maps in the order in which MapKeys returns them; enc/handler.go:223,231,246 *)
Inductive cell := CVar (v : gv) | CArr (l : list gv) | CMap (l : list (gv * gv)).
Definition memory := list cell.

(* How a call of Marshal ends (enc/handler.go:175). *)
Inductive mend (A : Type) := MOk (a : A) | MErr | MPanic.
Arguments MOk {A} a.
Arguments MErr {A}.
Arguments MPanic {A}.
(* None: not yet (enc/handler.go:175) *)
Definition obind {A C} (r : option (mend A)) (f : A -> option (mend C)) : option (mend C) :=
  match r with Some (MOk a) => f a | Some MErr => Some MErr | Some MPanic => Some MPanic | None => None end.
(* enc/handler.go:229-238 *)
Fixpoint elems (f : gv -> option (mend node)) (l : list gv) : option (mend (list node)) :=
  match l with
  | [] => Some (MOk [])
  | v :: r => obind (f v) (fun n => obind (elems f r) (fun ns => Some (MOk (n :: ns))))
  end.
(* enc/handler.go:252-269: the text of a key *)
Definition key_text (n : node) : option bytes :=
  match n with NStr s => Some s | NInt z => Some (decz z) | NFloat x => Some (f_str x) | NDigits s => Some s | _ => None end.
(* enc/handler.go:245-271 *)
Fixpoint entries (f : gv -> option (mend node)) (acc : list (bytes * node)) (l : list (gv * gv)) : option (mend (list (bytes * node))) :=
  match l with
  | [] => Some (MOk acc)
  | (k, v) :: r =>
      obind (f v) (fun n => obind (f k) (fun kn =>
      match key_text kn with Some s => entries f (mset beqb acc s n) r | None => Some MErr end))
  end.
(* enc/handler.go:278-317 *)
Fixpoint fields (f : gv -> option (mend node)) (fs : list (fld * gv)) : option (mend (list (bytes * bytes * node))) :=
  match fs with
  | [] => Some (MOk [])
  | (d, v) :: r =>
      if f_exported d then
        match parseTag d with
        | Panic => Some MPanic
        | Ok tg =>
            if g_skip tg then fields f r
            else obind (f v) (fun n => obind (fields f r) (fun ps =>
                 Some (MOk (if g_omit tg && is_empty n then ps else ((f_name d, g_json tg), n) :: ps))))
        end
      else fields f r
  end.
(* enc/handler.go:175-318 Handler.Marshal with calls nested at most fuel deep: None if that is not enough *)
Fixpoint marshal (fuel : nat) (h : memory) (v : gv) : option (mend node) :=
  match fuel with
  | 0 => None
  | S fuel =>
      let f := marshal fuel h in
      match v with
      | GLeaf n => Some (MOk n)
      | GNil => Some (MOk NNil)
      | GFunc => Some MErr
      | GRef (RPtr a) => match nth_error h a with Some (CVar w) => f w | _ => Some MPanic end
      | GRef (RSlice a i n) =>
          match nth_error h a with Some (CArr l) => obind (elems f (firstn n (skipn i l))) (fun ns => Some (MOk (NList ns))) | _ => Some MPanic end
      | GRef (RMap a) =>
          match nth_error h a with Some (CMap l) => obind (entries f [] l) (fun m => Some (MOk (NMap m))) | _ => Some MPanic end
      | GArr l => obind (elems f l) (fun ns => Some (MOk (NList ns)))
      | GStruct fs => obind (fields f fs) (fun ps => Some (MOk (NPairs ps)))
      end
  end.
