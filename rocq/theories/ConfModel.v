(* Model of /repo/config/config.go. *)
From Coq Require Import Bool Ascii String Arith NArith ZArith List.
From Verif Require Import Prelude Utf8Model DecModel DurModel EncModel MarModel.
Import ListNotations.

(* Values of configuration fields.  nil and empty slices are not told apart, nor are nil and empty maps; VOpaque is whatever
   else a type with its own UnmarshalText or UnmarshalJSON holds.  config/config.go:72-143 *)
Inductive cval := CVBool (b : bool) | CVInt (z : Z) | CVStr (s : bytes) | CVList (l : list cval)
| CVMap (l : list (bytes * cval)) | CVOpaque (s : bytes).
(* Types of fields.  named: declared as type T bool or T int; plain: the keys have type string itself.  A type with a method
   UnmarshalText or UnmarshalJSON is given by what the method makes of the old value and a text (true: it returned nil), and
   whether it is called for empty texts too; without the method it would be the third argument.  CNone is any other kind,
   with its zero value.  config/config.go:73-88,140 *)
Inductive cty :=
| CBool (named : bool) | CInt (named : bool) | CStr | CSlice (t : cty) | CMap (plain : bool) (t : cty)
| CHook (always : bool) (hook : cval -> bytes -> cval * bool) (t : cty) | CNone (zero : cval).
(* reflect.New, config/config.go:114,130 *)
Fixpoint czero (t : cty) : cval :=
  match t with
  | CBool _ => CVBool false
  | CInt _ => CVInt 0
  | CStr => CVStr []
  | CSlice _ => CVList []
  | CMap _ _ => CVMap []
  | CHook _ _ t => czero t
  | CNone z => z
  end.

(* strings.Split(s, sep) for one byte; config/config.go:33,111,127 *)
Fixpoint split_at (sep : N) (s : bytes) : list bytes :=
  match s with
  | [] => [[]]
  | c :: r =>
      if N.eqb (code c) sep then [] :: split_at sep r
      else match split_at sep r with w :: l => (c :: w) :: l | [] => [[c]] end
  end.
(* strings.Cut(s, "="), and strings.SplitN(s, "=", 2) with "" for a missing second part; config/config.go:39-42,129 *)
Fixpoint cut_eq (s : bytes) : bytes * bytes :=
  match s with
  | [] => ([], [])
  | c :: r => if N.eqb (code c) 61 then ([], r) else let (a, b) := cut_eq r in (c :: a, b)
  end.
(* strings.ToLower; config/config.go:91.  Only the letters A-Z: the other characters that have an ASCII letter as lower case
   are U+0130 (i) and U+212A (k), which occur in no word it is compared with. *)
Definition lower (c : ascii) : ascii := if (65 <=? code c)%N && (code c <=? 90)%N then chr (code c + 32) else c.

(* the errors; config/config.go:23,48,54,97,103,140, and what hooks return *)
Inductive cerr := EStruct | EOption (key def : bytes) | EMissing (key : bytes) | EBool (name val : bytes) | EInt (name val : bytes) | EKind | EHook.
(* What is in the variable afterwards, with nil or the error; or it panicked. *)
Inductive cres := COk (v : cval) | CErr (v : cval) (e : cerr) | CPanic.

(* config/config.go:112-120: the values of the items, into zero values *)
Fixpoint conf_items (f : bytes -> cres) (l : list bytes) : res (list cval + cerr) :=
  match l with
  | [] => Ok (inl [])
  | s :: r =>
      match f s with
      | COk v => rbind (conf_items f r) (fun x => Ok (match x with inl vs => inl (v :: vs) | inr e => inr e end))
      | CErr _ e => Ok (inr e)
      | CPanic => Panic
      end
  end.
(* config/config.go:128-136: SetMapIndex panics unless the keys have type string *)
Fixpoint conf_pairs (plain : bool) (f : bytes -> cres) (acc : list (bytes * cval)) (l : list bytes) : res (list (bytes * cval) + cerr) :=
  match l with
  | [] => Ok (inl acc)
  | s :: r =>
      let (k, x) := cut_eq s in
      match f x with
      | COk v => if plain then conf_pairs plain f (mset beqb acc k v) r else Panic
      | CErr _ e => Ok (inr e)
      | CPanic => Panic
      end
  end.
(* config/config.go:72-143 unmarshalText.  dest.Set of a plain bool or int panics if the type is another one (lines 99, 105). *)
Fixpoint unmarshalText (t : cty) (name : bytes) (s : bytes) (old : cval) {struct t} : cres :=
  match t with
  | CHook always hook t' =>
      match always, s with
      | false, [] => unmarshalText t' name s old
      | _, _ => let (v, ok) := hook old s in if ok then COk v else CErr v EHook
      end
  | CBool named =>
      let w := map lower s in
      let set b := if named then CPanic else COk (CVBool b) in
      if existsb (beqb w) [B "true"; B "1"; B "yes"; B "y"] then set true
      else if existsb (beqb w) [B ""; B "false"; B "0"; B "no"; B "n"] then set false
      else CErr old (EBool name s)
  | CInt named => match parse_int s with Some z => if named then CPanic else COk (CVInt z) | None => CErr old (EInt name s) end
  | CStr => COk (CVStr s)
  | CSlice t' =>
      match s with
      | [] => COk old
      | _ => match conf_items (fun x => unmarshalText t' (name ++ B "[]") x (czero t')) (split_at 44 s) with
             | Ok (inl vs) => COk (CVList ((match old with CVList l => l | _ => [] end) ++ vs))
             | Ok (inr e) => CErr old e
             | Panic => CPanic
             end
      end
  | CMap plain t' =>
      match s with
      | [] => COk old
      | _ => match conf_pairs plain (fun x => unmarshalText t' (name ++ B "[]") x (czero t')) [] (split_at 44 s) with
             | Ok (inl m) => COk (CVMap m)
             | Ok (inr e) => CErr old e
             | Panic => CPanic
             end
      end
  | CNone _ => CErr old EKind
  end.

(* config/config.go:36-50: the default, if any *)
Fixpoint options (key : bytes) (def : option bytes) (l : list bytes) : option bytes + cerr :=
  match l with
  | [] => inl def
  | d :: r => let (n, x) := cut_eq d in if beqb n (B "default") then options key (Some x) r else inr (EOption key d)
  end.
(* a field of the struct: exported or not, its tag `config` (reflect.StructTag.Get, "" if none), its type; config/config.go:28-29 *)
Record cfld := CFld { c_exported : bool; c_tag : bytes; c_type : cty }.
(* one turn of the loop; config/config.go:28-63.  Interface() panics on fields that are not exported (line 73).  The list is
   the keys that f was called with. *)
Definition conf_field (env : bytes -> bytes) (f : cfld) (old : cval) : cres * list bytes :=
  match c_tag f with
  | [] => (COk old, [])
  | _ =>
      match split_at 44 (c_tag f) with
      | [] => (CPanic, [])
      | key :: opts =>
          match options key None opts with
          | inr e => (CErr old e, [])
          | inl def =>
              (match env key, def with
               | [], None => CErr old (EMissing key)
               | [], Some d => if c_exported f then unmarshalText (c_type f) key d old else CPanic
               | v, _ => if c_exported f then unmarshalText (c_type f) key v old else CPanic
               end, [key])
          end
      end
  end.
(* what From returns *)
Inductive fres := FOk (vs : list cval) | FErr (vs : list cval) (e : cerr) | FPanic.
(* config/config.go:27-65 *)
Fixpoint conf_fields (env : bytes -> bytes) (fs : list cfld) (vs : list cval) : fres * list bytes :=
  match fs, vs with
  | f :: fs', v :: vs' =>
      match conf_field env f v with
      | (COk w, c) =>
          let (r, c') := conf_fields env fs' vs' in
          (match r with FOk ws => FOk (w :: ws) | FErr ws e => FErr (w :: ws) e | FPanic => FPanic end, c ++ c')
      | (CErr w e, c) => (FErr (w :: vs') e, c)
      | (CPanic, c) => (FPanic, c)
      end
  | _, _ => (FOk vs, [])
  end.
(* config/config.go:21-66 From; fields = None: T is not a struct *)
Definition From (env : bytes -> bytes) (fields : option (list cfld)) (vs : list cval) : fres * list bytes :=
  match fields with
  | None => (FErr vs EStruct, [])
  | Some fs => conf_fields env fs vs
  end.
(* config/config.go:13-19 Must *)
Definition Must (env : bytes -> bytes) (fields : option (list cfld)) (vs : list cval) : res (list cval) :=
  match fst (From env fields vs) with FOk ws => Ok ws | _ => Panic end.

(* ---- slices in memory ---- *)
(* A Go slice is a place in an array and a length; its capacity is the length of the array (slices here start at its
   beginning).  cfg is copied when From is called (config/config.go:21), which copies this pair and not the array. *)
Section Memory.
  Context {V : Type}.
  (* the arrays, each made when it is appended to this list; config/config.go:119 *)
  Definition heap := list (list V).
  (* see above *)
  Record slc := Slc { s_array : nat; s_len : nat }.
  (* the elements; config/config.go:119 *)
  Definition read (h : heap) (s : slc) : list V := firstn (s_len s) (nth (s_array s) h []).
  (* reflect.Append(x, v), config/config.go:119: in place if there is room, else in a new array with extra further places (Go
     decides how many) that hold x *)
  Definition append (extra : nat) (x : V) (h : heap) (s : slc) (v : V) : heap * slc :=
    let arr := nth (s_array s) h [] in
    if s_len s <? length arr then (upd h (s_array s) (upd arr (s_len s) v), Slc (s_array s) (S (s_len s)))
    else (h ++ [firstn (s_len s) arr ++ v :: repeat x extra], Slc (length h) (S (s_len s))).
  (* config/config.go:111-121: one after the other; grow gives extra *)
  Fixpoint append_all (grow : nat -> nat) (x : V) (h : heap) (s : slc) (vs : list V) : heap * slc :=
    match vs with
    | [] => (h, s)
    | v :: r => let (h', s') := append (grow (s_len s)) x h s v in append_all grow x h' s' r
    end.
End Memory.
Arguments heap : clear implicits.
