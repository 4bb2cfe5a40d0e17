(* Model of StackFrame of /repo/utils/stack.go: the file of a frame, with go.mod, and the names of its function. *)
From Coq Require Import Bool Ascii String Arith NArith List.
From Verif Require Import Prelude Utf8Model DurModel.
Import ListNotations.

(* strings.HasPrefix and what follows; utils/stack.go:51, and the literal of utils/stack.go:89 *)
Fixpoint cut (p s : bytes) : option bytes :=
  match p, s with
  | [], _ => Some s
  | x :: p', y :: s' => if N.eqb (code x) (code y) then cut p' s' else None
  | _ :: _, [] => None
  end.
(* \s of package regexp (\S is all else, bytes that are no UTF-8 as well); utils/stack.go:89 *)
Definition blank (c : ascii) : bool := (N.eqb (code c) 32 || N.eqb (code c) 9 || N.eqb (code c) 10 || N.eqb (code c) 12 || N.eqb (code c) 13)%bool.
(* \S, as many as there are; utils/stack.go:89 *)
Fixpoint word (s : bytes) : bytes := match s with c :: r => if blank c then [] else c :: word r | [] => [] end.
(* " +": all spaces, as \S matches none; utils/stack.go:89 *)
Fixpoint spaces (s : bytes) : bytes := match s with c :: r => if N.eqb (code c) 32 then spaces r else s | [] => [] end.
(* the expression at the beginning of s: what the group matches; utils/stack.go:89 *)
Definition here (s : bytes) : option bytes :=
  match cut (B "module ") s with
  | Some r => match word (spaces r) with [] => None | w => Some w end
  | None => None
  end.
(* FindStringSubmatch: the leftmost match; utils/stack.go:89 *)
Fixpoint find (s : bytes) : option bytes :=
  match here s with
  | Some w => Some w
  | None => match s with [] => None | _ :: r => find r end
  end.

(* mod of utils/stack.go:81-84 *)
Record module := Mod { m_name : bytes; m_path : bytes }.
(* an absolute path without "." and "..", by its elements, the last first: its text, as os.Getwd and filepath.Dir give it; utils/stack.go:85,96 *)
Definition dir_text (d : list bytes) : bytes := match d with [] => B "/" | _ => concat (map (fun x => "/"%char :: x) (rev d)) end.
(* utils/stack.go:85-102: in directory d; file: the content of d/go.mod, empty if there is none.  filepath.Dir drops the last element. *)
Fixpoint find_mod (file : list bytes -> bytes) (d : list bytes) : module :=
  match file d with
  | [] => match d with [] => Mod [] [] | _ :: p => find_mod file p end
  | body => Mod (match find body with Some n => n | None => [] end) (dir_text d)
  end.

(* utils/stack.go:46-57 AbsFile; exists: os.Stat finds the file *)
Definition AbsFile (exists_ : bytes -> bool) (m : module) (file : bytes) : bytes :=
  if exists_ file then file
  else match cut (m_name m) file with
       | Some p => if beqb p file then file else m_path m ++ p
       | None => file
       end.

(* strings.Split(s, sep) for a separator of one byte; utils/stack.go:65,71 *)
Fixpoint split (sep : ascii) (s : bytes) : list bytes :=
  match s with
  | [] => [[]]
  | c :: r => if N.eqb (code c) (code sep) then [] :: split sep r else match split sep r with x :: l => (c :: x) :: l | [] => [[c]] end
  end.
(* p[len(p)-1]; utils/stack.go:66,72 *)
Definition last_part (sep : ascii) (s : bytes) : bytes := last (split sep s) [].
(* strings.TrimSuffix(s, suf); utils/stack.go:70 *)
Definition trim_suffix (suf s : bytes) : bytes := match cut (rev suf) (rev s) with Some r => rev r | None => s end.
(* utils/stack.go:64-67 *)
Definition ShortFunc (f : bytes) : bytes := last_part "/"%char f.
(* utils/stack.go:69-73 *)
Definition FuncName (f : bytes) : bytes := last_part "."%char (trim_suffix (B "[...]") f).
