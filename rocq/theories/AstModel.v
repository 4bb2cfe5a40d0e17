(* Model of /repo/utils/ast/call_args.go: the text of the arguments of a call, found in the source. *)
From Coq Require Import Bool Ascii String Arith NArith List.
From Verif Require Import Prelude Utf8Model DurModel.
Import ListNotations.

(* ---- the source ---- *)
(* an argument: its text; for a function literal the text from its first to its last statement, None if there is none
   (utils/ast/call_args.go:132-140,160-168) *)
Record arg := Arg { a_src : bytes; a_lit : option (option bytes) }.
(* what is called: an identifier, a selector with this name, anything else (utils/ast/call_args.go:124-127,149-151,176-181) *)
Inductive callee := FIdent (name : bytes) | FSel (name : bytes) | FOther.
(* The nodes of go/ast as Visit distinguishes them (utils/ast/call_args.go:98-186), with their children in the order of ast.Walk.
   An assignment: the text from its first right side to its end, and its left sides, None if not an identifier.  A call: its line,
   what is called, the arguments. *)
Inductive tree :=
| TBlock (l : list tree)
| TAssign (rhs : bytes) (lhs : list (option bytes)) (l : list tree)
| TCall (line : nat) (f : callee) (args : list arg) (l : list tree)
| TOther (l : list tree).

(* ---- what is found ---- *)
(* utils/ast/call_args.go:21-24 Arg *)
Record carg := CArg { c_src : bytes; c_assignment : bytes }.
(* the map scope: nil, or texts by name; utils/ast/call_args.go:80 *)
Definition scope : Type := option (list (bytes * bytes)).
(* this.scope[name], empty if there is none; utils/ast/call_args.go:144,170 *)
Definition lookup (sc : scope) (name : bytes) : bytes :=
  match sc with
  | Some m => match mget beqb m name with Some s => s | None => [] end
  | None => []
  end.
(* the loop over the left sides; writing to a nil map panics; utils/ast/call_args.go:111-117 *)
Fixpoint assign (sc : scope) (rhs : bytes) (lhs : list (option bytes)) : res scope :=
  match lhs with
  | [] => Ok sc
  | None :: r => assign sc rhs r
  | Some x :: r => match sc with Some m => assign (Some (mset beqb m x rhs)) rhs r | None => Panic end
  end.
(* one argument; Body.List[0] of an empty body panics; utils/ast/call_args.go:133-145,161-171 *)
Definition arg_of (sc : scope) (a : arg) : res carg :=
  match a_lit a with
  | None => Ok (CArg (a_src a) (lookup sc (a_src a)))
  | Some (Some s) => Ok (CArg s (lookup sc s))
  | Some None => Panic
  end.
(* the loop over the arguments; utils/ast/call_args.go:132-146,160-172 *)
Fixpoint args_of (sc : scope) (l : list arg) : res (list carg) :=
  match l with
  | [] => Ok []
  | a :: r => rbind (arg_of sc a) (fun c => rbind (args_of sc r) (fun cs => Ok (c :: cs)))
  end.

Section Walk.
  (* this.stack.Line and this.fname; utils/ast/call_args.go:83-84 *)
  Context (line : nat) (fname : bytes).
  (* utils/ast/call_args.go:122,127,151 *)
  Definition matches (l : nat) (f : callee) : bool :=
    (l =? line) && match f with FIdent n | FSel n => beqb n fname | FOther => false end.
  (* ast.Walk with Visit, utils/ast/call_args.go:98-186: the map afterwards, and the calls that were found, in that order.  The
     children of a block work on a copy of the map, everything else on the same map. *)
  Fixpoint walk (sc : scope) (t : tree) {struct t} : res (scope * list (list carg)) :=
    let fix walks (sc : scope) (l : list tree) : res (scope * list (list carg)) :=
      match l with
      | [] => Ok (sc, [])
      | t :: r => rbind (walk sc t) (fun a => rbind (walks (fst a) r) (fun b => Ok (fst b, snd a ++ snd b)))
      end in
    match t with
    | TBlock l => rbind (walks (Some (match sc with Some m => m | None => [] end)) l) (fun a => Ok (sc, snd a))
    | TAssign rhs lhs l => rbind (assign sc rhs lhs) (fun sc1 => walks sc1 l)
    | TCall n f args l =>
        if matches n f then rbind (args_of sc args) (fun c => rbind (walks sc l) (fun a => Ok (fst a, c :: snd a)))
        else walks sc l
    | TOther l => walks sc l
    end.
End Walk.

(* The place of a call: what reading and parsing its file gives, None if one of them fails (utils/ast/call_args.go:53-61), the line,
   the name of the function that was called, and the text file:line (utils/stack.go:59-61,69-73) *)
Record site := Site { s_file : option tree; s_line : nat; s_fname : bytes; s_fl : bytes }.
(* utils/ast/call_args.go:50-77 Caller: the last call that was found *)
Definition Caller (s : site) : outcome (list carg) unit :=
  match s_file s with
  | None => Fail tt
  | Some t =>
      match walk (s_line s) (s_fname s) None t with
      | Panic => Crash
      | Ok (_, cs) => match rev cs with [] => Fail tt | c :: _ => Good c end
      end
  end.
(* strings.Split(s, "\n")[0]; utils/ast/call_args.go:31 *)
Fixpoint firstline (s : bytes) : bytes :=
  match s with [] => [] | c :: r => if (code c =? 10)%N then [] else c :: firstline r end.
(* utils/ast/call_args.go:26-32 Arg.Short *)
Definition Short (a : carg) : bytes := firstline (match c_assignment a with [] => c_src a | s => s end).
(* utils/ast/call_args.go:39-47 Assignment: an index out of range panics *)
Definition Assignment (s : site) (n : nat) : res bytes :=
  match Caller s with
  | Good args => match nth_error args n with Some a => Ok (Short a) | None => Panic end
  | Fail _ => Ok (s_fl s)
  | Crash => Panic
  end.
