(* What is said about http/ws, without its machine. *)
From Coq Require Import Bool Ascii String Arith NArith ZArith List.
From Verif Require Import Prelude Utf8Model DecModel DurModel EncModel JsonModel CtxModel ErrModel MarModel WsModel.
Import ListNotations.

(* ---- the loop ---- *)
(* the messages a peer sends: its frames up to the first that is not a text with a value *)
Fixpoint msgs (i : list wframe) : list (option node) :=
  match i with
  | WText j :: r => match Decode j with Good n => n :: msgs r | _ => [] end
  | _ => []
  end.
(* the messages passed to the handler and those it is done with; logs have the newest first *)
Fixpoint starts (l : list event) : list (option node) :=
  match l with [] => [] | EStart n :: r => starts r ++ [n] | _ :: r => starts r end.
(* see above *)
Fixpoint ends (l : list event) : list (option node * hres) :=
  match l with [] => [] | EEnd n r :: l' => ends l' ++ [(n, r)] | _ :: l' => ends l' end.
(* b starts with a *)
Definition prefix {A} (a b : list A) : Prop := exists c, b = a ++ c.
(* the handler called with one message after the other: the state it leaves, and what it returns *)
Fixpoint called {S} (handle : S -> option node -> S * hres) (h : S) (l : list (option node)) : S * list hres :=
  match l with
  | [] => (h, [])
  | n :: r => let (h1, x) := handle h n in let (h2, xs) := called handle h1 r in (h2, x :: xs)
  end.
(* frames that are known to the websocket standard but not to the server *)
Definition unsupported (w : wframe) : Prop := match w with WPing | WPong | WOther _ => True | _ => False end.

(* ---- channels ---- *)
(* the registered path and the object a channel has: that of the last open for it, once Init returned *)
Fixpoint owner (l : list trace) (x : bytes) : option (bytes * nat) :=
  match l with
  | [] => None
  | TReady y p o :: r => if beqb y x then Some (p, o) else owner r x
  | TNew y _ _ :: r => if beqb y x then None else owner r x
  | _ :: r => owner r x
  end.
(* the objects made *)
Fixpoint made (l : list trace) : list nat :=
  match l with [] => [] | TNew _ _ o :: r => o :: made r | _ :: r => made r end.
(* what was sent, oldest first *)
Fixpoint sent (l : list trace) : list frame :=
  match l with [] => [] | TSent f :: r => sent r ++ [f] | _ :: r => sent r end.
(* a frame is a request, that is, a call of a method; and the reply to it *)
Definition request (f : frame) : bool :=
  negb (beqb (f_type f) (B "close") || beqb (f_type f) (B "new") || beqb (f_type f) (B "open")).
Definition opening (f : frame) : bool := beqb (f_type f) (B "new") || beqb (f_type f) (B "open").
Definition return_ (f : frame) : bool := beqb (f_type f) (B "return").
(* channel and method of a frame *)
Definition route (f : frame) : bytes * bytes := (f_chan f, f_path f).

Section Reach.
  Context {V A H : Type} (user_msg : N -> bytes) (status_text : Z -> bytes) (user_node : N -> res node).
  Context (reg : @registry V A H).
  (* the state after a frame, whatever the result *)
  Definition after (r : @fres V A H) : rpc := match r with FNil s | FError s | FDies s => s end.
  (* states of a connection: frames are handled, and what is shared changes at any time *)
  Inductive reach : @rpc V A H -> Prop :=
  | reach_start h : reach (Rpc [] [] h [])
  | reach_frame s f : reach s -> reach (after (onFrame user_msg status_text user_node reg s f))
  | reach_shared s h : reach s -> reach (Rpc (r_chans s) (r_objs s) h (r_log s)).
  (* frames one after the other, as long as the handler returns nil *)
  Fixpoint frames (s : @rpc V A H) (fs : list frame) : option (@rpc V A H) :=
    match fs with
    | [] => Some s
    | f :: r => match onFrame user_msg status_text user_node reg s f with FNil s1 => frames s1 r | _ => None end
    end.
End Reach.

(* ---- names ---- *)
(* the name under which a client finds a type or method: the first letter in lower case.  For names that start with an ASCII
   character only. *)
Definition lowered (n p : bytes) : Prop :=
  match n, p with
  | [], [] => True
  | c :: r, c' :: r' =>
      r = r' /\ (code c < 128)%N /\
      (((65 <= code c)%N /\ (code c <= 90)%N /\ code c' = (code c + 32)%N) \/ (((code c < 65)%N \/ (90 < code c)%N) /\ c' = c))
  | _, _ => False
  end.

(* types registered one after the other; http/ws/example_test.go *)
Fixpoint register_all {V A H} (h : H) (r : @registry V A H) (l : list (@gobj V A H)) : option (@registry V A H) :=
  match l with
  | [] => Some r
  | o :: l' => match Register h r o with Ok (Some r1) => register_all h r1 l' | _ => None end
  end.
(* an error with which enc.MustMarshal does not panic, given that for types that are not modelled *)
Fixpoint marshalable (user_node : N -> res node) (e : gerr) : Prop :=
  match e with
  | EUser p _ => user_node p <> Panic
  | EHttp _ (Some e') | EHttpP _ _ (Some e') => marshalable user_node e'
  | _ => True
  end.
