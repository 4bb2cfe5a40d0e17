(* Model of the memory of the operations of /repo/api/handler.go: the registered object and the objects of the requests, which run at the
   same time. *)
From Coq Require Import Bool Arith ZArith List.
From Verif Require Import Prelude.
Import ListNotations.

(* A word of memory: a plain value, or something that refers to memory (a pointer, map, slice, interface; api/handler.go:80 v) *)
Inductive word := Plain (z : Z) | Ref (a : nat).
(* memory: what was allocated, each a list of words (an object of the type of the handler: a word per field; api/handler.go:224) *)
Definition heap := list (list word).
(* api/handler.go:79-85: whether a field is among those that are initialised; in, out and url fields are not, nor those that are zero
   when the object is registered *)
Inductive fkind := FInit | FOther.
(* The program: memory, the address of the object given to NewHandler (api/handler.go:36), the kinds of its fields, and for each request
   the addresses of its variables (the object that Recv returns is the first) *)
Record st := St { mem : heap; reg : nat; kinds : list fkind; vars : list (list nat) }.

(* the words of an object; api/handler.go:80 *)
Definition cell (h : heap) (a : nat) : list word := nth a h [].
(* writing a word; nothing happens if there is no such word (api/handler.go:227) *)
Fixpoint upd {A} (l : list A) (i : nat) (x : A) : list A :=
  match l, i with [], _ => [] | _ :: r, 0 => x :: r | y :: r, S j => y :: upd r j x end.
(* as above, in memory (api/handler.go:227) *)
Definition store (h : heap) (a i : nat) (w : word) : heap := upd h a (upd (cell h a) i w).
(* api/handler.go:224-229: a new object: the fields of init as they are in the registered object now (this.init holds the fields
   themselves, not copies, 80-82), zero for the others *)
Fixpoint fresh (ks : list fkind) (ws : list word) : list word :=
  match ks with
  | [] => []
  | k :: r => match k with FInit => hd (Plain 0) ws | FOther => Plain 0 end :: fresh r (tl ws)
  end.

(* a can be reached from the address r (Go code gets at memory only this way; api/handler.go:247) *)
Inductive reach (h : heap) (r : nat) : nat -> Prop :=
| reach_here : reach h r r
| reach_next : forall a b, reach h r a -> In (Ref b) (cell h a) -> reach h r b.
(* from one of these variables (api/handler.go:247) *)
Definition reachable (h : heap) (rs : list nat) (a : nat) : Prop := exists r, In r rs /\ reach h r a.
(* a word that can be had from these variables (api/handler.go:247) *)
Definition has (h : heap) (rs : list nat) (w : word) : Prop := match w with Plain _ => True | Ref a => reachable h rs a end.

(* What happens.  Recv: a request begins (api/handler.go:221-229).  New, Store: what any code of request k can do to memory, be it the
   decoding of its fields (230-246), Do, or Send: allocate something, write a word.  Own: whoever registered the object writes. *)
Inductive label := Recv | New (k : nat) (ws : list word) | Store (k a i : nat) (w : word) | Own (a i : nat) (w : word).
(* the step is possible (api/handler.go:221-247) *)
Inductive step : st -> label -> st -> Prop :=
| s_recv : forall h r ks vs, step (St h r ks vs) Recv (St (h ++ [fresh ks (cell h r)]) r ks (vs ++ [[length h]]))
| s_new : forall h r ks vs k rs ws, nth_error vs k = Some rs -> Forall (has h rs) ws ->
    step (St h r ks vs) (New k ws) (St (h ++ [ws]) r ks (upd vs k (length h :: rs)))
| s_store : forall h r ks vs k rs a i w, nth_error vs k = Some rs -> reachable h rs a -> has h rs w ->
    step (St h r ks vs) (Store k a i w) (St (store h a i w) r ks vs)
| s_own : forall h r ks vs a i w, reach h r a -> has h [r] w -> step (St h r ks vs) (Own a i w) (St (store h a i w) r ks vs).
(* any order of steps (api/handler.go:221-247) *)
Inductive steps (s : st) : list label -> st -> Prop :=
| steps_nil : steps s [] s
| steps_snoc : forall ls s1 l s2, steps s ls s1 -> step s1 l s2 -> steps s (ls ++ [l]) s2.
(* after NewHandler (api/handler.go:36-89): no reference to memory that does not exist *)
Definition starts (s : st) : Prop :=
  vars s = [] /\ reg s < length (mem s) /\ length (cell (mem s) (reg s)) = length (kinds s) /\ forall a b, In (Ref b) (cell (mem s) a) -> b < length (mem s).
