(* Model of the warnings of /repo/enc/handler.go about types that are decoded through JSON: the map ineff, which all goroutines that
   call Unmarshal share. *)
From Coq Require Import Bool Arith List.
From Verif Require Import Prelude.
Import ListNotations.

(* What a variable that Unmarshal comes to can be (enc/handler.go:75-109), in the order of the switch: an enc.Unmarshaler, a
   json.RawMessage, a time.Time, a json.Unmarshaler of the type with this name, an enc.Node, anything else *)
Inductive leaf := LfNode | LfRaw | LfTime | LfJson (name : bytes) | LfAny | LfOther.
(* the texts of the warnings: enc/handler.go:85 and, by type, 99 *)
Inductive msg := MRaw | MJson (name : bytes).
(* equality of these texts (enc/handler.go:164) *)
Definition msg_eqb (a b : msg) : bool :=
  match a, b with MRaw, MRaw => true | MJson x, MJson y => if list_eq_dec Ascii.ascii_dec x y then true else false | _, _ => false end.
(* enc/handler.go:75-109: the warning for a variable *)
Definition warning (l : leaf) : list msg := match l with LfRaw => [MRaw] | LfJson n => [MJson n] | _ => [] end.

(* Where a goroutine in Unmarshal stands: it has these variables left; it is about to write the text into ineff; it writes; it is
   about to log (enc/handler.go:163-167) *)
Inductive pc := Going (todo : list leaf) | Absent (m : msg) (todo : list leaf) | Writing (m : msg) (todo : list leaf) | Warn (m : msg) (todo : list leaf).
(* The program: ineff, the goroutines, what was logged (newest first); fatal: the Go runtime has stopped the program, as it does when it
   sees a map being read or written during a write (enc/handler.go:30,164,165) *)
Record st := St { known : list msg; gos : list pc; logged : list msg; fatal : bool }.
(* a goroutine calls Unmarshal for the variables l (enc/handler.go:39,43); goroutine i goes on *)
Inductive label := Begin (l : list leaf) | Run (i : nat).

(* some goroutine is writing ineff (enc/handler.go:165) *)
Definition writes (p : pc) : bool := match p with Writing _ _ => true | _ => false end.
(* as above (enc/handler.go:165) *)
Definition writing (s : st) : bool := existsb writes (gos s).
(* in ineff (enc/handler.go:164) *)
Definition mem (m : msg) (l : list msg) : bool := existsb (msg_eqb m) l.
(* goroutine i is now at p (enc/handler.go:162-168) *)
Definition put (i : nat) (p : pc) (l : list pc) : list pc := firstn i l ++ p :: skipn (S i) l.
(* One step; None: not possible.  A read is one step, a write has a beginning and an end; the runtime looks for a write in progress at
   the beginning of either (enc/handler.go:162-168). *)
Definition step (s : st) (l : label) : option st :=
  if fatal s then None else
  match l with
  | Begin vs => Some (St (known s) (gos s ++ [Going vs]) (logged s) false)
  | Run i =>
      match nth_error (gos s) i with
      | None | Some (Going []) => None
      | Some (Going (v :: r)) =>
          match warning v with
          | [] => Some (St (known s) (put i (Going r) (gos s)) (logged s) false)
          | m :: _ =>
              if writing s then Some (St (known s) (gos s) (logged s) true)
              else Some (St (known s) (put i (if mem m (known s) then Going r else Absent m r) (gos s)) (logged s) false)
          end
      | Some (Absent m r) =>
          if writing s then Some (St (known s) (gos s) (logged s) true)
          else Some (St (known s) (put i (Writing m r) (gos s)) (logged s) false)
      | Some (Writing m r) => Some (St (m :: known s) (put i (Warn m r) (gos s)) (logged s) false)
      | Some (Warn m r) => Some (St (known s) (put i (Going r) (gos s)) (m :: logged s) false)
      end
  end.
(* any order of steps (enc/handler.go:162-168) *)
Fixpoint exec (s : st) (ls : list label) : option st :=
  match ls with [] => Some s | l :: r => match step s l with Some s' => exec s' r | None => None end end.
(* the program begins with an empty map (enc/handler.go:30) *)
Definition init : st := St [] [] [] false.
