(* Vocabulary of the statements about the example service: C147, C148. *)
From Coq Require Import Bool Ascii String Arith NArith ZArith List Permutation.
From Verif Require Import Prelude DurModel EncModel JsonModel FlModel FlSpec ExModel.
Import ListNotations.

(* what was stored last under k, if anything was *)
Fixpoint last_set (k : bytes) (cs : list call) : option gany :=
  match cs with
  | [] => None
  | c :: cs => match last_set k cs with
               | Some v => Some v
               | None => match c with Set_ j v => if beqb k j then Some v else None | Get _ => None end
               end
  end.
(* the value of k after these calls, the store being s before *)
Definition current (s : store) (cs : list call) (k : bytes) : gany := match last_set k cs with Some v => v | None => look s k end.

(* v and w say the same, numbers being float64 and objects having no order *)
Inductive same (other : bytes -> option fl) : jval -> jval -> Prop :=
| same_null : same other JNull JNull
| same_bool b : same other (JBool b) (JBool b)
| same_str s : same other (JStr s) (JStr s)
| same_num s t f : ParseFloat other s = Some f -> ParseFloat other t = Some f -> same other (JNum s) (JNum t)
| same_arr l l' : Forall2 (same other) l l' -> same other (JArr l) (JArr l')
| same_obj l m l' : Permutation l m -> Forall2 (fun a b => fst a = fst b /\ same other (snd a) (snd b)) m l' -> same other (JObj l) (JObj l').
(* the JSON of a float64 has digits that are nearer to it than to any other float64, in one of the two forms *)
Definition prints (print : fl -> floatv) : Prop :=
  forall f, finite f -> valid F64 f -> exists sci neg d dp, f_json (print f) = json_text sci neg d dp /\ shown d dp /\ shows F64 neg d dp f.
(* what a text says *)
Definition says (text : bytes) (v : jval) : Prop := Decode text = Good (Some (fromNative v)).

(* executions *)
Inductive steps : world -> world -> Prop := here w : steps w w | more w w1 i w2 : steps w w1 -> step i w1 w2 -> steps w w2.
(* executions in which a request begins only when no other is in progress *)
Definition idle (p : place) : Prop := match p with Todo _ | Ended _ _ => True | _ => False end.
Inductive serial : world -> world -> Prop :=
| s_here w : serial w w
| s_more w w1 i w2 : serial w w1 -> step i w1 w2 -> (forall j, j <> i -> idle (w_req w1 j)) -> serial w w2.
(* one request writes the map while another one reads or writes it *)
Definition clash (w : world) : Prop := exists i j, i <> j /\ (exists k v p, w_req w i = Writing k v p) /\
  ((exists k v p, w_req w j = Writing k v p) \/ exists c, w_req w j = Reading c).
(* at the beginning: these requests, none begun *)
Definition start (s : store) (cs : nat -> call) : world := World s (fun i => Todo (cs i)) [].
