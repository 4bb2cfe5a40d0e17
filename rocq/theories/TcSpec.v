(* Vocabulary of the statements about frames on the wire and about the test client of http/ws. *)
From Coq Require Import Bool Ascii String Arith NArith ZArith List.
From Verif Require Import Prelude Utf8Model DecModel DurModel EncModel JsonModel JsonSpec CtxModel ErrModel MarModel WsModel WsSpec TcModel.
Import ListNotations.

(* ---- the wire ---- *)
(* a member of an object that is a text, empty if there is none *)
Definition text_of (m : list (bytes * node)) (k s : bytes) : Prop :=
  mget beqb m k = Some (NStr s) \/ (mget beqb m k = None /\ s = []).
(* nothing, null, zero, and the empty text *)
Definition void (d : option node) : Prop :=
  match d with
  | None | Some NNil | Some (NStr []) | Some (NDigits []) => True
  | Some (NInt z) => z = 0%Z
  | Some (NFloat f) => f_str f = B "0" \/ f_str f = B "-0"
  | _ => False
  end.
(* texts in UTF-8, and Data that has a JSON form *)
Definition sendable (f : frame) : Prop :=
  valid_utf8 (f_chan f) = true /\ valid_utf8 (f_path f) = true /\ valid_utf8 (f_type f) = true /\
  match f_data f with Some n => good_node n /\ (N.of_nat (ndepth n) <= 9999)%N | None => True end.

(* ---- the test client ---- *)
Section S.
  Context {V A H : Type}.
  Notation tst := (tst V A H).
  Notation tlabel := (@tlabel H).
  (* the calls over a channel, with their paths, and the answers that the server sent over it, oldest first: nil, or an error *)
  Definition calls (s : tst) (ch : bytes) : list (bytes * kst) := map (fun c => (k_path c, k_st c)) (filter (fun c => beqb (k_chan c) ch) (t_calls s)).
  Definition answers (s : tst) (ch : bytes) : list (bytes * option node) :=
    map (fun f => (f_path f, f_data f)) (filter (fun f => return_ f && beqb (f_chan f) ch) (sent (r_log (t_rpc s)))).
  (* the result that a caller gets for an answer *)
  Definition fair (d : option node) (r : result) : Prop :=
    (void d /\ r = RNil) \/ exists n, d = Some n /\ ~ void d /\ r = RRemote n.
  Context (user_msg : N -> bytes) (status_text : Z -> bytes) (user_node : N -> res node) (reg : @registry V A H).
  Notation tstep := (tstep user_msg status_text user_node reg).
  (* over a channel there is one call at a time *)
  Definition tidy (s : tst) (l : tlabel) : Prop := match l with TCall ch _ _ => ~ In KWait (map snd (calls s ch)) | _ => True end.
  Fixpoint one_by_one (s : tst) (ls : list tlabel) : Prop :=
    match ls with [] => True | l :: rest => tidy s l /\ forall s1, tstep s l = Ok s1 -> one_by_one s1 rest end.
  (* no callback fails, no call is given up *)
  Definition calm (ls : list tlabel) : Prop := forall l, In l ls -> match l with TBack (Some _) | TGone _ => False | _ => True end.
End S.
