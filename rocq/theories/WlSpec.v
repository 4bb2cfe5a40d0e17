(* What is said about the errors of methods that are called over a websocket: C129. *)
From Coq Require Import Bool Ascii String Arith NArith ZArith List.
From Verif Require Import Prelude Utf8Model DecModel DurModel EncModel JsonModel CtxModel ErrModel MarModel WsModel WsSpec.
Import ListNotations.

(* Errors that differ only in what is inside: the stacks, tags and identities, and the errors that they wrap beside their message. *)
Inductive like : gerr -> gerr -> Prop :=
| like_base p q m : like (EBase p m) (EBase q m)
| like_wrap p q m e e' : like (EWrap p m e) (EWrap q m e')
| like_wraps p q m l l' : like (EWraps p m l) (EWraps q m l')
| like_ctx i i' e e' : like e e' -> like (ECtx i e) (ECtx i' e')
| like_ctxp p q i i' e e' : like e e' -> like (ECtxP p i e) (ECtxP q i' e')
| like_status c : like (EHttp c None) (EHttp c None)
| like_http c e e' : like e e' -> like (EHttp c (Some e)) (EHttp c (Some e'))
| like_statusp p q c : like (EHttpP p c None) (EHttpP q c None)
| like_httpp p q c e e' : like e e' -> like (EHttpP p c (Some e)) (EHttpP q c (Some e'))
| like_eod : like EEOD EEOD
| like_gate g g' : like (EGate g) (EGate g')
| like_user p o o' : like (EUser p o) (EUser p o').

Section Like.
  Context {V A H : Type}.
  Definition like_dec (a b : A + gerr) : Prop :=
    match a, b with inl x, inl y => x = y | inr e, inr e' => like e e' | _, _ => False end.
  Definition like_out (a b : mout) : Prop :=
    match a, b with MError e, MError e' => like e e' | MNil, MNil | MPanic, MPanic => True | _, _ => False end.
  (* methods that do the same, but for the inside of the errors that they return *)
  Definition like_meth (a b : @meth V A H) : Prop :=
    (forall n, like_dec (m_dec a n) (m_dec b n)) /\
    forall fs h x, fst (m_run a fs h x) = fst (m_run b fs h x) /\ like_out (snd (m_run a fs h x)) (snd (m_run b fs h x)).
  Definition like_named (a b : bytes * @meth V A H) : Prop := fst a = fst b /\ like_meth (snd a) (snd b).
  Definition like_opt (a b : option (@meth V A H)) : Prop :=
    match a, b with Some x, Some y => like_meth x y | None, None => True | _, _ => False end.
  (* types with such methods under the same names *)
  Definition like_type (a b : @builder V A H) : Prop :=
    b_zero a = b_zero b /\ b_fields a = b_fields b /\ like_opt (b_init a) (b_init b) /\ Forall2 like_named (b_methods a) (b_methods b).
  Definition like_types (a b : @registry V A H) : Prop := Forall2 (fun x y => fst x = fst y /\ like_type (snd x) (snd y)) a b.

  Context (user_msg : N -> bytes) (status_text : Z -> bytes) (user_node : N -> res node).
  (* what a client gets for its frames *)
  Definition gets (reg : @registry V A H) (h : H) (fs : list frame) : list frame :=
    sent (r_log (fold_left (fun s f => after (onFrame user_msg status_text user_node reg s f)) fs (Rpc [] [] h []))).
End Like.
