(* Vocabulary of the statements about errors. *)
From Coq Require Import Bool Ascii String Arith NArith ZArith List.
From Verif Require Import Prelude CtxModel ErrModel.
Import ListNotations.

(* An error and everything it wraps, from the outside, depth first, left to right. *)
Fixpoint nodes (e : gerr) : list gerr :=
  e :: match e with
       | EWrap _ _ x | ECtx _ x | ECtxP _ _ x => nodes x
       | EHttp _ (Some x) | EHttpP _ _ (Some x) | EUser _ (Some x) => nodes x
       | EWraps _ _ l => flat_map nodes l
       | _ => []
       end.

(* is a ctx.Error, by value or by pointer *)
Definition is_ctx (e : gerr) : Prop :=
  match e with ECtx _ _ | ECtxP _ _ _ => True | _ => False end.
Definition has_ctx (e : gerr) : Prop := exists x, In x (nodes e) /\ is_ctx x.

(* an http.Error, or an error that says it is one with an As method *)
Definition http_code (user_http : N -> option Z) (e : gerr) : option Z :=
  match e with EHttp c _ => Some c | EUser p _ => user_http p | _ => None end.

(* error types of other packages do not say they are a ctx.Error *)
Definition honest (user_is : N -> gerr -> bool) : Prop :=
  forall p t, is_ctx t -> user_is p t = false.

(* is, or says it is, the escape of some ErrorGate *)
Definition gate_like (user_is : N -> gerr -> bool) (g : N) (e : gerr) : Prop :=
  match e with EGate _ => True | EUser p _ => user_is p (EGate g) = true | _ => False end.

(* the same, of the gate numbered g *)
Definition own_gate (g : N) (e : gerr) : Prop := match e with EGate h => h = g | _ => False end.

(* an http.Error that holds a ctx.Error value, directly or below other http.Errors *)
Fixpoint holds_ctx_value (e : gerr) : Prop :=
  match e with
  | ECtx _ _ => True
  | EHttp _ (Some x) => holds_ctx_value x
  | _ => False
  end.

(* A path from an error down to something it wraps that wraps nothing. *)
Inductive path : gerr -> list gerr -> Prop :=
| path_stop e : path e [e]
| path_wrap p m x l : path x l -> path (EWrap p m x) (EWrap p m x :: l)
| path_wraps p m xs x l : In x xs -> path x l -> path (EWraps p m xs) (EWraps p m xs :: l)
| path_ctx i x l : path x l -> path (ECtx i x) (ECtx i x :: l)
| path_ctxp p i x l : path x l -> path (ECtxP p i x) (ECtxP p i x :: l)
| path_http c x l : path x l -> path (EHttp c (Some x)) (EHttp c (Some x) :: l)
| path_httpp p c x l : path x l -> path (EHttpP p c (Some x)) (EHttpP p c (Some x) :: l)
| path_user p x l : path x l -> path (EUser p (Some x)) (EUser p (Some x) :: l).

(* Errors made without writing a ctx.Error literal: with errors.New, fmt.Errorf, errors.Join, foreign types,
   http.Error literals, and the constructors of this repository. *)
Inductive built user_is : gerr -> Prop :=
| b_base p m : built user_is (EBase p m)
| b_eod : built user_is EEOD
| b_gate g : built user_is (EGate g)
| b_user0 p : built user_is (EUser p None)
| b_user p e : built user_is e -> built user_is (EUser p (Some e))
| b_errorf p m l : Forall (built user_is) l -> built user_is (errorf p m l)
| b_join p m l : Forall (built user_is) l -> built user_is (EWraps p m l)
| b_http0 c : built user_is (EHttp c None)
| b_http c e : built user_is e -> built user_is (EHttp c (Some e))
| b_httpp0 p c : built user_is (EHttpP p c None)
| b_httpp p c e : built user_is e -> built user_is (EHttpP p c (Some e))
| b_wrap f i e w : built user_is e -> WrapError user_is f i (Some e) = Ok (Some w) -> built user_is w
| b_newf f i p m l w : Forall (built user_is) l -> NewErrorf user_is f i p m l = Ok w -> built user_is w
| b_httpf f i c p m l w : Forall (built user_is) l -> HttpErrorf user_is f i c p m l = Ok w -> built user_is w.

Definition is_ctxb (e : gerr) : bool :=
  match e with ECtx _ _ | ECtxP _ _ _ => true | _ => false end.
