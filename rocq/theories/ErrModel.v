(* Model of /repo/ctx/error.go, /repo/http/error.go, /repo/utils/errors.go and of errors.Is / errors.As. *)
From Coq Require Import Bool Ascii String Arith NArith ZArith List.
From Verif Require Import Prelude Utf8Model DecModel CtxModel.
Import ListNotations.

(* ctx/error.go:29-30: the stack and the context kept in a ctx.Error *)
Record einfo := EInfo { estack : list bytes; ectx : option context }.

(* A non nil error value.  N is the identity of a pointer.
   EBase: *errors.errorString (errors.New, fmt.Errorf without %w).
   EWrap: *fmt.wrapError (fmt.Errorf with one %w).  EWraps: *fmt.wrapErrors or *errors.joinError.
   ECtx: ctx.Error (ctx/error.go:27-31); ECtxP: *ctx.Error.  Their Err is never nil here: a ctx.Error
   built by hand around nil is not modelled.
   EHttp: http.Error (http/error.go:18-21); EHttpP: *http.Error.
   EEOD: utils.EOD{} (utils/errors.go:7).  EGate: utils.errGate{} (utils/errors.go:22); the number
   says which call of ErrorGate made it and is ignored by the code, as errGate has no content.
   EUser: any other pointer type, its methods are given by the section parameters below. *)
Inductive gerr :=
| EBase (p : N) (msg : bytes)
| EWrap (p : N) (msg : bytes) (e : gerr)
| EWraps (p : N) (msg : bytes) (l : list gerr)
| ECtx (i : einfo) (e : gerr)
| ECtxP (p : N) (i : einfo) (e : gerr)
| EHttp (code : Z) (e : option gerr)
| EHttpP (p : N) (code : Z) (e : option gerr)
| EEOD
| EGate (g : N)
| EUser (p : N) (e : option gerr).

(* Go's == on two non nil error interfaces: false for different types, pointers by identity,
   structs field by field, and a run-time panic when the type has a slice in it (ctx.Error).
   Used by errors.Is, at ctx/error.go:46,51,54 and utils/errors.go:16 *)
Fixpoint geq (a b : gerr) : res bool :=
  match a, b with
  | EBase p _, EBase q _ => Ok (p =? q)%N
  | EWrap p _ _, EWrap q _ _ => Ok (p =? q)%N
  | EWraps p _ _, EWraps q _ _ => Ok (p =? q)%N
  | ECtx _ _, ECtx _ _ => Panic
  | ECtxP p _ _, ECtxP q _ _ => Ok (p =? q)%N
  | EHttp c e, EHttp d f =>
      if (c =? d)%Z then
        match e, f with
        | Some x, Some y => geq x y
        | None, None => Ok true
        | _, _ => Ok false
        end
      else Ok false
  | EHttpP p _ _, EHttpP q _ _ => Ok (p =? q)%N
  | EEOD, EEOD => Ok true
  | EGate _, EGate _ => Ok true
  | EUser p _, EUser q _ => Ok (p =? q)%N
  | _, _ => Ok false
  end.

(* reflectlite.TypeOf(target).Comparable(): only ctx.Error is not (it has a slice, ctx/error.go:29);
   an http.Error is, whatever it holds.  Used by errors.Is at ctx/error.go:46,51,54 *)
Definition comparable (t : gerr) : bool := match t with ECtx _ _ => false | _ => true end.

Section Err.
  (* the Is, As (for *http.Error and *ctx.Error) and Error methods of the error types not known here *)
  Context (user_is : N -> gerr -> bool) (user_http : N -> option Z) (user_ctx : N -> option einfo)
          (user_msg : N -> bytes).
  (* net/http StatusText; http/error.go:25 *)
  Context (status_text : Z -> bytes).

  (* the Error() methods: ctx/error.go:33-35, http/error.go:23-28, utils/errors.go:11,24 *)
  Fixpoint emsg (e : gerr) : bytes :=
    match e with
    | EBase _ m | EWrap _ m _ | EWraps _ m _ => m
    | ECtx _ e | ECtxP _ _ e => emsg e
    | EHttp c None | EHttpP _ c None => decz c ++ B " " ++ status_text c
    | EHttp c (Some e) | EHttpP _ c (Some e) => decz c ++ B " " ++ emsg e
    | EEOD => B "EOD"
    | EGate _ => B "Error: should have been trapped by ErrorGate()"
    | EUser p _ => user_msg p
    end.

  (* `a || b` where both may panic; used by errors.Is at ctx/error.go:46,51,54 *)
  Definition ror (a : res bool) (b : res bool) : res bool := rbind a (fun x => if x then Ok true else b).

  (* errors.is (Go's errors/wrap.go) on a non nil target: the comparison, the Is method
     (ctx/error.go:41-48), then Unwrap (ctx/error.go:37-39, http/error.go:30-32). *)
  Fixpoint is (e t : gerr) : res bool :=
    ror (if comparable t then geq e t else Ok false)
   (ror (match e with
         | ECtx _ e' | ECtxP _ _ e' =>
             match t with ECtx _ _ | ECtxP _ _ _ => Ok true | _ => is e' t end
         | EUser p _ => Ok (user_is p t)
         | _ => Ok false
         end)
        (match e with
         | EWrap _ _ e' | ECtx _ e' | ECtxP _ _ e' => is e' t
         | EHttp _ (Some e') | EHttpP _ _ (Some e') | EUser _ (Some e') => is e' t
         | EWraps _ _ l =>
             (fix any (l : list gerr) : res bool :=
                match l with [] => Ok false | x :: r => ror (is x t) (any r) end) l
         | _ => Ok false
         end)).

  (* errors.Is; used at ctx/error.go:46,51,54 and utils/errors.go:16 *)
  Definition errors_is (e t : option gerr) : res bool :=
    match e, t with
    | Some e, Some t => is e t
    | None, None => Ok true
    | _, _ => Ok false
    end.

  (* errors.As with a target of type *http.Error (http/error.go:36): the http.Error found *)
  Fixpoint as_http (e : gerr) : option Z :=
    match e with
    | EHttp c _ => Some c
    | EUser p o => match user_http p with
                   | Some c => Some c
                   | None => match o with Some e' => as_http e' | None => None end
                   end
    | EWrap _ _ e' | ECtx _ e' | ECtxP _ _ e' | EHttpP _ _ (Some e') => as_http e'
    | EWraps _ _ l =>
        (fix any (l : list gerr) : option Z :=
           match l with [] => None | x :: r => match as_http x with Some c => Some c | None => any r end end) l
    | _ => None
    end.

  (* errors.As with a target of type *ctx.Error (ctx/log/log.go:188) *)
  Fixpoint as_ctx (e : gerr) : option einfo :=
    match e with
    | ECtx i _ => Some i
    | EUser p o => match user_ctx p with
                   | Some c => Some c
                   | None => match o with Some e' => as_ctx e' | None => None end
                   end
    | EWrap _ _ e' | ECtxP _ _ e' | EHttp _ (Some e') | EHttpP _ _ (Some e') => as_ctx e'
    | EWraps _ _ l =>
        (fix any (l : list gerr) : option einfo :=
           match l with [] => None | x :: r => match as_ctx x with Some c => Some c | None => any r end end) l
    | _ => None
    end.

  (* http/error.go:34-40 ErrorCode *)
  Definition ErrorCode (e : option gerr) (def : Z) : Z :=
    match e with
    | Some e => match as_http e with Some c => c | None => def end
    | None => def
    end.

  (* the targets Error{} and &Error{} of ctx/error.go:51,54.  What is in them is never looked at (Is only
     looks at their type, ctx/error.go:42-43), and the pointer is a new one. *)
  Definition ctx_target : gerr := ECtx (EInfo [] None) (EBase 0 []).
  (* see above; ctx/error.go:54.  `fresh` is the address of the new Error *)
  Definition ctx_target_p (fresh : N) : gerr := ECtxP fresh (EInfo [] None) (EBase 0 []).

  (* ctx/error.go:50-62 maybeWrap; i holds the context and the stack taken at the call *)
  Definition maybeWrap (fresh : N) (i : einfo) (e : gerr) : res gerr :=
    rbind (is e ctx_target) (fun b => if b then Ok e else
    rbind (is e (ctx_target_p fresh)) (fun b => if b then Ok e else
    Ok (ECtx i e))).

  (* ctx/error.go:19-24 WrapError *)
  Definition WrapError (fresh : N) (i : einfo) (e : option gerr) : res (option gerr) :=
    match e with
    | None => Ok None
    | Some e => rbind (maybeWrap fresh i e) (fun w => Ok (Some w))
    end.

  (* fmt.Errorf: the formatted message and the arguments of its %w verbs; p is the new pointer.
     Used at ctx/error.go:15 *)
  Definition errorf (p : N) (msg : bytes) (wrapped : list gerr) : gerr :=
    match wrapped with
    | [] => EBase p msg
    | [e] => EWrap p msg e
    | l => EWraps p msg l
    end.

  (* ctx/error.go:14-16 NewErrorf *)
  Definition NewErrorf (fresh : N) (i : einfo) (p : N) (msg : bytes) (wrapped : list gerr) : res gerr :=
    maybeWrap fresh i (errorf p msg wrapped).

  (* http/error.go:11-16 NewErrorf *)
  Definition HttpErrorf (fresh : N) (i : einfo) (code : Z) (p : N) (msg : bytes) (wrapped : list gerr) : res gerr :=
    rbind (NewErrorf fresh i p msg wrapped) (fun e => Ok (EHttp code (Some e))).

  (* utils/errors.go:14-20 ErrorGate, the call numbered g, the callback as a function *)
  Definition ErrorGate (g : N) (f : gerr -> option gerr) : res (option gerr) :=
    let err := f (EGate g) in
    rbind (errors_is err (Some (EGate g))) (fun b => if b then Ok None else Ok err).
End Err.
