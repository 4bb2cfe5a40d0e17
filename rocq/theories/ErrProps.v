(* Theorems about errors: C24, C25, C26, C65, C66. *)
From Coq Require Import Bool Ascii String Arith NArith ZArith Lia List.
From Verif Require Import Prelude CtxModel ErrModel ErrSpec ErrProofs.
Import ListNotations.

(* C24: wrapping nil gives nil. *)
Theorem C24_nil : forall ui fresh i, WrapError ui fresh i None = Ok None.
Proof. exact wrap_nil. Qed.
Print Assumptions C24_nil.

(* C24: wrapping an error keeps its message, what it matches under errors.Is (a panic included) and under
   errors.As for http.Error; the result has a ctx.Error in it and wrapping it again returns it as it is. *)
Theorem C24_wrap : forall (ui : N -> gerr -> bool) (uh : N -> option Z), honest ui ->
  forall um st fresh i e,
  exists w, WrapError ui fresh i (Some e) = Ok (Some w) /\
    emsg um st w = emsg um st e /\
    (forall t, ~ is_ctx t -> errors_is ui (Some w) (Some t) = errors_is ui (Some e) (Some t)) /\
    as_http uh w = as_http uh e /\
    has_ctx w /\
    (forall fresh' i', WrapError ui fresh' i' (Some w) = Ok (Some w)).
Proof. exact wrap_identity. Qed.
Print Assumptions C24_wrap.

(* C24: an error that has no ctx.Error in it yet gets the stack and context of the call. *)
Theorem C24_first_wrap : forall (ui : N -> gerr -> bool), honest ui ->
  forall fresh i e w, WrapError ui fresh i (Some e) = Ok (Some w) -> ~ has_ctx e -> w = ECtx i e.
Proof. exact wrap_new. Qed.
Print Assumptions C24_first_wrap.

(* a tree with two causes, one of them an http.Error around an already wrapped error *)
Example C24_ex :
  let inner := ECtx (EInfo [B "a.go:1"] None) (EBase 1 (B "eof")) in
  let t1 := EWraps 2 (B "two") [EHttp 404 None; EWrap 3 (B "w: x") (EBase 4 (B "x"))] in
  let t2 := EWraps 5 (B "two") [EBase 6 (B "y"); EHttp 400 (Some inner)] in
  let i := EInfo [B "b.go:2"] None in
  WrapError (fun _ _ => false) 9 i (Some t1) = Ok (Some (ECtx i t1)) /\ ~ has_ctx t1 /\
  WrapError (fun _ _ => false) 9 i (Some t2) = Ok (Some t2) /\ has_ctx t2 /\
  errors_is (fun _ _ => false) (Some (ECtx i t1)) (Some (EBase 4 (B "x"))) = Ok true.
Proof.
  repeat split; try (vm_compute; reflexivity).
  - intros [x [Hx Hc]]. cbn in Hx. intuition; subst; exact Hc.
  - exists (ECtx (EInfo [B "a.go:1"] None) (EBase 1 (B "eof"))). split; [cbn; auto|exact I].
Qed.

(* C25: the status is the code of the first http.Error in the tree, or the default when there is none. *)
Theorem C25_error_code : forall (uh : N -> option Z) e def,
  (exists pre x post c, nodes e = pre ++ x :: post /\ Forall (fun y => http_code uh y = None) pre /\
     http_code uh x = Some c /\ ErrorCode uh (Some e) def = c) \/
  (Forall (fun y => http_code uh y = None) (nodes e) /\ ErrorCode uh (Some e) def = def).
Proof. exact error_code. Qed.
Print Assumptions C25_error_code.

Theorem C25_nil : forall (uh : N -> option Z) def, ErrorCode uh None def = def.
Proof. reflexivity. Qed.
Print Assumptions C25_nil.

(* the pointer *http.Error is not an http.Error; its contents are *)
Example C25_ex :
  ErrorCode (fun _ => None) (Some (EWrap 1 (B "m") (EWraps 2 (B "n")
    [EHttpP 3 418 (Some (EBase 4 [])); ECtx (EInfo [] None) (EHttp 403 (Some (EHttp 401 None))); EHttp 500 None]))) 999 = 403%Z
  /\ ErrorCode (fun _ => None) (Some (EHttpP 3 418 None)) 999 = 999%Z.
Proof. split; reflexivity. Qed.

(* C26 as stated is false: the escapes of all gates are equal, so the inner gate also swallows the escape
   of an outer one. *)
Theorem C26_own_escape_refuted :
  ~ (forall ui g f e, (forall p t, ui p t = false) -> f (EGate g) = Some e ->
     (ErrorGate ui g f = Ok None <-> exists x, In x (nodes e) /\ own_gate g x)).
Proof.
  intros H. specialize (H (fun _ _ => false) 1%N (fun _ => Some (EGate 0)) (EGate 0) (fun _ _ => eq_refl) eq_refl).
  destruct H as [H _]. destruct (H eq_refl) as [x [[<-|[]] Hx]]. discriminate Hx.
Qed.
Print Assumptions C26_own_escape_refuted.

(* Two nested gates: the callback of the inner one returns the escape of the outer one.  The inner call
   returns nil, and what follows it in the outer callback is run. *)
Theorem C26_nested_refuted :
  exists (outer : gerr -> option gerr),
    (forall esc, outer esc =
       match ErrorGate (fun _ _ => false) 2 (fun _ => Some esc) with
       | Ok None => Some (EBase 7 (B "went on"))
       | Ok (Some e) => Some e
       | Panic => None
       end) /\
    ErrorGate (fun _ _ => false) 1 outer = Ok (Some (EBase 7 (B "went on"))).
Proof. eexists. split; [intros esc; reflexivity|reflexivity]. Qed.
Print Assumptions C26_nested_refuted.

(* What holds: the result is nil exactly when the callback returned nil or an error that is or wraps the
   escape of some gate; otherwise it is the callback's error. *)
Theorem C26_gate_partial : forall (ui : N -> gerr -> bool) g f,
  (f (EGate g) = None /\ ErrorGate ui g f = Ok None) \/
  (exists e, f (EGate g) = Some e /\ (exists x, In x (nodes e) /\ gate_like ui g x) /\ ErrorGate ui g f = Ok None) \/
  (exists e, f (EGate g) = Some e /\ (forall x, In x (nodes e) -> ~ gate_like ui g x) /\ ErrorGate ui g f = Ok (Some e)).
Proof. exact gate_spec. Qed.
Print Assumptions C26_gate_partial.

Example C26_ex :
  ErrorGate (fun _ _ => false) 0 (fun esc => Some (EWrap 1 (B "w") (ECtx (EInfo [] None) esc))) = Ok None /\
  ErrorGate (fun _ _ => false) 0 (fun esc => Some (EWrap 1 (B "w") (EHttp 404 None))) = Ok (Some (EWrap 1 (B "w") (EHttp 404 None))).
Proof. split; reflexivity. Qed.

(* C65 is false of the code: an error made by http.NewErrorf holds a ctx.Error, and comparing it with an
   http.Error of the same code panics inside errors.Is. *)
Theorem C65_is_total_refuted :
  ~ (forall ui e t, (forall p x, ui p x = false) -> built ui e -> built ui t ->
     errors_is ui (Some e) (Some t) <> Panic).
Proof.
  intros H.
  set (ui := fun (_ : N) (_ : gerr) => false).
  set (e := EHttp 404 (Some (ECtx (EInfo [] None) (EBase 1 (B "not found"))))).
  assert (Hb : built ui e).
  { eapply (b_httpf ui 5%N (EInfo [] None) 404 1%N (B "not found") []); [constructor|reflexivity]. }
  specialize (H ui e e (fun _ _ => eq_refl) Hb Hb). apply H. reflexivity.
Qed.
Print Assumptions C65_is_total_refuted.

(* What holds: errors.Is does not panic when the target is a ctx.Error or *ctx.Error, or is not an
   http.Error holding a ctx.Error value. *)
Theorem C65_is_total_partial : forall (ui : N -> gerr -> bool) e t,
  is_ctx t \/ ~ holds_ctx_value t -> is ui e t <> Panic.
Proof. exact is_total'. Qed.
Print Assumptions C65_is_total_partial.

Example C65_ex :
  let t := EHttp 404 (Some (ECtxP 8 (EInfo [] None) (EBase 1 []))) in
  ~ holds_ctx_value t /\
  is (fun _ _ => false) (EWrap 2 [] (EHttp 404 (Some (ECtx (EInfo [] None) (EBase 1 []))))) t = Ok false /\
  is (fun _ _ => false) (EWrap 2 [] (EHttp 404 (Some (ECtx (EInfo [] None) (EBase 1 [])))))
     (EHttp 404 (Some (ECtx (EInfo [] None) (EBase 3 [])))) = Panic.
Proof. cbn. tauto. Qed.

(* C66: on every path down an error there is at most one ctx.Error. *)
Theorem C66_one_stack : forall (ui : N -> gerr -> bool), honest ui ->
  forall e, built ui e -> forall l, path e l -> length (filter is_ctxb l) <= 1.
Proof. exact built_shallow. Qed.
Print Assumptions C66_one_stack.

Example C66_ex : let i := EInfo [] None in
  let a := ECtx i (EBase 1 (B "x")) in let w := EWrap 2 (B "w") a in let t := EWraps 3 (B "j") [w; a] in
  NewErrorf (fun _ _ => false) 9 i 1 (B "x") [] = Ok a /\
  NewErrorf (fun _ _ => false) 9 i 2 (B "w") [a] = Ok w /\
  NewErrorf (fun _ _ => false) 9 i 3 (B "j") [w; a] = Ok t /\
  built (fun _ _ => false) t /\ path t [t; w; a; EBase 1 (B "x")].
Proof.
  cbn zeta. set (i := EInfo [] None). set (a := ECtx i (EBase 1 (B "x"))). set (w := EWrap 2 (B "w") a).
  assert (Ha : NewErrorf (fun _ _ => false) 9 i 1 (B "x") [] = Ok a) by reflexivity.
  assert (Hw : NewErrorf (fun _ _ => false) 9 i 2 (B "w") [a] = Ok w) by reflexivity.
  assert (Ht : NewErrorf (fun _ _ => false) 9 i 3 (B "j") [w; a] = Ok (EWraps 3 (B "j") [w; a])) by reflexivity.
  repeat split; auto.
  - eapply b_newf; [|exact Ht]. constructor; [|constructor; [|constructor]].
    + eapply b_newf; [|exact Hw]. constructor; [|constructor]. eapply b_newf; [|exact Ha]. constructor.
    + eapply b_newf; [|exact Ha]. constructor.
  - eapply path_wraps; [left; reflexivity|]. repeat constructor.
Qed.
