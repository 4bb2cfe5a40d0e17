(* Model of /repo/ctx (ctx.go, tags.go, detach.go, span.go, helper.go), of the context package it wraps, and
   of the configuration part of /repo/ctx/log/log.go. *)
From Coq Require Import Bool Ascii String Arith NArith ZArith Lia List.
From Verif Require Import Prelude Utf8Model QuoteModel DurModel JsonModel.
Import ListNotations.
Local Open Scope nat_scope.

(* the keys ctx.C.Value is called with: comparable user keys that are not strings, strings, and the private
   keys of ctx/log/log.go:157, ctx/span.go:28,39 and of package context (&cancelCtxKey).  The callback key of
   ctx/tags.go:59 is range_val below. *)
Inductive key := KUser (n : N) | KStr (s : bytes) | KConfig | KTrackGet | KTrackNext | KCancel.
(* Go's == on keys (ctx/tags.go:71 and context.valueCtx) *)
Definition key_eqb (a b : key) : bool :=
  match a, b with
  | KUser n, KUser m => N.eqb n m
  | KStr s, KStr t => beqb s t
  | KConfig, KConfig | KTrackGet, KTrackGet | KTrackNext, KTrackNext | KCancel, KCancel => true
  | _, _ => false
  end.
(* what Value returns: user values, tag JSON, tracking ids, a *config, a *cancelCtx (ctx/tags.go:72,
   ctx/span.go:45,47, ctx/log/log.go:170) *)
Inductive value := VUser (n : N) | VJson (j : bytes) | VStr (s : bytes) | VConf (p : nat) | VCancel (i : nat).

(* a context: the root, context.WithValue, WithCancelCause/WithDeadline (a pointer to cancelCtx number i, with
   its deadline if it is a timerCtx), ctx/tags.go:8 tagC, ctx/span.go:10 trackingCtx, ctx/detach.go:10 detachedC *)
Inductive context :=
| Root
| Val (p : context) (k : key) (v : option value)
| Cancel (p : context) (i : nat) (dl : option Z)
| Tag (p : context) (k : bytes) (j : bytes)
| Track (p : context) (ident : bytes) (last : N)
| Detach (p : context).

(* fmt %x of a small int; ctx/span.go:45 *)
Fixpoint hex_fuel (f : nat) (n : N) (acc : bytes) : bytes :=
  match f with
  | O => acc
  | S f => let acc := hexdig (n mod 16)%N :: acc in
           if (n <? 16)%N then acc else hex_fuel f (n / 16)%N acc
  end.

(* Value: context.value, ctx/tags.go:61-76, ctx/span.go:41-51, ctx/detach.go:14-16.
   trackingCtx.Value has a value receiver, so atomic.AddInt32 works on a copy of Last. *)
Fixpoint Value (c : context) (k : key) : option value :=
  match c with
  | Root => None
  | Val p k' v => if key_eqb k' k then v else Value p k
  | Cancel p i _ => match k with KCancel => Some (VCancel i) | _ => Value p k end
  | Tag p t j => if key_eqb k (KStr t) then Some (VJson j) else Value p k
  | Track p ident last =>
      match k with
      | KTrackNext => Some (VStr (ident ++ B "." ++ hex_fuel 8 (last + 1) []))
      | KTrackGet => Some (VStr ident)
      | _ => Value p k
      end
  | Detach p => Value p k
  end.

(* the cancelCtx whose channel Done returns, None for a nil channel: context.cancelCtx.Done, embedded C of
   ctx/tags.go:9 and ctx/span.go:11, ctx/detach.go:22-24 *)
Fixpoint Done (c : context) : option nat :=
  match c with
  | Root | Detach _ => None
  | Cancel _ i _ => Some i
  | Val p _ _ | Tag p _ _ | Track p _ _ => Done p
  end.
(* context.timerCtx.Deadline, embedded contexts, ctx/detach.go:18-20 *)
Fixpoint Deadline (c : context) : option Z :=
  match c with
  | Root | Detach _ => None
  | Cancel p _ (Some d) => Some d
  | Cancel p _ None => Deadline p
  | Val p _ _ | Tag p _ _ | Track p _ _ => Deadline p
  end.

(* context.Canceled, context.DeadlineExceeded (ctx/helper.go:9,31) *)
Inductive kind := Canceled | DeadlineExceeded.
(* a cancellation cause: an error of the caller, or the error itself (ctx/helper.go:27) *)
Inductive cause := User (n : N) | Same (k : kind).
(* a context.cancelCtx (ctx/helper.go:9,22,31,35): the context it embeds, its registered children, err and cause *)
Record cell := Cell { cpar : context; kids : list nat; cerr : option (kind * cause) }.
(* a log.config (ctx/log/log.go:159-162): numbers stand for the functions *)
Record config := Config { logFunc : option N; helper : option N }.
(* the heap: all cancelCtx and all configs (ctx/helper.go:9, ctx/log/log.go:174); env lists the contexts made so far with the
   cancelCtx their CancelFunc stops; fired is the list of cancellations so far, only used to state theorems *)
Record state := State { cells : list cell; confs : list config; env : list (context * option nat);
                        fired : list (nat * (kind * cause)) }.

(* err and cause of cancelCtx i (context.cancelCtx; ctx/helper.go:9) *)
Definition err_of (cs : list cell) (i : nat) : option (kind * cause) :=
  match nth_error cs i with Some c => cerr c | None => None end.
(* c.Err() (context.cancelCtx.Err, ctx/detach.go:26-28) *)
Definition Err (cs : list cell) (c : context) : option kind :=
  match Done c with Some i => option_map fst (err_of cs i) | None => None end.
(* context.Cause (ctx/helper.go:27): the cause of the cancelCtx found by Value *)
Definition Cause (cs : list cell) (c : context) : option cause :=
  match Value c KCancel with Some (VCancel i) => option_map snd (err_of cs i) | _ => None end.

(* context.cancelCtx.cancel (ctx/helper.go:9): nothing if already cancelled, else set err and cancel the
   children.  Dropping the children afterwards and removing itself from the parent are not modelled: the
   children of a cancelled context are never looked at again. *)
Fixpoint cancel (fuel : nat) (cs : list cell) (i : nat) (e : kind * cause) : list cell :=
  match fuel with
  | O => cs
  | S f =>
      match nth_error cs i with
      | None => cs
      | Some c =>
          match cerr c with
          | Some _ => cs
          | None => fold_left (fun cs k => cancel f cs k e) (kids c) (upd cs i (Cell (cpar c) (kids c) (Some e)))
          end
      end
  end.

(* context.propagateCancel and withCancel (ctx/helper.go:9,22): a new cancelCtx under p.  Under a parent that is
   never done nothing is registered; under one that is done the child is cancelled at once with its Err and
   Cause; else the child is registered with the parent's cancelCtx.  (The parent's cancelCtx is looked up by
   Value and compared by channel; through the contexts of this package it is the one Done answers.) *)
Definition new_cancel (cs : list cell) (p : context) : list cell :=
  match Done p with
  | None => cs ++ [Cell p [] None]
  | Some j =>
      match Err cs p, Cause cs p with
      | Some e, Some ca => cs ++ [Cell p [] (Some (e, ca))]
      | _, _ =>
          match nth_error cs j with
          | Some pc => upd cs j (Cell (cpar pc) (kids pc ++ [length cs]) (cerr pc)) ++ [Cell p [] None]
          | None => cs ++ [Cell p [] None]
          end
      end
  end.

(* the public operations (ctx/helper.go:8-36, ctx/tags.go:16, ctx/detach.go:6, ctx/span.go:17,54,
   ctx/log/log.go:77,87); contexts are numbered in order of creation *)
Inductive op :=
| OTODO                                     (* ctx/helper.go:17 TODO *)
| OBackground                               (* ctx/helper.go:21 Background *)
| OValue (p : nat) (k : N + bytes) (v : option N)   (* ctx/helper.go:13 WithValue with a user key *)
| OCancel (p : nat)                         (* ctx/helper.go:8 WithCancel *)
| ODeadline (p : nat) (t : Z) (late : bool) (* ctx/helper.go:30-36; late: t is not in the future *)
| OTag (p : nat) (k j : bytes)              (* ctx/tags.go:16 WithTag, j the JSON of the value *)
| ODetach (p : nat)                         (* ctx/detach.go:6 *)
| OTracking (p : nat) (suggest fresh : bytes)   (* ctx/span.go:17; fresh: what uuid.NewString returns *)
| OSpan (p : nat) (fresh : bytes)           (* ctx/span.go:54 *)
| OLogFunc (p : nat) (f : N)                (* ctx/log/log.go:77 *)
| OHelper (p : nat) (h : N)                 (* ctx/log/log.go:87 *)
| OFire (x : nat) (ca : option N)           (* calling the CancelFunc returned with context x, ctx/ctx.go:10 *)
| OTimer (x : nat).                         (* the timer of context x goes off, ctx/helper.go:31 *)

(* the context numbered n (ctx/ctx.go:8) *)
Definition ctx_at (s : state) (n : nat) : option context := option_map fst (nth_error (env s) n).
(* one more context, with the cancelCtx its CancelFunc stops (ctx/ctx.go:8,10) *)
Definition push (s : state) (c : context) (cf : option nat) : state :=
  State (cells s) (confs s) (env s ++ [(c, cf)]) (fired s).
(* the cell list after a cancellation and the list of cancellations (ctx/helper.go:9) *)
Definition fire (s : state) (i : nat) (e : kind * cause) : state :=
  State (cancel (length (cells s)) (cells s) i e) (confs s) (env s) (fired s ++ [(i, e)]).
(* context.WithCancelCause (ctx/helper.go:9): new context over p *)
Definition with_cancel (s : state) (p : context) (dl : option Z) : state * context * nat :=
  let i := length (cells s) in
  (State (new_cancel (cells s) p) (confs s) (env s) (fired s), Cancel p i dl, i).
(* ctx/span.go:17-26 WithTracking *)
Definition with_tracking (c : context) (suggest fresh : bytes) : context :=
  let sug := match suggest with [] => fresh | _ => suggest end in
  Track (Tag c (B "tracking-id") (jstr false sug)) sug 0.
(* ctx/log/log.go:168-175 extractConfig: the found pointer, or a new config *)
Definition extractConfig (cfs : list config) (c : context) : list config * nat :=
  match Value c KConfig with
  | Some (VConf p) => (cfs, p)
  | _ => (cfs ++ [Config None None], length cfs)
  end.
(* store the changed config and attach the pointer to a new context (ctx/log/log.go:78-80, 88-90, 164-166) *)
Definition with_config (s : state) (c : context) (f : config -> config) : state :=
  let '(cfs, p) := extractConfig (confs s) c in
  let cfs := match nth_error cfs p with Some cf => upd cfs p (f cf) | None => cfs end in
  push (State (cells s) cfs (env s) (fired s)) (Val c KConfig (Some (VConf p))) None.

(* apply an operation to the context numbered n; numbers not yet used change nothing (ctx/ctx.go:8) *)
Definition on (s : state) (n : nat) (f : context -> state) : state :=
  match ctx_at s n with Some c => f c | None => s end.

(* one operation (citations at the constructors of op, e.g. ctx/tags.go:16) *)
Definition step (s : state) (o : op) : state :=
  match o with
  | OTODO => push s Root None
  | OBackground => let '(s, c, i) := with_cancel s Root None in push s c (Some i)
  | OValue n k v => on s n (fun p => push s (Val p (match k with inl u => KUser u | inr t => KStr t end) (option_map VUser v)) None)
  | OCancel n => on s n (fun p => let '(s, c, i) := with_cancel s p None in push s c (Some i))
  | ODeadline n t late => on s n (fun p =>
      let '(s, c, i) := with_cancel s p
         (match Deadline p with Some d => if (d <? t)%Z then None else Some t | None => Some t end) in
      let s := push s c (Some i) in
      match Deadline p with
      | Some d => if (d <? t)%Z then s else if late then fire s i (DeadlineExceeded, Same DeadlineExceeded) else s
      | None => if late then fire s i (DeadlineExceeded, Same DeadlineExceeded) else s
      end)
  | OTag n k j => on s n (fun p => push s (Tag p k j) None)
  | ODetach n => on s n (fun p => push s (Detach p) None)
  | OTracking n sug fresh => on s n (fun p => push s (with_tracking p sug fresh) None)
  | OSpan n fresh => on s n (fun p =>
      let '(s, c, i) := with_cancel s p None in
      let sug := match Value c KTrackNext with Some (VStr t) => t | _ => [] end in
      push s (with_tracking c sug fresh) (Some i))
  | OLogFunc n f => on s n (fun p => with_config s p (fun cf => Config (Some f) (helper cf)))
  | OHelper n h => on s n (fun p => with_config s p (fun cf => Config (logFunc cf) (Some h)))
  | OFire n ca => match nth_error (env s) n with
                  | Some (_, Some i) => fire s i (Canceled, match ca with Some u => User u | None => Same Canceled end)
                  | _ => s
                  end
  | OTimer n => match nth_error (env s) n with
                | Some (Cancel _ i (Some _), _) => fire s i (DeadlineExceeded, Same DeadlineExceeded)
                | _ => s
                end
  end.
(* a history of operations (ctx/ctx.go:8) *)
Definition run (ops : list op) : state := fold_left step ops (State [] [] [] []).

(* ---- reading ---- *)
Section Range.
  Context {St E : Type} (fn : St -> bytes -> bytes -> St * option E).
  (* ctx/tags.go:61-69 tagC.Value with a tagRangeFunc key: the callback keeps a state; Some is an error *)
  Fixpoint range_val (c : context) (s : St) : St * option E :=
    match c with
    | Root => (s, None)
    | Val p _ _ | Cancel p _ _ | Track p _ _ | Detach p => range_val p s
    | Tag p k j => let '(s, r) := range_val p s in
                   match r with Some e => (s, Some e) | None => fn s k j end
    end.
  (* ctx/tags.go:44-57 RangeTag; a nil context is no context here *)
  Definition RangeTag (c : context) (s : St) : St * option E := range_val c s.
End Range.
(* ctx/log/log.go:35-42 ExtractTags *)
Definition ExtractTags (c : context) : list (bytes * bytes) :=
  fst (RangeTag (E := unit) (fun m k j => (mset beqb m k j, None)) c []).
(* ctx/span.go:30-37 GetTracking *)
Definition GetTracking (c : context) : bytes :=
  match Value c KTrackGet with Some (VStr s) => s | _ => [] end.
(* the LogFunc used by log.Errorf and the others, None for the default (ctx/log/log.go:108-148) *)
Definition log_func (cfs : list config) (c : context) : option N :=
  match Value c KConfig with Some (VConf p) => match nth_error cfs p with Some cf => logFunc cf | None => None end | _ => None end.
(* the helper called by log.Errorf and the others (ctx/log/log.go:150-155) *)
Definition log_helper (cfs : list config) (c : context) : option N :=
  match Value c KConfig with Some (VConf p) => match nth_error cfs p with Some cf => helper cf | None => None end | _ => None end.
