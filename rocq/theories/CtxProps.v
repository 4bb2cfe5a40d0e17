(* Theorems about contexts: C20 to C23, C27, C64. *)
From Coq Require Import Bool Ascii String Arith NArith ZArith Lia List.
From Verif Require Import Prelude PreludeFacts DurModel JsonModel CtxModel CtxSpec CtxProofs CtxRef.
Import ListNotations.
Local Open Scope nat_scope.

(* C20: the callback is called on each tag of the ancestry, oldest first, up to its first error. *)
Theorem C20_range : forall {St E : Type} (fn : St -> bytes -> bytes -> St * option E) (c : context) (s : St),
  RangeTag fn c s = each fn (tags c) s.
Proof. exact @range_each. Qed.
Print Assumptions C20_range.

(* C20: ExtractTags holds, for each name, the innermost tag of that name. *)
Theorem C20_extract : forall (c : context) (t : bytes), mget beqb (ExtractTags c) t = closest_tag c t.
Proof. exact extract_closest. Qed.
Print Assumptions C20_extract.

Definition C20_ctx : context :=
  Tag (Detach (Val (Tag (Cancel (Tag Root (B "a") (B "1")) 0 None) (B "b") (B "2")) (KUser 1) None)) (B "a") (B "3").
Example C20_ex :
  RangeTag (E := bytes) (fun l k j => (l ++ [(k, j)], None)) C20_ctx [] = ([(B "a", B "1"); (B "b", B "2"); (B "a", B "3")], None) /\
  RangeTag (fun l k j => (l ++ [(k, j)], if beqb k (B "b") then Some j else None)) C20_ctx [] = ([(B "a", B "1"); (B "b", B "2")], Some (B "2")) /\
  mget beqb (ExtractTags C20_ctx) (B "a") = Some (B "3").
Proof. repeat split; reflexivity. Qed.

(* C21: taking out every Detach of a chain changes no value. *)
Theorem C21_values : forall (c : context) (k : key), Value (undetached c) k = Value c k.
Proof. exact value_undetached. Qed.
Print Assumptions C21_values.

(* C21: in every history, the error of a context is that of the first cancellation of one of the cancellable
   contexts between it and its closest Detach; there is no other source of cancellation. *)
Theorem C21_errors : forall (ops : list op) (c : context), In c (contexts ops) ->
  Err (cells (run ops)) c = option_map fst (first_of (scope c) (fired (run ops))).
Proof. exact err_spec. Qed.
Print Assumptions C21_errors.

(* C21: one call of a CancelFunc cancels exactly the contexts below it with no Detach in between. *)
Theorem C21_cancel : forall (ops : list op) (n : nat) (ca : option N) (p : context) (i : nat) (c : context),
  nth_error (env (run ops)) n = Some (p, Some i) -> In c (contexts ops) ->
  Err (cells (run (ops ++ [OFire n ca]))) c =
    match Err (cells (run ops)) c with Some k => Some k | None => if existsb (Nat.eqb i) (scope c) then Some Canceled else None end.
Proof. exact fire_err. Qed.
Print Assumptions C21_cancel.

(* C21: after every history, everything that can be read from every context is what the reference says, in
   which each context is made from its parent alone: values, tags, tracking id, deadline (the earliest one since
   the closest Detach), error and cause. *)
Theorem C21_reference : forall (ops : list op),
  length (contexts ops) = length (views (meaning ops)) /\
  forall n c, nth_error (contexts ops) n = Some c ->
  exists v, nth_error (views (meaning ops)) n = Some v /\ shows (run ops) (meaning ops) c v.
Proof. intros ops. exact (conj (reference_length ops) (reference ops)). Qed.
Print Assumptions C21_reference.

Definition C21_ops : list op :=
  [OBackground; OValue 0 (inl 1%N) (Some 5%N); ODeadline 1 100 false; ODetach 2; OCancel 3; OTag 4 (B "t") (B "1"); ODeadline 4 200 false; OFire 0 (Some 9%N)].
Example C21_reference_ex :
  map v_deadline (views (meaning C21_ops)) = [None; None; Some 100; None; None; None; Some 200]%Z /\
  map v_above (views (meaning C21_ops)) = [[0]; [0]; [1; 0]; []; [2]; [2]; [3; 2]] /\
  ends (meaning C21_ops) = [(0, (Canceled, User 9))].
Proof. repeat split; reflexivity. Qed.
Example C21_ex :
  let s := run C21_ops in
  match ctx_at s 2, ctx_at s 3, ctx_at s 5, ctx_at s 6 with
  | Some c2, Some c3, Some c5, Some c6 =>
      Err (cells s) c2 = Some Canceled /\ Err (cells s) c3 = None /\ Err (cells s) c5 = None /\ Value c5 (KUser 1) = Some (VUser 5) /\
      Deadline c2 = Some 100%Z /\ Deadline c3 = None /\ Deadline c6 = Some 200%Z /\
      Err (cells (run (C21_ops ++ [OTimer 6; OFire 4 None]))) c5 = Some Canceled /\
      Err (cells (run (C21_ops ++ [OTimer 6; OFire 4 None]))) c6 = Some DeadlineExceeded
  | _, _, _, _ => False
  end.
Proof. vm_compute. repeat split. Qed.

(* C22, false as stated: a detached context that is not done still reports the cause of its parent. *)
Theorem C22_cause_refuted : exists (ops : list op) (c : context),
  In c (contexts ops) /\ Err (cells (run ops)) c = None /\ Cause (cells (run ops)) c <> None.
Proof. exact refuted_cause. Qed.
Print Assumptions C22_cause_refuted.

(* C22, what holds: once there is a cancellable context after the last Detach, the two agree again. *)
Theorem C22_cause_partial : forall (ops : list op) (c : context), In c (contexts ops) -> Done c <> None ->
  (Err (cells (run ops)) c = None <-> Cause (cells (run ops)) c = None).
Proof. exact err_cause. Qed.
Print Assumptions C22_cause_partial.

(* C22: and the cause is that of the first cancellation that concerns the context. *)
Theorem C22_first_cause_partial : forall (ops : list op) (c : context), In c (contexts ops) -> Done c <> None ->
  Cause (cells (run ops)) c = option_map snd (first_of (scope c) (fired (run ops))).
Proof. exact cause_spec. Qed.
Print Assumptions C22_first_cause_partial.

Example C22_ex :
  let s := run [OBackground; OCancel 0; ODetach 1; OCancel 2; OFire 1 (Some 1%N); OFire 3 (Some 2%N); OFire 0 (Some 3%N); OFire 3 (Some 4%N)] in
  map (Err (cells s)) (map fst (env s)) = [Some Canceled; Some Canceled; None; Some Canceled] /\
  map (Cause (cells s)) (map fst (env s)) = [Some (User 3); Some (User 1); Some (User 1); Some (User 2)].
Proof. split; reflexivity. Qed.

(* C23: GetTracking answers the closest WithTracking or Span, through any wrappers. *)
Theorem C23_inherited : forall (ops : list op) (c : context), In c (contexts ops) ->
  GetTracking c = match closest_track c with Some t => t | None => [] end.
Proof. exact tracking_spec. Qed.
Print Assumptions C23_inherited.

(* C23, false as stated: two Spans of one context get the same id. *)
Theorem C23_unique_refuted : exists ops n f1 f2 a b, f1 <> f2 /\
  nth_error (contexts (ops ++ [OSpan n f1; OSpan n f2])) (length (contexts ops)) = Some a /\
  nth_error (contexts (ops ++ [OSpan n f1; OSpan n f2])) (S (length (contexts ops))) = Some b /\
  GetTracking a = GetTracking b /\ GetTracking a <> [].
Proof.
  exists [OTODO; OTracking 0 (B "id") []], 1, (B "f"), (B "g"). eexists. eexists.
  split; [discriminate|]. split; [reflexivity|]. split; [reflexivity|]. split; [reflexivity|discriminate].
Qed.
Print Assumptions C23_unique_refuted.

(* C23, what holds: a Span under an id is that id followed by .1, always; without one it gets a fresh id. *)
Theorem C23_span_partial : forall (ops : list op) (n : nat) (p : context) (fresh : bytes), nth_error (contexts ops) n = Some p ->
  exists c, newest (ops ++ [OSpan n fresh]) = Some c /\
    GetTracking c = match closest_track p with Some t => t ++ B ".1" | None => fresh end.
Proof. exact span_spec. Qed.
Print Assumptions C23_span_partial.

Example C23_ex :
  map GetTracking (contexts [OBackground; OTracking 0 (B "id") []; OTag 1 (B "x") (B "1"); ODetach 2; OSpan 3 (B "u"); OSpan 4 []; OSpan 0 (B "u")]) =
  [[]; B "id"; B "id"; B "id"; B "id.1"; B "id.1.1"; B "u"].
Proof. reflexivity. Qed.

(* C27, false as stated: with a logger already there, WithLogFunc changes the logger of the parent. *)
Theorem C27_parent_refuted : exists ops n f x, In x (contexts ops) /\ ctx_at (run ops) n = Some x /\
  logs_with (ops ++ [OLogFunc n f]) x <> logs_with ops x.
Proof.
  exists [OTODO; OLogFunc 0 1%N], 1, 2%N. eexists. split; [right; left; reflexivity|]. split; [reflexivity|]. vm_compute. discriminate.
Qed.
Print Assumptions C27_parent_refuted.

(* C27: that is so for every context that has one. *)
Theorem C27_shared : forall (ops : list op) (n : nat) (p : context) (f : N), nth_error (contexts ops) n = Some p -> has_logger p ->
  log_func (confs (run (ops ++ [OLogFunc n f]))) p = Some f.
Proof. exact logger_shared. Qed.
Print Assumptions C27_shared.

(* C27, what holds: the returned context uses the new logger and keeps the helper of its parent, and the same
   for a new helper; *)
Theorem C27_logger_partial : forall (ops : list op) (n : nat) (p : context) (f : N), nth_error (contexts ops) n = Some p ->
  exists c, newest (ops ++ [OLogFunc n f]) = Some c /\ logs_with (ops ++ [OLogFunc n f]) c = (Some f, snd (logs_with ops p)).
Proof. intros ops n p f H. exact (config_new ops n p _ _ (or_introl (ex_intro _ f (conj eq_refl eq_refl))) H). Qed.
Print Assumptions C27_logger_partial.
Theorem C27_helper_partial : forall (ops : list op) (n : nat) (p : context) (h : N), nth_error (contexts ops) n = Some p ->
  exists c, newest (ops ++ [OHelper n h]) = Some c /\ logs_with (ops ++ [OHelper n h]) c = (fst (logs_with ops p), Some h).
Proof. intros ops n p h H. exact (config_new ops n p _ _ (or_intror (ex_intro _ h (conj eq_refl eq_refl))) H). Qed.
Print Assumptions C27_helper_partial.
(* and if the parent has none, every existing context logs as before. *)
Theorem C27_others_partial : forall (ops : list op) (n : nat) (p : context) (o : op),
  (exists f, o = OLogFunc n f) \/ (exists h, o = OHelper n h) ->
  nth_error (contexts ops) n = Some p -> ~ has_logger p -> forall x, In x (contexts ops) ->
  logs_with (ops ++ [o]) x = logs_with ops x.
Proof. exact logger_fresh. Qed.
Print Assumptions C27_others_partial.

Example C27_ex :
  let ops := [OTODO; OTag 0 (B "t") (B "1"); OLogFunc 0 1%N; OHelper 2 8%N; OLogFunc 1 2%N] in
  map (logs_with ops) (contexts ops) =
    [(None, None); (None, None); (Some 1, Some 8); (Some 1, Some 8); (Some 2, None)]%N /\
  exists p, nth_error (contexts ops) 1 = Some p /\ ~ has_logger p.
Proof.
  split; [reflexivity|]. eexists. split; [reflexivity|]. intros (p & v & [H|[H|[]]]); discriminate.
Qed.

(* C64, false as stated: a tag hides the value stored under the plain string key of that name. *)
Theorem C64_tag_values_refuted : exists ops n k j x c, nth_error (contexts ops) n = Some x /\
  newest (ops ++ [OTag n k j]) = Some c /\ Value x (KStr k) = Some (VUser 1) /\ Value c (KStr k) <> Some (VUser 1).
Proof.
  exists [OTODO; OValue 0 (inr (B "user")) (Some 1%N)], 1, (B "user"), (B "2"). eexists. eexists.
  split; [reflexivity|]. split; [reflexivity|]. split; [reflexivity|]. vm_compute. discriminate.
Qed.
Print Assumptions C64_tag_values_refuted.
(* C64, what holds: every other key is unaffected. *)
Theorem C64_tag_values_partial : forall (c : context) (t j : bytes) (k : key), (forall s, k = KStr s -> s <> t) ->
  Value (Tag c t j) k = Value c k.
Proof. exact tag_value. Qed.
Print Assumptions C64_tag_values_partial.
Example C64_ex : Value (Tag (Val Root (KStr (B "a")) (Some (VUser 3))) (B "b") (B "1")) (KStr (B "a")) = Some (VUser 3).
Proof. reflexivity. Qed.
