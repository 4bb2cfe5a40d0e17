(* C151: stacks and sources. *)
From Coq Require Import Bool Ascii String Arith NArith ZArith Lia List.
From Verif Require Import Prelude DecModel DecFacts CtxModel ErrModel StkModel StkSpec.
Import ListNotations.

Lemma skipn_nth {A} : forall k (l : list A) x, nth_error l k = Some x -> skipn k l = x :: skipn (S k) l.
Proof. induction k as [|k IH]; intros [|y l] x H; cbn in H; try discriminate; [now injection H as ->|]. cbn [skipn]. rewrite (IH l x H). reflexivity. Qed.
Lemma loop_take max : forall st above, loop st above max = map fileline (firstn max (skipn (above + 1) st)).
Proof.
  induction max as [|m IH]; intros st above; [reflexivity|]. cbn [loop]. unfold Caller_. destruct (nth_error st (above + 1)) as [f|] eqn:E.
  - rewrite IH, (skipn_nth _ _ _ E). reflexivity.
  - apply nth_error_None in E. now rewrite skipn_all2 by exact E.
Qed.
Lemma nth_or {A} (d : A) : forall n l, match nth_error l n with Some x => x | None => d end = nth n l d.
Proof. induction n as [|n IH]; intros [|x l]; try reflexivity. apply (IH l). Qed.
Lemma trace_eq p : map fileline (Frame (p_file p) (p_line p) (p_func p) :: p_outer p) = trace p.
Proof. reflexivity. Qed.

(* The source of a log line is the place of the call of Errorf, Warnf, Infof or Debugf, the holder of a MetricsMutex that of the call of Lock. *)
Theorem C151_log : forall (root : bytes) (l : logger) (p : place) (any : N),
  src root l (running p any) (p_line p) = position (p_file p) (p_line p) /\ holder root (running p any) (p_line p) = position (p_file p) (p_line p).
Proof. intros root [] p any; split; reflexivity. Qed.

(* The stack of an error that NewErrorf or WrapError makes starts at the place of that call and goes on with its callers, up to 100 of them;
   an error that has one keeps it. *)
Theorem C151_partial : forall (root : bytes) (user_is : N -> gerr -> bool) (user_ctx : N -> option einfo) (c : option context) (p : place) (any fresh n : N) (msg : bytes) (wrapped : list gerr) (e : gerr),
  let shows r := exists i, as_ctx user_ctx r = Some i /\ estack i = firstn 100 (trace p) in
  (exists r, NewErrorfAt root user_is c (running p any) (p_line p) fresh n msg [] = Ok r /\ shows r) /\
  (forall r, NewErrorfAt root user_is c (running p any) (p_line p) fresh n msg wrapped = Ok r -> r = errorf n msg wrapped \/ shows r) /\
  (forall r, WrapErrorAt root user_is c (running p any) (p_line p) fresh (Some e) = Ok (Some r) -> r = e \/ shows r) /\
  (forall m, exists r, WrapErrorAt root user_is c (running p any) (p_line p) fresh (Some (EBase n m)) = Ok (Some r) /\ shows r).
Proof.
  intros root user_is user_ctx c p any fresh n msg wrapped e shows.
  assert (Y : forall f line x, let st := call (running p any) (p_line p) f x in
     stack root (call st line (root ++ B "/ctx/error.go") (B "ctx.maybeWrap")) 59 2 100 = firstn 100 (trace p)).
  { intros f line x st. unfold stack. rewrite loop_take. unfold st, running, call. cbn [skipn Nat.add]. rewrite <- firstn_map. now rewrite <- trace_eq. }
  assert (W : forall f line x fr e' r, maybeWrapAt root user_is c (call (running p any) (p_line p) f x) line fr e' = Ok r -> r = e' \/ shows r).
  { intros f line x fr e' r. unfold maybeWrapAt, maybeWrap. destruct (is user_is e' ctx_target) as [[]|]; cbn [rbind]; [intros [= <-]; auto| |discriminate].
    destruct (is user_is e' (ctx_target_p fr)) as [[]|]; cbn [rbind]; [intros [= <-]; auto| |discriminate]. intros [= <-]. right. eexists. split; [reflexivity|]. cbn [estack]. apply Y. }
  split; [|split; [|split]].
  - eexists. split; [reflexivity|]. eexists. split; [reflexivity|]. cbn [estack]. apply Y.
  - intros r H. exact (W _ _ _ _ _ _ H).
  - intros r H. cbn [WrapErrorAt] in H. destruct (maybeWrapAt _ _ _ _ _ _ _) as [w|] eqn:E; cbn in H; [|discriminate]. injection H as <-. exact (W _ _ _ _ _ _ E).
  - intros m. eexists. split; [reflexivity|]. eexists. split; [reflexivity|]. cbn [estack]. apply Y.
Qed.
(* The stack of an error that http.NewErrorf makes starts within the library, wherever it is called. *)
Theorem C151_refuted : forall (root : bytes) (user_is : N -> gerr -> bool) (user_ctx : N -> option einfo) (c : option context) (p : place) (any fresh n : N) (code : Z) (msg : bytes),
  exists r i, HttpErrorfAt root user_is c (running p any) (p_line p) code fresh n msg [] = Ok r /\ as_ctx user_ctx r = Some i /\
    estack i = position (root ++ B "/http/error.go") 14 :: firstn 99 (trace p).
Proof.
  intros root user_is user_ctx c p any fresh n code msg. eexists. eexists. split; [reflexivity|]. split; [reflexivity|]. cbn [estack]. unfold stack. rewrite loop_take. unfold running, call. cbn [skipn Nat.add].
  change 100 with (S 99). rewrite firstn_cons. cbn [map]. rewrite <- firstn_map. now rewrite <- trace_eq.
Qed.

(* Stack(above, max) is the trace of the place of the call without its first lines, up to max lines of it; Caller(above) is the function there.
   A second WriteHeader is reported with the trace of that call. *)
Theorem C151_stack : forall (root : bytes) (p : place) (any : N) (above max : nat),
  Stack root (running p any) (p_line p) above max = firstn max (skipn above (trace p)) /\
  Caller root (running p any) (p_line p) above = nth above (Frame (p_file p) (p_line p) (p_func p) :: p_outer p) (Frame [] 0 []) /\
  duplicate root (running p any) (p_line p) = firstn 10 (trace p).
Proof.
  intros root p any above max. split; [|split].
  - unfold Stack. rewrite loop_take. unfold running, call. rewrite Nat.add_1_r. cbn [skipn]. rewrite <- trace_eq, skipn_map, firstn_map. reflexivity.
  - unfold Caller, Caller_, running, call. replace (above + 2 - 1) with (S above) by lia. cbn [nth_error]. apply nth_or.
  - unfold duplicate, Stack. rewrite loop_take. unfold running, call. rewrite <- trace_eq, firstn_map. reflexivity.
Qed.

(* A position tells the file and the line, whatever characters the file has. *)
Lemma colon_split : forall a b x y, ~ In ":"%char x -> ~ In ":"%char y -> a ++ B ":" ++ x = b ++ B ":" ++ y -> a = b /\ x = y.
Proof.
  induction a as [|c a IH]; intros [|d b] x y Hx Hy E; cbn in E.
  - injection E as ->. auto.
  - exfalso. injection E as <- E. apply Hx. rewrite E. apply in_or_app. right. now left.
  - exfalso. injection E as -> E. apply Hy. rewrite <- E. apply in_or_app. right. now left.
  - injection E as -> E. destruct (IH b x y Hx Hy E) as [-> ->]. auto.
Qed.
Lemma dec_no_colon n : ~ In ":"%char (dec n).
Proof. intros H. pose proof (proj1 (Forall_forall _ _) (dec_digits n) _ H) as E. discriminate E. Qed.
Theorem C151_positions : forall (f1 f2 : bytes) (l1 l2 : N), position f1 l1 = position f2 l2 -> f1 = f2 /\ l1 = l2.
Proof.
  intros f1 f2 l1 l2 E. destruct (colon_split _ _ _ _ (dec_no_colon l1) (dec_no_colon l2) E) as [-> D]. split; [reflexivity|]. now apply dec_inj.
Qed.

(* A handler at line 42 of /app/api.go, called by main at line 7. *)
Definition ex_place := Place (B "/app/api.go") 42 (B "app.handle") [Frame (B "/app/main.go") 7 (B "main.main")].
Example C151_ex : src (B "/go/forego") Warnf (running ex_place 0) 42 = B "/app/api.go:42" /\
  (exists i e, NewErrorfAt (B "/go/forego") (fun _ _ => false) None (running ex_place 0) 42 1 2 (B "no such user") [] = Ok (ECtx i e) /\ estack i = [B "/app/api.go:42"; B "/app/main.go:7"]) /\
  (exists i e, HttpErrorfAt (B "/go/forego") (fun _ _ => false) None (running ex_place 0) 42 404 1 2 (B "no such user") [] = Ok (EHttp 404 (Some (ECtx i e))) /\
    estack i = [B "/go/forego/http/error.go:14"; B "/app/api.go:42"; B "/app/main.go:7"]) /\
  Stack (B "/go/forego") (running ex_place 0) 42 1 5 = [B "/app/main.go:7"] /\ f_func (Caller (B "/go/forego") (running ex_place 0) 42 0) = B "app.handle".
Proof. split; [vm_compute; reflexivity|]. split; [eexists; eexists; vm_compute; split; reflexivity|]. split; [eexists; eexists; vm_compute; split; reflexivity|]. vm_compute. auto. Qed.

Print Assumptions C151_log.
Print Assumptions C151_partial.
Print Assumptions C151_refuted.
Print Assumptions C151_stack.
Print Assumptions C151_positions.
Print Assumptions C151_ex.
