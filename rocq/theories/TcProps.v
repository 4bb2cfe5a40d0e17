(* The properties of the test client of http/ws: C112. *)
From Coq Require Import Bool Ascii String Arith NArith ZArith Lia List.
From Verif Require Import Prelude PreludeFacts Utf8Model DecModel DurModel DurProofs EncModel KvProofs JsonModel JsonSpec CtxModel ErrModel MarModel WsModel WsSpec WsProps TcModel TcSpec TcProofs.
Import ListNotations.

Lemma set_other k' x : forall l k, k' <> k -> nth_error (set_call k' x l) k = nth_error l k.
Proof. induction k' as [|k' IH]; intros [|c l] [|k] Hne; cbn; auto; congruence. Qed.
Section Props.
  Context {V A H : Type} (user_msg : N -> bytes) (status_text : Z -> bytes) (user_node : N -> res node) (reg : @registry V A H).
  Notation tst := (tst V A H).
  Notation tstep := (tstep user_msg status_text user_node reg).
  Notation texec := (texec user_msg status_text user_node reg).
  Notation one_by_one := (one_by_one user_msg status_text user_node reg).

  (* C112: if calls over a channel are made one by one, none is given up, and callbacks do not fail, the k-th call that returns gets the
     result of the k-th answer, which is for the same path, as long as no earlier request over that channel failed. *)
  Theorem C112_partial : forall h ls s ch, texec (tinit h) ls = Ok s -> one_by_one (tinit h) ls -> calm ls ->
    forall k p r, nth_error (calls s ch) k = Some (p, KRet r) -> (forall j, j < k -> exists p, nth_error (answers s ch) j = Some (p, None)) ->
    exists d, nth_error (answers s ch) k = Some (p, d) /\ fair d r.
  Proof.
    intros h ls s ch E HO HC. destruct (tinv_exec _ _ _ _ ls _ _ (tinv_init _ _ _ _ h) E HO HC) as (_ & _ & HP). apply (HP ch).
  Qed.

  (* C112: Open while the server writes a frame, or while another Open runs, ends the program. *)
  Theorem C112_crash_refuted : forall s : tst, t_open s = false ->
    texec s [TOpen1; TOpen1] = Panic /\ (t_half s = false -> t_out s <> [] -> texec s [TOpen1; TPush] = Panic).
  Proof.
    intros s Ho. cbn [TcModel.texec TcModel.tstep]. rewrite Ho. cbn [rbind TcModel.tstep t_open t_half t_out]. split; [reflexivity|]. intros -> Hn. destruct (t_out s); [congruence|reflexivity].
  Qed.

  (* C112: once the loop of the server has ended, a call that waits, waits for ever, unless its context is done. *)
  Theorem C112_hangs_refuted : forall (s : tst) k ch p, t_live s = false -> t_out s = [] -> mget beqb (t_ech s) ch = Some None ->
    nth_error (t_calls s) k = Some (TCallRec ch p KWait) ->
    forall ls s', texec s ls = Ok s' -> ~ In (TGone k) ls -> nth_error (t_calls s') k = Some (TCallRec ch p KWait).
  Proof.
    intros s k ch p Hl Ho He Hk ls. revert s Hl Ho He Hk. induction ls as [|l ls IH]; intros s Hl Ho He Hk s' E HG; cbn [TcModel.texec] in E; [injection E as <-; exact Hk|].
    destruct (tstep s l) as [s1|] eqn:E1; [|discriminate]. cbn [rbind] in E.
    assert (K : t_live s1 = false /\ t_out s1 = [] /\ mget beqb (t_ech s1) ch = Some None /\ nth_error (t_calls s1) k = Some (TCallRec ch p KWait)).
    { destruct l as [|ch' path data|ch' path data| | |b|k'|k'| | |h]; cbn [TcModel.tstep] in E1; rewrite ?Hl, ?Ho in E1.
      - destruct (t_open s); [discriminate|]. injection E1 as <-. auto.
      - destruct (t_open s); [|injection E1 as <-; auto]. destruct (mget beqb (t_ech s) ch') as [|] eqn:Ee; injection E1 as <-; auto.
        cbn [t_live t_out t_ech t_calls]. repeat apply conj; auto. rewrite (mget_mset_ne beqb beqb_ok); [exact He|]. congruence.
      - destruct (mget beqb (t_ech s) ch') as [|]; injection E1 as <-; auto. cbn [t_live t_out t_ech t_calls]. repeat apply conj; auto. now apply nth_app_l.
      - injection E1 as <-. auto.
      - destruct (t_half s); injection E1 as <-; auto.
      - destruct (t_half s); injection E1 as <-; auto.
      - destruct (nth_error (t_calls s) k') as [[ch' p' [|x|]]|] eqn:Ek; try (injection E1 as <-; auto; fail).
        destruct (mget beqb (t_ech s) ch') as [[r|]|] eqn:Ee; injection E1 as <-; auto.
        assert (Hne : ch' <> ch) by congruence. cbn [t_live t_out t_ech t_calls]. repeat apply conj; auto; [now rewrite (mget_mset_ne beqb beqb_ok)|].
        assert (Hk' : k' <> k) by (intros ->; congruence). now rewrite set_other.
      - destruct (Nat.eq_dec k' k) as [->|Hk']; [exfalso; apply HG; now left|]. destruct (nth_error (t_calls s) k') as [[ch' p' [|x|]]|] eqn:Ek; injection E1 as <-; auto.
        cbn [t_live t_out t_ech t_calls]. repeat apply conj; auto. now rewrite set_other.
      - injection E1 as <-. cbn [t_live t_out t_ech t_calls]. repeat apply conj; auto. destruct (t_half s); reflexivity.
      - injection E1 as <-. auto.
      - injection E1 as <-. auto. }
    destruct K as (K1 & K2 & K3 & K4). apply (IH s1); auto. intros HI. apply HG. now right.
  Qed.
End Props.
Print Assumptions C112_partial.
Print Assumptions C112_crash_refuted.
Print Assumptions C112_hangs_refuted.

(* ---- the counter of WsProps ---- *)
Notation TS := (TcModel.tst nat nat nat).
Definition trun (ls : list (@tlabel nat)) : res TS := texec um stx un creg (tinit 0) ls.
Definition topen (x : string) : list (@tlabel nat) := [TOpen1; TOpen2 (B x) (B "counter") (Some (NInt 1)); TServe].
Definition tcall_ (x m : string) (d : option node) : @tlabel nat := TcModel.TCall (B x) (B m) d.
Definition write1 : list (@tlabel nat) := [TPush; TBack None].
(* the conditions of C112_partial, decided *)
Definition waiting (x : kst) : bool := match x with KWait => true | _ => false end.
Fixpoint obo (s : TS) (ls : list (@tlabel nat)) : bool :=
  match ls with
  | [] => true
  | l :: r => match l with TcModel.TCall ch _ _ => negb (existsb waiting (map snd (calls s ch))) | _ => true end && match tstep um stx un creg s l with Ok s1 => obo s1 r | Panic => true end
  end.
Lemma obo_ok ls : forall s, obo s ls = true -> one_by_one um stx un creg s ls.
Proof.
  induction ls as [|l ls IH]; intros s E; cbn [obo one_by_one] in *; [exact Logic.I|]. apply andb_true_iff in E. destruct E as [E1 E2]. split.
  - destruct l; cbn; auto. intros HI. apply negb_true_iff in E1. assert (X : existsb waiting (map snd (calls s ch)) = true) by (apply existsb_exists; exists KWait; auto). congruence.
  - intros s1 Es. rewrite Es in E2. auto.
Qed.
Definition calmb (ls : list (@tlabel nat)) : bool := forallb (fun l => match l with TBack (Some _) | TGone _ => false | _ => true end) ls.
Lemma calmb_ok ls : calmb ls = true -> calm ls.
Proof. intros E l Hl. unfold calmb in E. rewrite forallb_forall in E. specialize (E l Hl). destruct l; auto. destruct r; [discriminate|exact Logic.I]. discriminate. Qed.
Definition view (s : TS) (x : string) : list (bytes * kst) * list (bytes * option node) := (calls s (B x), answers s (B x)).

(* C112: not in general: a request that failed leaves a second error, which the next call returns although its request did not fail; and the
   call after that one returns nil although its request failed. *)
Definition stale : list (@tlabel nat) :=
  topen "a" ++ [tcall_ "a" "fail" None; TServe] ++ write1 ++ [TTake 0] ++ write1 ++
  [tcall_ "a" "add" (Some (NInt 3)); TTake 1; TServe] ++ write1 ++ write1 ++ [tcall_ "a" "fail" None; TTake 2; TServe].
Theorem C112_refuted : exists s, trun stale = Ok s /\ one_by_one um stx un creg (tinit 0) stale /\ calm stale /\
  view s "a" = ([(B "fail", KRet (RRemote (NPairs []))); (B "add", KRet (RRemote (NStr (B "ws[a|fail]: no")))); (B "fail", KRet RNil)],
                [(B "fail", Some (NPairs [])); (B "add", None); (B "fail", Some (NPairs []))]).
Proof.
  eexists. split; [vm_compute; reflexivity|]. split; [apply obo_ok; vm_compute; reflexivity|]. split; [apply calmb_ok; vm_compute; reflexivity|]. vm_compute. reflexivity.
Qed.
Print Assumptions C112_refuted.

(* two channels, calls of which the last one fails; C112_partial says all that is seen here *)
Definition ex_ls : list (@tlabel nat) :=
  topen "a" ++ topen "b" ++ [tcall_ "a" "add" (Some (NInt 3)); tcall_ "b" "add" (Some (NInt 4)); TServe] ++ write1 ++ write1 ++ [TServe; TTake 0; tcall_ "a" "fail" None] ++ write1 ++ write1 ++
  [TTake 1; TServe; TPush; TTake 2].
Example C112_ex : exists s, trun ex_ls = Ok s /\ one_by_one um stx un creg (tinit 0) ex_ls /\ calm ex_ls /\
  view s "a" = ([(B "add", KRet RNil); (B "fail", KRet (RRemote (NPairs [])))], [(B "add", None); (B "fail", Some (NPairs []))]) /\
  view s "b" = ([(B "add", KRet RNil)], [(B "add", None)]).
Proof.
  eexists. split; [vm_compute; reflexivity|]. split; [apply obo_ok; vm_compute; reflexivity|]. split; [apply calmb_ok; vm_compute; reflexivity|]. split; vm_compute; reflexivity.
Qed.
(* a call of a method that does not exist *)
Example C112_hangs_ex : exists s, trun (topen "a" ++ [tcall_ "a" "missing" None; TServe]) = Ok s /\ t_live s = false /\ t_out s = [] /\
  mget beqb (t_ech s) (B "a") = Some None /\ nth_error (t_calls s) 0 = Some (TCallRec (B "a") (B "missing") KWait).
Proof. eexists. split; [vm_compute; reflexivity|]. repeat split; vm_compute; reflexivity. Qed.
Example C112_crash_ex : exists s, trun (topen "a" ++ [tcall_ "a" "add" None; TServe]) = Ok s /\ t_open s = false /\ t_half s = false /\ t_out s <> [] /\
  texec um stx un creg s [TOpen1; TPush] = Panic.
Proof. eexists. split; [vm_compute; reflexivity|]. repeat split; vm_compute; try reflexivity. discriminate. Qed.
