(* Proofs about BufferedRWC. *)
From Coq Require Import Bool Arith Ascii Lia List.
From Verif Require Import Prelude ReqModel BufModel BufSpec.
Import ListNotations.

Lemma exec_app s l1 l2 : exec s (l1 ++ l2) = exec (exec s l1) l2.
Proof. revert s. induction l1; intros s; cbn; auto. Qed.
Lemma exec_inv (P : st -> Prop) (Q : label -> Prop) :
  (forall s l, Q l -> P s -> P (step s l)) -> forall ls s, Forall Q ls -> P s -> P (exec s ls).
Proof.
  intros H. induction ls as [|l ls IH]; intros s F HP; cbn; [exact HP|]. inversion F; subst. apply IH; auto.
Qed.

Definition rest (s : st) : bytes := concat (map (content (mem s)) (toRead s)).
Lemma content_skip m x k :
  content m (Sl (sl_id x) (sl_off x + k) (sl_len x - k)) = skipn k (content m x).
Proof.
  unfold content. cbn. rewrite skipn_firstn_comm. f_equal. rewrite Nat.add_comm.
  generalize (sl_off x). intros o. generalize (m (sl_id x)). clear. intros l. revert l. induction o as [|o IH]; intros l.
  - rewrite Nat.add_0_r. reflexivity.
  - destruct l; [rewrite !skipn_nil; reflexivity|]. rewrite Nat.add_succ_r. cbn. apply IH.
Qed.

(* what the loop of Read does *)
Lemma loop_rest s r len : delivered (log s) ++ rest s = delivered (log (read_loop s r len)) ++ rest (read_loop s r len).
Proof.
  unfold read_loop, rest. destruct (toRead s) as [|x q] eqn:E; [destruct (readClosed s); reflexivity|].
  cbn [log mem toRead delivered]. rewrite <- app_assoc. f_equal. cbn [map concat].
  set (c := content (mem s) x). destruct (Nat.ltb_spec (Nat.min len (length c)) (length c)) as [L|L].
  - cbn [map concat]. rewrite content_skip. rewrite app_assoc. fold c. rewrite firstn_skipn. reflexivity.
  - rewrite firstn_all2 by exact L. reflexivity.
Qed.
Lemma loop_same s r len : mem (read_loop s r len) = mem s /\ written (read_loop s r len) = written s /\
  readClosed (read_loop s r len) = readClosed s /\ appended (log (read_loop s r len)) = appended (log s) /\
  accepted (log (read_loop s r len)) = accepted (log s) /\ (shut (log (read_loop s r len)) <-> shut (log s)).
Proof.
  unfold read_loop, shut. destruct (toRead s); [destruct (readClosed s) eqn:E|]; cbn; repeat split; auto;
  intuition discriminate.
Qed.

Record str (s : st) : Prop := {
  s_str : delivered (log s) ++ rest s = appended (log s);
  s_wr : map (content (mem s)) (written s) = accepted (log s) }.
Lemma str_loop s r len : str s -> str (read_loop s r len).
Proof.
  intros [A W]. destruct (loop_same s r len) as (E1 & E2 & E3 & E4 & E5 & _). constructor.
  - rewrite E4, <- A. symmetry. apply loop_rest.
  - rewrite E1, E2, E5. exact W.
Qed.
Lemma str_step s l : no_poke l -> str s -> str (step s l).
Proof.
  intros N H. pose proof H as [A W]. destruct l; cbn [step].
  - destruct (readClosed s); constructor; cbn [log mem toRead written appended delivered accepted]; auto.
    unfold rest in *. cbn. rewrite map_app, concat_app. cbn. rewrite app_nil_r, app_assoc, A. reflexivity.
  - destruct (busy s r || (cap <? len)); [exact H|]. destruct (cap =? 0); [|apply str_loop; exact H].
    constructor; destruct (toRead s) eqn:E; try destruct (readClosed s); cbn; rewrite ?app_nil_r; auto;
    unfold rest in *; rewrite E in *; cbn in *; rewrite ?app_nil_r in *; auto.
  - destruct (take r (woken s)) as [[len rst]|]; [|exact H]. apply str_loop. constructor; assumption.
  - destruct (content (mem s) x) as [|a c] eqn:E; [|destruct (readClosed s)];
    constructor; cbn [log mem toRead written appended delivered accepted]; auto.
    rewrite map_app, W. cbn. rewrite E. reflexivity.
  - destruct (readClosed s); constructor; auto.
  - constructor; auto.
  - constructor; auto.
  - constructor; auto.
  - destruct N.
Qed.
Lemma reach_str m ls : Forall no_poke ls -> str (exec (init m) ls).
Proof. intros F. apply (exec_inv str no_poke); [exact str_step|exact F|constructor; reflexivity]. Qed.

Lemma prefix_ok m ls : Forall no_poke ls -> prefix (delivered (log (exec (init m) ls))) (appended (log (exec (init m) ls))).
Proof. intros F. destruct (reach_str m ls F) as [A _]. exists (rest (exec (init m) ls)). symmetry. exact A. Qed.
Lemma written_ok m ls : Forall no_poke ls ->
  map (content (mem (exec (init m) ls))) (written (exec (init m) ls)) = accepted (log (exec (init m) ls)).
Proof. intros F. exact (s_wr _ (reach_str m ls F)). Qed.

(* closing *)
Record shutinv (s : st) : Prop := {
  h_shut : readClosed s = true <-> shut (log s);
  h_eof : forall r, In (EEOF r) (log s) -> readClosed s = true /\ toRead s = [] }.
Lemma shut_cons e l : e <> EClose -> e <> ESetClosed -> (shut (e :: l) <-> shut l).
Proof. intros N1 N2. unfold shut. cbn. intuition congruence. Qed.
Lemma shutinv_loop s r len : shutinv s -> shutinv (read_loop s r len).
Proof.
  intros [S E]. destruct (loop_same s r len) as (_ & _ & E3 & _ & _ & E6). constructor; [rewrite E3, E6; exact S|].
  intros q Hq. unfold read_loop in *. destruct (toRead s) as [|x l] eqn:T; [destruct (readClosed s) eqn:C|]; cbn in *.
  - auto.
  - exact (E q Hq).
  - destruct Hq as [Hq|Hq]; [discriminate|]. destruct (E q Hq). congruence.
Qed.
Lemma shutinv_step s l : True -> shutinv s -> shutinv (step s l).
Proof.
  intros _ H. pose proof H as [S E]. destruct l; cbn [step].
  - destruct (readClosed s) eqn:C; constructor; cbn [readClosed log toRead].
    + rewrite shut_cons by discriminate. exact S.
    + intros q [Hq|Hq]; [discriminate|]. exact (E q Hq).
    + rewrite shut_cons by discriminate. exact S.
    + intros q [Hq|Hq]; [discriminate|]. destruct (E q Hq). discriminate.
  - destruct (busy s r || (cap <? len)); [exact H|]. destruct (cap =? 0); [|apply shutinv_loop; exact H].
    destruct (toRead s) eqn:T; [destruct (readClosed s) eqn:C|]; constructor; cbn [readClosed log toRead];
    rewrite ?shut_cons by discriminate; auto; intros q [Hq|Hq]; try discriminate; eauto.
  - destruct (take r (woken s)) as [[len rst]|]; [|exact H]. apply shutinv_loop. constructor; assumption.
  - destruct (content (mem s) x) as [|a c]; [|destruct (readClosed s) eqn:C]; constructor; cbn [readClosed log toRead];
    rewrite ?shut_cons by discriminate; auto; intros q [Hq|Hq]; try discriminate; eauto.
  - destruct (readClosed s) eqn:C; constructor; cbn [readClosed log toRead].
    + rewrite shut_cons by discriminate. exact S.
    + intros q [Hq|Hq]; [discriminate|]. exact (E q Hq).
    + split; [intros _; left; left; reflexivity|reflexivity].
    + intros q [Hq|Hq]; [discriminate|]. destruct (E q Hq). discriminate.
  - constructor; cbn [readClosed log toRead].
    + split; [intros _; right; left; reflexivity|reflexivity].
    + intros q [Hq|Hq]; [discriminate|]. destruct (E q Hq). auto.
  - constructor; cbn [readClosed log toRead]; rewrite ?shut_cons by discriminate; auto.
    intros q [Hq|Hq]; [discriminate|eauto].
  - constructor; cbn [readClosed log toRead]; rewrite ?shut_cons by discriminate; auto.
    intros q [Hq|Hq]; [discriminate|eauto].
  - destruct (length b =? length (mem s i)); [|exact H]. constructor; assumption.
Qed.
Lemma all_true {A} (l : list A) : Forall (fun _ => True) l.
Proof. induction l; constructor; auto. Qed.
Lemma reach_shut m ls : shutinv (exec (init m) ls).
Proof.
  apply (exec_inv shutinv (fun _ => True)); [exact shutinv_step|apply all_true|].
  constructor; cbn; [|tauto]. unfold shut. cbn. intuition discriminate.
Qed.
Lemma eof_ok m ls r : Forall no_poke ls -> In (EEOF r) (log (exec (init m) ls)) ->
  shut (log (exec (init m) ls)) /\ delivered (log (exec (init m) ls)) = appended (log (exec (init m) ls)).
Proof.
  intros F Hi. destruct (reach_shut m ls) as [S E]. destruct (E r Hi) as [C T]. split; [apply S; exact C|].
  destruct (reach_str m ls F) as [A _]. unfold rest in A. rewrite T in A. cbn in A. rewrite app_nil_r in A. exact A.
Qed.

(* Close does not wake readers *)
Definition stuck (r n : nat) (s : st) : Prop := readClosed s = true /\ In (r, n) (waiting s).
Lemma stuck_step r n s l : no_set l -> stuck r n s -> stuck r n (step s l).
Proof.
  intros N [C W]. destruct l; cbn [step]; rewrite ?C; try (split; auto; fail).
  - destruct (busy s r0 || (cap <? len)); [split; auto|]. destruct (cap =? 0); [split; auto|].
    unfold read_loop. destruct (toRead s); rewrite ?C; split; auto.
  - destruct (take r0 (woken s)) as [[len rst]|]; [|split; auto]. unfold read_loop. cbn.
    destruct (toRead s); rewrite ?C; split; auto.
  - destruct (content (mem s) x); split; auto.
  - destruct (length b =? length (mem s i)); split; auto.
Qed.
Lemma stuck_exec r n ls s : Forall no_set ls -> stuck r n s -> stuck r n (exec s ls).
Proof. apply (exec_inv (stuck r n) no_set). apply stuck_step. Qed.

(* SetReadClosed wakes all *)
Definition awake (s : st) : Prop := readClosed s = true /\ waiting s = [].
Lemma awake_step s l : True -> awake s -> awake (step s l).
Proof.
  intros _ [C W]. destruct l; cbn [step]; rewrite ?C; try (split; auto; fail).
  - destruct (busy s r || (cap <? len)); [split; auto|]. destruct (cap =? 0); [split; auto|].
    unfold read_loop. destruct (toRead s); rewrite ?C; split; auto.
  - destruct (take r (woken s)) as [[len rst]|]; [|split; auto]. unfold read_loop. cbn.
    destruct (toRead s); rewrite ?C; split; auto.
  - destruct (content (mem s) x); split; auto.
  - destruct (length b =? length (mem s i)); split; auto.
Qed.
Lemma loop_closed s r len : readClosed s = true -> returned s (read_loop s r len) r.
Proof. intros C. unfold returned, read_loop. destruct (toRead s); rewrite ?C; cbn; eauto. Qed.
Lemma take_in r l : (exists n, In (r, n) l) -> exists n t, take r l = Some (n, t).
Proof.
  intros [n H]. induction l as [|[q k] l IH]; [destruct H|]. cbn. destruct (Nat.eqb_spec q r); [eauto|].
  destruct H as [H|H]; [congruence|]. destruct (IH H) as (m & t & E). rewrite E. eauto.
Qed.
Lemma set_closed_wakes m ls ls' : let s := exec (init m) (ls ++ LSetClosed :: ls') in
  (forall r, ~ reader_waits s r) /\ (forall r n, In (r, n) (woken s) -> returned s (step s (LWake r)) r).
Proof.
  intros s. assert (A : awake s).
  { unfold s. rewrite exec_app. cbn [exec]. apply (exec_inv awake (fun _ => True)); [exact awake_step|apply all_true|].
    split; reflexivity. }
  destruct A as [C W]. split.
  - intros r [n H]. rewrite W in H. destruct H.
  - intros r n H. cbn [step]. destruct (take_in r (woken s)) as (k & t & E); [eauto|]. rewrite E.
    exact (loop_closed (St (mem s) (toRead s) (written s) (readClosed s) (waiting s) t (log s)) r k C).
Qed.
Lemma read_closed m ls r len cap : let s := exec (init m) ls in
  shut (log s) -> busy s r = false -> len <= cap -> returned s (step s (LRead r len cap)) r.
Proof.
  intros s H B L. destruct (reach_shut m ls) as [S _]. fold s in S. apply S in H. cbn [step]. rewrite B. cbn [orb].
  assert (E : (cap <? len) = false) by (apply Nat.ltb_ge; exact L). rewrite E.
  destruct (cap =? 0); [|apply loop_closed; exact H]. unfold returned. rewrite H. destruct (toRead s); cbn; eauto.
Qed.

(* reading again and again gets everything *)
Lemma drain r n : 1 <= n -> forall k s, busy s r = false -> length (rest s) + length (toRead s) <= k ->
  exists j, toRead (exec s (repeat (LRead r n n) j)) = [] /\
    delivered (log (exec s (repeat (LRead r n n) j))) = delivered (log s) ++ rest s.
Proof.
  intros N. induction k as [|k IH]; intros s B H.
  - exists 0. cbn. destruct (toRead s) eqn:E; [|cbn in H; lia]. unfold rest. rewrite E. cbn. rewrite app_nil_r. auto.
  - destruct (toRead s) as [|x q] eqn:E.
    + exists 0. cbn. unfold rest. rewrite E. cbn. rewrite app_nil_r. auto.
    + set (s1 := step s (LRead r n n)).
      assert (S1 : s1 = read_loop s r n).
      { unfold s1. cbn [step]. rewrite B. cbn [orb]. rewrite Nat.ltb_irrefl. destruct (Nat.eqb_spec n 0); [lia|reflexivity]. }
      assert (R : delivered (log s) ++ rest s = delivered (log s1) ++ rest s1) by (rewrite S1; apply loop_rest).
      assert (B1 : busy s1 r = false).
      { rewrite S1. unfold busy, read_loop. rewrite E. exact B. }
      assert (M : length (rest s1) + length (toRead s1) <= k).
      { assert (H' : length (rest s) + length (toRead s) <= S k) by (rewrite E; exact H). clear H.
        rewrite S1. unfold rest, read_loop in *. rewrite E in *. cbn [toRead mem map concat length] in *.
        set (c := content (mem s) x) in *. rewrite app_length in H'.
        destruct (Nat.ltb_spec (Nat.min n (length c)) (length c)) as [L|L].
        - cbn [map concat length]. rewrite content_skip. fold c. rewrite app_length, skipn_length. lia.
        - lia. }
      destruct (IH s1 B1 M) as (j & T & D). exists (S j). cbn [repeat exec]. fold s1. rewrite R. auto.
Qed.
Lemma drains m ls r n : Forall no_poke ls -> 1 <= n -> busy (exec (init m) ls) r = false ->
  exists j, let s := exec (init m) (ls ++ repeat (LRead r n n) j) in
    delivered (log s) = appended (log (exec (init m) ls)) /\ toRead s = [].
Proof.
  intros F N B. destruct (drain r n N _ _ B (le_n _)) as (j & T & D). exists j. cbn zeta. rewrite exec_app.
  rewrite D. destruct (reach_str m ls F) as [A _]. auto.
Qed.

(* signals *)
Record sig (n : nat) (s : st) : Prop := {
  g_small : Forall (fun x => sl_len x <= n) (toRead s);
  g_wait : forall r k, In (r, k) (waiting s ++ woken s) -> n <= k;
  g_sig : waiting s <> [] -> length (toRead s) <= length (woken s) }.
Lemma content_len m x : length (content m x) <= sl_len x.
Proof. unfold content. rewrite firstn_length. lia. Qed.
Lemma take_spec r l k t : take r l = Some (k, t) -> length l = S (length t) /\ In (r, k) l /\ incl t l.
Proof.
  revert k t. induction l as [|[q m] l IH]; intros k t H; cbn in H; [discriminate|]. destruct (Nat.eqb_spec q r) as [->|N].
  - injection H as <- <-. cbn. repeat split; auto. intros z Hz. right. exact Hz.
  - destruct (take r l) as [[k' t']|] eqn:E; [|discriminate]. injection H as <- <-. destruct (IH _ _ eq_refl) as (L & I & C).
    cbn. rewrite L. repeat split; auto. intros z [<-|Hz]; [left; reflexivity|right; auto].
Qed.
Lemma sig_loop n s r len : Forall (fun x => sl_len x <= n) (toRead s) ->
  (forall q k, In (q, k) (waiting s ++ woken s) -> n <= k) -> n <= len ->
  (waiting s <> [] -> length (toRead s) <= S (length (woken s))) -> sig n (read_loop s r len).
Proof.
  intros A W L G. unfold read_loop. destruct (toRead s) as [|x q] eqn:E.
  - destruct (readClosed s); constructor; cbn; auto; try lia.
    intros p k. rewrite <- app_assoc. cbn. intros Hi. apply in_app_or in Hi. destruct Hi as [Hi|[Hi|Hi]].
    + apply (W p k), in_or_app. auto.
    + congruence.
    + apply (W p k), in_or_app. auto.
  - inversion A as [|y z Hx Hq]; subst. pose proof (content_len (mem s) x) as C.
    replace (Nat.min len (length (content (mem s) x)) <? length (content (mem s) x)) with false
      by (symmetry; apply Nat.ltb_ge; lia).
    constructor; cbn; auto. intros Hw. specialize (G Hw). cbn in G. lia.
Qed.
Lemma sig_step n s l : fits n l -> sig n s -> sig n (step s l).
Proof.
  intros Fi H. pose proof H as [A W G]. destruct l; cbn [step]; cbn in Fi.
  - destruct (readClosed s); constructor; cbn [toRead waiting woken]; auto.
    + apply Forall_app. auto.
    + intros r k. destruct (waiting s) as [|w ws]; cbn; [intros Hi; apply (W r k); rewrite app_nil_r in Hi; exact Hi|].
      intros Hi. apply (W r k). cbn. apply in_app_or in Hi. destruct Hi as [Hi|Hi]; [right; apply in_or_app; auto|].
      apply in_app_or in Hi. destruct Hi as [Hi|[Hi|[]]]; [right; apply in_or_app; auto|left; exact Hi].
    + destruct (waiting s) as [|w ws]; cbn; [congruence|]. intros _. rewrite !app_length. cbn.
      assert (length (toRead s) <= length (woken s)) by (apply G; discriminate). lia.
  - destruct (busy s r || (cap <? len)); [exact H|]. destruct (cap =? 0); [|apply sig_loop; auto].
    constructor; auto.
  - destruct (take r (woken s)) as [[len rst]|] eqn:E; [|exact H]. destruct (take_spec _ _ _ _ E) as (Le & Hi & Hc).
    apply sig_loop; cbn; auto.
    + intros q k Hq. apply (W q k), in_or_app. apply in_app_or in Hq. destruct Hq; auto.
    + apply (W r len), in_or_app. auto.
    + intros Hw. rewrite <- Le. auto.
  - destruct (content (mem s) x); [|destruct (readClosed s)]; constructor; auto.
  - destruct (readClosed s); constructor; auto.
  - constructor; cbn [toRead waiting woken]; auto; [|congruence]. intros r k Hi. apply (W r k), in_or_app.
    cbn in Hi. apply in_app_or in Hi. destruct Hi; auto.
  - constructor; auto.
  - constructor; auto.
  - destruct (length b =? length (mem s i)); [|exact H]. constructor; auto.
Qed.
Lemma no_sleep m n ls r : Forall (fits n) ls -> reader_waits (exec (init m) ls) r -> toRead (exec (init m) ls) <> [] ->
  woken (exec (init m) ls) <> [].
Proof.
  intros F [k Hw] T E. assert (Sg : sig n (exec (init m) ls)).
  { apply (exec_inv (sig n) (fits n)); [apply sig_step|exact F|]. constructor; cbn; [constructor|tauto|congruence]. }
  destruct Sg as [_ _ G]. rewrite E in G. cbn in G.
  assert (L : length (toRead (exec (init m) ls)) <= 0) by (apply G; intros Z; rewrite Z in Hw; destruct Hw).
  destruct (toRead (exec (init m) ls)); [congruence|cbn in L; lia].
Qed.

Lemma write_closed m ls x : let s := exec (init m) ls in shut (log s) ->
  written (step s (LWrite x)) = written s /\
  (content (mem s) x <> [] -> log (step s (LWrite x)) = EWriteClosed :: log s).
Proof.
  intros s H. destruct (reach_shut m ls) as [S _]. apply S in H. fold s in H. cbn [step]. rewrite H.
  destruct (content (mem s) x); cbn; split; congruence.
Qed.
