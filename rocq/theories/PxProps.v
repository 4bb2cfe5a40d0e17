(* Theorems about the text of metrics and their registry: C97, C98. *)
From Coq Require Import Bool Ascii String Arith NArith ZArith Lia List Permutation Sorted.
From Verif Require Import Prelude PreludeFacts Utf8Model Utf8Facts QuoteModel DecModel DecFacts DurModel DurProofs PromModel PromSpec PromProofs PromProps PxModel PxSpec PxProofs PxMetrics.
Import ListNotations.

(* C97: metrics in the states that [says] describes are answered with 200 and a text that every reader of the
   format reads as exactly their samples: each series with its label values and numbers. *)
Theorem C97_readable_partial : forall (isprint : N -> bool) (V : Type) (fv ff : V -> bytes) (num : bytes -> option V)
    (other : ascii -> option bytes) (leb : V -> V -> bool) (add : V -> V -> V) (zero : V) (of_nat : nat -> V) (rounded : V -> V)
    (visited : list (bytes * metric V)) (itss : list (list (said V))),
  number_formats isprint fv ff num of_nat rounded ->
  Forall2 (fun e its => says isprint fv num other leb add zero of_nat rounded (fst e) (snd e) its) visited itss ->
  exists out, Handler fv ff (fun _ => None) visited = Some (200%N, out) /\ reads num other out = Some (concat itss).
Proof. intros. eapply handler_reads; eauto. Qed.
Print Assumptions C97_readable_partial.

Lemma tbl_keys isprint V (leb : V -> V -> bool) add zero keys le ls k :
  In k (map fst (tbl (mrun isprint leb add zero keys le ls))) -> exists vals, stringify isprint keys vals = Ok k.
Proof.
  induction ls as [|l ls IH] using rev_ind; [intros []|]. unfold mrun in *. rewrite fold_left_app. cbn [fold_left].
  set (s := fold_left _ ls m_init) in *. clearbody s.
  assert (Hset : forall k' h, In k (map fst (mset beqb (tbl s) k' h)) -> k = k' \/ In k (map fst (tbl s))).
  { intros k' h. clear. induction (tbl s) as [|[a b] m IH]; cbn; [intros [H|[]]; auto|].
    destruct (beqb k' a) eqn:E; cbn; [intros [H|H]; auto|]. intros [H|H]; auto. destruct (IH H); auto. }
  destruct l as [t v vals|t|x]; cbn [mstep].
  - destruct (pend s t); auto. destruct (stringify isprint keys vals) as [k'|] eqn:E; cbn [tbl]; auto.
    destruct (mget beqb (tbl s) k'); cbn [tbl]; auto. intros H. destruct (Hset _ _ H) as [->|H']; eauto.
  - destruct (pend s t) as [[k' v]|] eqn:E; auto. destruct (mget beqb (tbl s) k') as [h|] eqn:Eg; auto. cbn [tbl].
    intros H. destruct (Hset _ _ H) as [->|H']; auto. apply IH. apply in_map_iff. exists (k', h). split; auto.
    clear - Eg. induction (tbl s) as [|[a b] m IHm]; cbn in *; [discriminate|]. destruct (beqb k' a) eqn:E; auto.
    apply beqb_eq in E. injection Eg as ->. subst. auto.
  - auto.
Qed.

(* the lists of label values that [says] and [spoiled] speak about exist, are distinct, and have all observations *)
Theorem C97_complete : forall (isprint : N -> bool) (V : Type) (leb : V -> V -> bool) (add : V -> V -> V) (zero : V)
    (keys : list bytes) (le : list V) (ls : list (mlabel V)) (es : list (bytes * series V)),
  Permutation es (tbl (mrun isprint leb add zero keys le ls)) ->
  exists vss, Forall2 (fun vals e => stringify isprint keys vals = Ok (fst e)) vss es /\ NoDup vss /\
    forall vals, values_of vals (finished (length keys) ls) <> [] -> In vals vss.
Proof.
  intros isprint V leb add zero keys le ls es Hp.
  assert (Hd : NoDup (map fst es)).
  { eapply Permutation_NoDup; [apply Permutation_sym, Permutation_map; exact Hp|].
    destruct (inv_run isprint leb add zero keys le ls) as (G & _). exact G. }
  assert (Hk : forall e, In e es -> exists vals, stringify isprint keys vals = Ok (fst e)).
  { intros e He. eapply tbl_keys. apply in_map. eapply Permutation_in; eauto. }
  assert (Hv : exists vss, Forall2 (fun vals e => stringify isprint keys vals = Ok (fst e)) vss es).
  { clear - Hk. induction es as [|e es IH]; [exists []; constructor|].
    destruct (Hk e (or_introl eq_refl)) as (v & Hv). destruct IH as (vss & H); [intros; apply Hk; now right|].
    exists (v :: vss). now constructor. }
  destruct Hv as (vss & Hv). exists vss. split; auto. split.
  - clear Hp Hk. induction Hv as [|v e vss es H Hv IH]; constructor; [|inversion Hd; auto].
    inversion Hd as [|? ? Hn _]; subst. intros Hi. apply Hn.
    clear - H Hv Hi. induction Hv as [|v' e' vss es H' Hv IH]; [contradiction|]. destruct Hi as [->|Hi]; [left; congruence|right; auto].
  - intros vals Hne.
    assert (Hlen : length keys = length vals).
    { destruct (inv_run isprint leb add zero keys le ls) as (_ & _ & _ & G).
      unfold values_of in Hne. unfold finished, obs_state in *.
      destruct (filter (fun e : list bytes * V => lbeqb (fst e) vals) (snd (fold_left (obs_step (length keys)) ls (fun _ : nat => None, [])))) as [|e t] eqn:E; [now contradiction Hne|].
      assert (Hi : In e (e :: t)) by now left. rewrite <- E in Hi. apply filter_In in Hi as [Hi Hb].
      apply lbeqb_ok in Hb. subst vals. apply G. exact Hi. }
    destruct (stringify_ok isprint keys vals Hlen) as (k & Hk').
    pose proof (run_series isprint leb add zero keys le ls vals k Hk') as Hr.
    destruct (mget beqb (tbl (mrun isprint leb add zero keys le ls)) k) as [h|] eqn:Eg; [|contradiction].
    assert (Hi : In (k, h) es).
    { eapply Permutation_in; [apply Permutation_sym; exact Hp|]. apply (mget_in beqb beqb_is_ok); auto.
      destruct (inv_run isprint leb add zero keys le ls) as (G & _). exact G. }
    clear - Hv Hi Hk'. induction Hv as [|v' e' vss es H' Hv IH]; [contradiction|]. destruct Hi as [->|Hi]; [|right; auto].
    left. cbn in H'. eapply stringify_inj; eauto.
Qed.
Print Assumptions C97_complete.

(* the condition on label values cannot be dropped: one value that is not plain, anywhere, and a reader that takes
   no other escapes than those of the format cannot read any of the metrics *)
Theorem C97_exact : forall (isprint : N -> bool) (V : Type) (fv ff : V -> bytes) (num : bytes -> option V)
    (leb : V -> V -> bool) (add : V -> V -> V) (zero : V) (of_nat : nat -> V) (rounded : V -> V)
    (pre post : list (bytes * metric V)) name m,
  number_formats isprint fv ff num of_nat rounded ->
  Forall (fun e => exists its, says isprint fv num strict leb add zero of_nat rounded (fst e) (snd e) its) pre ->
  Forall (fun e => exists its, says isprint fv num strict leb add zero of_nat rounded (fst e) (snd e) its) post ->
  spoiled isprint leb add zero name m ->
  exists out, Handler fv ff (fun _ => None) (pre ++ (name, m) :: post) = Some (200%N, out) /\ reads num strict out = None.
Proof. intros. eapply handler_spoiled; eauto. Qed.
Print Assumptions C97_exact.

(* ---- instances ---- *)
Definition nshow (n : nat) : bytes := dec (N.of_nat n).
Definition nread (b : bytes) : option nat :=
  match b with [] => None | _ => if forallb is_digit b then Some (N.to_nat (readdec b 0)) else None end.
Lemma nat_formats : number_formats ex_print nshow nshow nread (fun n => n) (fun n => n).
Proof.
  assert (G : forall n, nread (dec (N.of_nat n)) = Some n).
  { intros n. unfold nread. destruct (dec (N.of_nat n)) as [|c t] eqn:E; [now apply dec_nonnil in E|]. rewrite <- E.
    assert (H : forallb is_digit (dec (N.of_nat n)) = true).
    { apply forallb_forall. pose proof (dec_digits (N.of_nat n)) as D. rewrite Forall_forall in D. auto. }
    rewrite H, dec_read. now rewrite Nat2N.id. }
  split; [|split; [|split]]; auto; intros x; (split; [apply G|apply dec_number]).
Qed.

(* C97 is false for the label values that clients choose: whoever asks the server for the path "/<tab>" (URL
   /%09) makes the metrics unreadable for one reader, and the other reads another path *)
Theorem C97_request_refuted :
  let s := mrun ex_print Nat.leb Nat.add 0 http_labels [1; 5] (http_observe 0 2 (B "GET") [chr 47; chr 9] 404) in
  exists out, Handler nshow nshow (fun _ => None) [(B "http_request", MHist [] [1; 5] (tbl s))] = Some (200%N, out) /\
    reads nread strict out = None /\
    exists its, reads nread keeping out = Some its /\
      In (SSample (B "http_request_count") [(B "method", B "GET"); (B "path", B "/\t"); (B "code", B "404")] 1 []) its /\
      B "/\t" <> [chr 47; chr 9].
Proof.
  cbv zeta. eexists. split; [vm_compute; reflexivity|]. split; [vm_compute; reflexivity|].
  eexists. split; [vm_compute; reflexivity|]. split; [|vm_compute; discriminate]. right. right. right. right. right. right. left. vm_compute. reflexivity.
Qed.
Print Assumptions C97_request_refuted.

(* nor for descriptions with line feeds, which are written as they are: the rest is read as a sample that nobody set *)
Theorem C97_help_refuted : exists desc out,
  Handler nshow nshow (fun _ => None) [(B "a", MGauge desc [([], 7)])] = Some (200%N, out) /\
  reads nread strict out = Some [SHelp (B "a") (B "x"); SSample (B "b") [] 1 []; SType (B "a") (B "gauge"); SSample (B "a") [] 7 []].
Proof. exists (B "x" ++ [chr 10] ++ B "b 1"). eexists. split; vm_compute; reflexivity. Qed.
Print Assumptions C97_help_refuted.

(* nor for a histogram with a label le of its own *)
Theorem C97_le_refuted :
  let s := mrun ex_print Nat.leb Nat.add 0 [B "le"] [5] [LFind 0 2 [B "x"]; LUpdate 0] in
  exists out, Handler nshow nshow (fun _ => None) [(B "h", MHist [] [5] (tbl s))] = Some (200%N, out) /\
    reads nread strict out = None /\ reads nread keeping out = None.
Proof. cbv zeta. eexists. split; [vm_compute; reflexivity|]. split; vm_compute; reflexivity. Qed.
Print Assumptions C97_le_refuted.

(* plain values with quotes, backslashes, line feeds and letters beyond ASCII are read back *)
Example C97_ex :
  let p := fun n => (n <? 127)%N && (31 <? n)%N || (n =? 233)%N in
  let v := [chr 195; chr 169; dquote; backslash] ++ B "n" ++ [chr 10] in
  let s := mrun p Nat.leb Nat.add 0 [B "path"] [5] [LFind 0 2 [v]; LFind 1 9 [v]; LUpdate 0; LUpdate 1] in
  plain p v /\
  exists out, Handler nshow nshow (fun _ => None) [(B "h", MHist (B "all") [5] (tbl s)); (B "c", MCustom [] (B "summary") [(B "c_sum", B "4"); (B "c_count", B "2")])] = Some (200%N, out) /\
    reads nread strict out = Some
      [SHelp (B "h") (B "all"); SType (B "h") (B "histogram");
       SSample (B "h_bucket") [(B "path", v); (B "le", B "5")] 1 []; SSample (B "h_bucket") [(B "path", v); (B "le", B "+Inf")] 2 [];
       SSample (B "h_sum") [(B "path", v)] 11 []; SSample (B "h_count") [(B "path", v)] 2 [];
       SHelp (B "c") []; SType (B "c") (B "summary"); SSample (B "c_count") [] 2 []; SSample (B "c_sum") [] 4 []].
Proof.
  cbv zeta. split.
  - vm_compute. repeat (apply Forall_cons; [auto 6|]). apply Forall_nil.
  - eexists. split; vm_compute; reflexivity.
Qed.

(* C97 for Counter, which is printed on its own (its Print takes no name, so that it cannot be registered): after every history of observations it writes a text that is read as a counter, or
   as a gauge if it was declared as one, with for each list of label values the sum of its observations to six decimals. *)
Theorem C97_counter_partial : forall (isprint : N -> bool) (V : Type) (fv ff : V -> bytes) (num : bytes -> option V)
    (other : ascii -> option bytes) (leb : V -> V -> bool) (add : V -> V -> V) (zero : V) (of_nat : nat -> V) (rounded : V -> V)
    (name desc : bytes) (g : bool) (keys : list bytes) (ls : list (mlabel V)) (es : list (bytes * series V)) (vss : list (list bytes)),
  number_formats isprint fv ff num of_nat rounded -> good_names name keys -> plain_help desc ->
  Permutation es (tbl (mrun isprint leb add zero keys [] ls)) ->
  Forall2 (fun vals e => stringify isprint keys vals = Ok (fst e)) vss es -> Forall (Forall (plain isprint)) vss ->
  exists n out, perform (fun _ => None) 0 (counter_print ff name desc g (map (fun e => (fst e, ssum (snd e))) es)) = (n, out, EOk) /\
    reads num other out = Some (headed_by name desc (if g then B "gauge" else B "counter") vss
      (map (fun vals => SSample name (combine keys vals) (rounded (fold_left add (values_of vals (finished (length keys) ls)) zero)) []) vss)).
Proof.
  intros isprint V fv ff num other leb add zero of_nat rounded name desc g keys ls es vss Hf (Hn & Hk & Hd) Hh Hperm Hse Hv.
  assert (Hin : Forall (fun e => mget beqb (tbl (mrun isprint leb add zero keys [] ls)) (fst e) = Some (snd e)) es).
  { apply Forall_forall. intros [k h] Hi. cbn. apply (mget_in beqb beqb_is_ok); [|eapply Permutation_in; eauto]. destruct (inv_run isprint leb add zero keys [] ls) as (G & _). exact G. }
  assert (T : tells num other (counter_print ff name desc g (map (fun e => (fst e, ssum (snd e))) es)) (headed_by name desc (if g then B "gauge" else B "counter") vss
      (map (fun vals => SSample name (combine keys vals) (rounded (fold_left add (values_of vals (finished (length keys) ls)) zero)) []) vss))).
  { unfold counter_print. apply tells_headed; auto; [destruct g; cbn; auto|rewrite map_length; now apply Forall2_len in Hse|]. clear Hperm.
    induction Hse as [|vals [k h] vss es Hs Hse IH]; cbn [map flat_map]; [apply tells_nil|]. inversion Hv; inversion Hin as [|? ? Hg Hin']; subst. cbn [fst snd] in *.
    pose proof (run_series isprint leb add zero keys [] ls vals k Hs) as Hr. rewrite Hg in Hr. subst h.
    apply (tells_app num other [_] _ [_]); [|auto]. cbn [fst snd]. rewrite series_sum. eapply tells_sample; eauto; apply Hf. }
  destruct T as (ts & E & R). rewrite E. rewrite perform_writes. exists (0 + length ts), (concat ts). split; [reflexivity|exact R].
Qed.
Print Assumptions C97_counter_partial.
Example C97_counter_ex :
  let s := mrun ex_print Nat.leb Nat.add 0 [B "a"] [] [LFind 0 2 [B "x"]; LFind 1 9 [B "y"]; LUpdate 1; LUpdate 0; LFind 1 4 [B "x"]; LUpdate 1] in
  exists n out, perform (fun _ => None) 0 (counter_print nshow (B "m") (B "all") false (map (fun e => (fst e, ssum (snd e))) (tbl s))) = (n, out, EOk) /\
    out = B "# HELP m all" ++ nl ++ B "# TYPE m counter" ++ nl ++ B "m{a=""x""} 6" ++ nl ++ B "m{a=""y""} 9" ++ nl.
Proof. cbv zeta. do 2 eexists. split; vm_compute; reflexivity. Qed.

(* ---- C98 ---- *)
Section Registry.
  Context {V : Type}.
  Notation metric := (metric V).
  Notation registered := (@registered V).

  Lemma mget_none_in (r : list (bytes * metric)) n : mget beqb r n = None <-> ~ In n (map fst r).
  Proof.
    induction r as [|[k v] r IH]; cbn; [tauto|]. destruct (beqb n k) eqn:E.
    - apply beqb_eq in E. subst. split; [discriminate|tauto].
    - rewrite IH. assert (k <> n) by (intros ->; rewrite beqb_refl in E; discriminate). tauto.
  Qed.
  Lemma mset_app (r : list (bytes * metric)) n m : mget beqb r n = None -> mset beqb r n m = r ++ [(n, m)].
  Proof. induction r as [|[k v] r IH]; cbn; auto. destruct (beqb n k); [discriminate|]. intros H. now rewrite IH. Qed.
  Lemma registered_snoc calls n m : registered (calls ++ [(n, m)]) = fst (Register (registered calls) n m).
  Proof. unfold PxModel.registered. now rewrite fold_left_app. Qed.
  Lemma registered_names calls n : In n (map fst (registered calls)) <-> In n (map fst calls).
  Proof.
    induction calls as [|[k v] calls IH] using rev_ind; [reflexivity|]. rewrite registered_snoc. unfold Register.
    rewrite map_app, in_app_iff. cbn [map fst In]. destruct (mget beqb (registered calls) k) as [x|] eqn:E; cbn [fst].
    - assert (Hk : In k (map fst (registered calls))).
      { destruct (in_dec (list_eq_dec ascii_dec) k (map fst (registered calls))); auto. apply mget_none_in in n0. congruence. }
      split; [intros H; left; now apply IH|]. intros [H|[<-|[]]]; [now apply IH|exact Hk].
    - rewrite mset_app by auto. rewrite map_app, in_app_iff. cbn. rewrite IH. tauto.
  Qed.
End Registry.

(* C98: the registry has for each name the metric of the first call, and no name twice *)
Theorem C98_registered : forall (V : Type) (calls : list (bytes * metric V)),
  NoDup (map fst (registered calls)) /\
  forall name m, In (name, m) (registered calls) <-> first_call calls name m.
Proof.
  intros V calls. induction calls as [|[k v] calls [IHd IH]] using rev_ind.
  - split; [constructor|]. intros name m. split; [intros []|]. intros (pre & post & H & _). destruct pre; discriminate.
  - rewrite registered_snoc. unfold Register. destruct (mget beqb (registered calls) k) as [x|] eqn:E; cbn [fst].
    + assert (Hk : In k (map fst calls)).
      { apply registered_names. destruct (in_dec (list_eq_dec ascii_dec) k (map fst (registered calls))); auto. apply mget_none_in in n. congruence. }
      split; auto. intros name m. rewrite IH. split.
      * intros (pre & post & -> & Hn). exists pre, (post ++ [(k, v)]). split; auto. now rewrite <- app_assoc.
      * intros (pre & post & H & Hn). destruct post as [|q post _] using rev_ind.
        -- apply app_inj_tail in H as [-> H]. injection H as -> ->. contradiction.
        -- rewrite app_comm_cons, app_assoc in H. apply app_inj_tail in H as [-> _]. exists pre, post. auto.
    + rewrite mset_app by auto. apply mget_none_in in E. rewrite registered_names in E. split.
      * rewrite map_app. cbn. apply Permutation_NoDup with (l := k :: map fst (registered calls)); [|constructor; auto; now rewrite registered_names].
        rewrite Permutation_app_comm. reflexivity.
      * intros name m. rewrite in_app_iff, IH. cbn. split.
        -- intros [(pre & post & -> & Hn)|[H|[]]].
           ++ exists pre, (post ++ [(k, v)]). split; auto. now rewrite <- app_assoc.
           ++ injection H as <- <-. exists calls, []. auto.
        -- intros (pre & post & H & Hn). destruct post as [|q post _] using rev_ind.
           ++ apply app_inj_tail in H as [-> H]. auto.
           ++ rewrite app_comm_cons, app_assoc in H. apply app_inj_tail in H as [-> _]. left. exists pre, post. auto.
Qed.
Print Assumptions C98_registered.

(* a call of Register panics exactly when the name was registered before, and then changes nothing *)
Theorem C98_duplicate : forall (V : Type) (calls : list (bytes * metric V)) name m,
  (snd (Register (registered calls) name m) = Panic <-> In name (map fst calls)) /\
  (In name (map fst calls) -> registered (calls ++ [(name, m)]) = registered calls).
Proof.
  intros V calls name m. rewrite registered_snoc. rewrite <- registered_names. unfold Register.
  destruct (mget beqb (registered calls) name) as [x|] eqn:E; cbn [fst snd].
  - assert (In name (map fst (registered calls))).
    { destruct (in_dec (list_eq_dec ascii_dec) name (map fst (registered calls))); auto. apply mget_none_in in n. congruence. }
    tauto.
  - apply mget_none_in in E. split; [split; [discriminate|tauto]|tauto].
Qed.
Print Assumptions C98_duplicate.

(* what a metric writes when nothing fails *)
Definition text_of {V} (fv ff : V -> bytes) (name : bytes) (m : metric V) (t : bytes) : Prop :=
  exists ts, print fv ff name m = map AWrite ts /\ t = concat ts.

(* whatever the order, when nothing fails the answer has the text of each registered metric once and nothing else *)
Theorem C98_all_partial : forall (V : Type) (fv ff : V -> bytes) (calls visited : list (bytes * metric V)) (ts : list bytes),
  Permutation visited (registered calls) ->
  Forall2 (fun e t => text_of fv ff (fst e) (snd e) t) visited ts ->
  Handler fv ff (fun _ => None) visited = Some (200%N, concat ts) /\
  NoDup (map fst visited) /\ forall name m, In (name, m) visited <-> first_call calls name m.
Proof.
  intros V fv ff calls visited ts Hp H. destruct (C98_registered V calls) as [Hd Hi]. split.
  2: { split; [eapply Permutation_NoDup; [apply Permutation_sym, Permutation_map; exact Hp|exact Hd]|].
       intros name m. rewrite <- Hi. split; apply Permutation_in; auto. now symmetry. }
  clear Hp Hd Hi.
  assert (T : exists us, flat_map (fun e => print fv ff (fst e) (snd e)) visited = map AWrite us /\ concat us = concat ts).
  { induction H as [|e t visited ts (us & E & ->) H (vs & E2 & H2)]; [exists []; auto|].
    exists (us ++ vs). cbn [flat_map concat]. rewrite E, E2, map_app, concat_app, H2. auto. }
  destruct T as (us & E & H2). unfold Handler. rewrite E, perform_writes, H2. reflexivity.
Qed.
Print Assumptions C98_all_partial.

(* nothing of a metric that comes after a failure is written, and the status is 500 only when nothing was sent *)
Theorem C98_failure : forall (V : Type) (fv ff : V -> bytes) (pre post : list (bytes * metric V)) name m ts us rest,
  Forall2 (fun e t => text_of fv ff (fst e) (snd e) t) pre ts ->
  print fv ff name m = map AWrite us ++ AErr :: rest ->
  Handler fv ff (fun _ => None) (pre ++ (name, m) :: post) =
    Some (match flat_map (fun e => print fv ff (fst e) (snd e)) pre ++ map AWrite us with [] => 500%N | _ => 200%N end, concat ts ++ concat us).
Proof.
  intros V fv ff pre post name m ts us rest H Hm.
  assert (T : exists vs, flat_map (fun e => print fv ff (fst e) (snd e)) pre = map AWrite vs /\ concat vs = concat ts).
  { induction H as [|e t visited ts (xs & E & ->) H (ys & E2 & H2)]; [exists []; auto|].
    exists (xs ++ ys). cbn [flat_map concat]. rewrite E, E2, map_app, concat_app, H2. auto. }
  destruct T as (vs & E & H2). unfold Handler. rewrite flat_map_app. cbn [flat_map fst snd]. rewrite Hm, E.
  rewrite <- app_assoc. cbn [app]. rewrite <- H2, <- concat_app.
  rewrite <- map_app. rewrite app_assoc, <- map_app.
  assert (G : forall xs n r, perform (fun _ => None) n (map AWrite xs ++ AErr :: r) = (n + length xs, concat xs, EErr)).
  { clear. induction xs as [|x xs IH]; intros n r; cbn [map app perform concat length]; [now rewrite Nat.add_0_r|].
    rewrite IH, Nat.add_succ_r. reflexivity. }
  rewrite G. f_equal. apply f_equal2; [destruct (vs ++ us); reflexivity|reflexivity].
Qed.
Print Assumptions C98_failure.

(* with a client that goes away, what arrives is a beginning of the whole text, and all of it when no call failed *)
Theorem C98_prefix : forall (V : Type) (fv ff : V -> bytes) (fails : nat -> option nat) (visited : list (bytes * metric V)) (ts : list bytes),
  Forall2 (fun e t => text_of fv ff (fst e) (snd e) t) visited ts ->
  exists out rest, Handler fv ff fails visited = Some (200%N, out) /\ concat ts = out ++ rest /\
    ((forall n, fails n = None) -> rest = []).
Proof.
  intros V fv ff fails visited ts H.
  assert (T : exists us, flat_map (fun e => print fv ff (fst e) (snd e)) visited = map AWrite us /\ concat us = concat ts).
  { induction H as [|e t visited ts (us & E & ->) H (vs & E2 & H2)]; [exists []; auto|].
    exists (us ++ vs). cbn [flat_map concat]. rewrite E, E2, map_app, concat_app, H2. auto. }
  destruct T as (us & E & <-). unfold Handler. rewrite E. clear.
  assert (G : forall n, exists n' out rest e, perform fails n (map AWrite us) = (n', out, e) /\ concat us = out ++ rest /\
    (e = EOk \/ (e = EErr /\ n' <> 0)) /\ ((forall n, fails n = None) -> rest = [])).
  { induction us as [|u us IH]; intros n; cbn [map perform concat].
    - exists n, [], [], EOk. auto.
    - destruct (fails n) as [k|] eqn:Ef.
      + exists (S n), (firstn k u), (skipn k u ++ concat us), EErr. split; auto. split; [now rewrite app_assoc, firstn_skipn|].
        split; [right; auto|]. intros Hn. rewrite Hn in Ef. discriminate.
      + destruct (IH (S n)) as (n' & out & rest & e & H1 & H2 & H3 & H4). rewrite H1.
        exists n', (u ++ out), rest, e. rewrite H2, app_assoc. auto. }
  destruct (G 0) as (n' & out & rest & e & H1 & H2 & H3 & H4). rewrite H1. exists out, rest.
  destruct H3 as [->|[-> Hn]]; auto. destruct n'; [congruence|auto].
Qed.
Print Assumptions C98_prefix.

(* C98 is false for metrics whose Print fails: the answer is 200 though a metric is missing *)
Theorem C98_failure_refuted : exists (calls visited : list (bytes * metric nat)) out,
  Permutation visited (registered calls) /\
  Handler nshow nshow (fun _ => None) visited = Some (200%N, out) /\
  reads nread strict out = Some [SHelp (B "a") []; SType (B "a") (B "gauge"); SSample (B "a") [] 1 []] /\
  In (B "c", MGauge [] [([], 2)]) visited.
Proof.
  set (l := [(B "a", MGauge [] [([], 1)]); (B "b", MOther [AErr]); (B "c", MGauge [] [([], 2)])]).
  exists l, l. eexists. split; [vm_compute; apply Permutation_refl|]. split; [vm_compute; reflexivity|]. split; [vm_compute; reflexivity|].
  right. right. left. reflexivity.
Qed.
Print Assumptions C98_failure_refuted.

(* nor are names apart enough: a gauge a_count and a histogram a write the same sample *)
Theorem C98_names_refuted : exists (calls visited : list (bytes * metric nat)) out,
  Permutation visited (registered calls) /\ length (registered calls) = length calls /\
  Handler nshow nshow (fun _ => None) visited = Some (200%N, out) /\
  exists its, reads nread strict out = Some its /\
    In (SSample (B "a_count") [] 3 []) its /\ In (SSample (B "a_count") [] 1 []) its.
Proof.
  set (s := tbl (mrun ex_print Nat.leb Nat.add 0 [] [5] [LFind 0 2 []; LUpdate 0])).
  set (l := [(B "a_count", MGauge [] [([], 3)]); (B "a", MHist [] [5] s)]).
  exists l, l. eexists. split; [vm_compute; apply Permutation_refl|]. split; [reflexivity|]. split; [vm_compute; reflexivity|].
  eexists. split; [vm_compute; reflexivity|]. split; [right; right; left; reflexivity|do 8 right; left; reflexivity].
Qed.
Print Assumptions C98_names_refuted.

(* names that no suffix of a histogram makes equal keep their samples apart *)
Definition sample_name {V} (i : said V) : option bytes := match i with SSample n _ _ _ => Some n | _ => None end.
Definition suffixes : list bytes := [[]; B "_bucket"; B "_sum"; B "_count"].
Theorem C98_names_partial : forall (isprint : N -> bool) (V : Type) (fv : V -> bytes) (num : bytes -> option V)
    (other : ascii -> option bytes) (leb : V -> V -> bool) (add : V -> V -> V) (zero : V) (of_nat : nat -> V) (rounded : V -> V)
    n1 n2 m1 m2 i1 i2 s,
  (exists d le es es', m1 = MGauge d es \/ m1 = MHist d le es') -> (exists d le es es', m2 = MGauge d es \/ m2 = MHist d le es') ->
  says isprint fv num other leb add zero of_nat rounded n1 m1 i1 ->
  says isprint fv num other leb add zero of_nat rounded n2 m2 i2 ->
  (forall a b, In a suffixes -> In b suffixes -> n1 ++ a <> n2 ++ b) ->
  In (Some s) (map sample_name i1) -> ~ In (Some s) (map sample_name i2).
Proof.
  intros isprint V fv num other leb add zero of_nat rounded n1 n2 m1 m2 i1 i2 s K1 K2 H1 H2 Hn.
  assert (G : forall n m i, (exists d le es es', m = MGauge d es \/ m = MHist d le es') -> says isprint fv num other leb add zero of_nat rounded n m i ->
    In (Some s) (map sample_name i) -> exists a, In a suffixes /\ s = n ++ a).
  { clear. intros n m i K H Hi. destruct H as [desc keys ss es _ _ _ _|desc keys le ls es vss _ _ _ _ _ _|desc ty m srt its _ _ _ _ _ _|ts its _].
    - unfold headed_by in Hi. destruct ss as [|x ss]; [contradiction|]. cbn [map sample_name In] in Hi.
      destruct Hi as [H|[H|Hi]]; try discriminate. exists []. split; [now left|]. rewrite app_nil_r.
      change (Some n = Some s \/ In (Some s) (map sample_name (map (fun s0 => SSample n (combine keys (fst s0)) (snd s0) []) ss))) in Hi.
      destruct Hi as [H|Hi]; [congruence|]. rewrite map_map in Hi. cbn in Hi. apply in_map_iff in Hi as (? & H & _). congruence.
    - unfold headed_by in Hi. destruct vss as [|x vss]; [contradiction|].
      rewrite map_cons, map_cons in Hi. cbn [sample_name] in Hi. destruct Hi as [H|[H|Hi]]; try discriminate.
      apply in_map_iff in Hi as (it & Hs & Hi). apply in_flat_map in Hi as (vals & _ & Hi). unfold hist_samples in Hi.
      apply in_app_iff in Hi as [Hi|[<-|[<-|[<-|[]]]]]; cbn [sample_name] in Hs.
      + apply in_map_iff in Hi as (? & <- & _). cbn [sample_name] in Hs. exists (B "_bucket"). split; [right; left; auto|congruence].
      + exists (B "_bucket"). split; [right; left; auto|congruence].
      + exists (B "_sum"). split; [do 2 right; left; auto|congruence].
      + exists (B "_count"). split; [do 3 right; left; auto|congruence].
    - destruct K as (? & ? & ? & ? & [K|K]); discriminate.
    - destruct K as (? & ? & ? & ? & [K|K]); discriminate. }
  intros I1 I2. destruct (G _ _ _ K1 H1 I1) as (a & Ha & Ea). destruct (G _ _ _ K2 H2 I2) as (b & Hb & Eb).
  apply (Hn a b); congruence.
Qed.
Print Assumptions C98_names_partial.

Example C98_ex :
  let calls := [(B "a", MGauge [] [([], 1)]); (B "b", MGauge [] [([], 2)]); (B "a", MGauge [] [([], 3)])] in
  registered calls = [(B "a", MGauge [] [([], 1)]); (B "b", MGauge [] [([], 2)])] /\
  snd (Register (registered (firstn 2 calls)) (B "a") (MGauge [] [([], 3)])) = Panic /\
  text_of nshow nshow (B "b") (MGauge [] [([], 2)]) (B "# HELP b " ++ nl ++ B "# TYPE b gauge" ++ nl ++ B "b 2" ++ nl) /\
  Handler nshow nshow (fun n => if (n =? 1)%nat then Some 8 else None) (registered calls) = Some (200%N, B "# HELP a " ++ nl ++ B "# TYPE a") /\
  (forall a b, In a suffixes -> In b suffixes -> B "a" ++ a <> B "b" ++ b).
Proof.
  cbv zeta. split; [vm_compute; reflexivity|]. split; [vm_compute; reflexivity|]. split.
  - eexists [_; _; _]. split; vm_compute; reflexivity.
  - split; [vm_compute; reflexivity|]. intros a b _ _. discriminate.
Qed.
