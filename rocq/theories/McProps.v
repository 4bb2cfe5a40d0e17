(* C146: how the metrics of the HTTP server grow. *)
From Coq Require Import Bool Ascii String Arith NArith ZArith List Lia.
From Verif Require Import Prelude PreludeFacts Utf8Model QuoteModel DecModel DecFacts DurModel DurProofs PromModel PromProofs PromProps PxModel HttpModel McModel McSpec.
Import ListNotations.

Section All.
  Context (isprint : N -> bool) {V : Type} (leb : V -> V -> bool) (add : V -> V -> V) (zero : V).
  Context (route : hreq -> option bytes * hdlr) (took : hreq -> V) (bounds : list V).
  Notation mstep := (mstep isprint leb add zero http_labels bounds).
  Notation metrics := (metrics isprint leb add zero route took bounds).
  Definition vals (o : bytes * bytes * Z) : list bytes := [fst (fst o); snd (fst o); decz (snd o)].
  Definition key (o : bytes * bytes * Z) : bytes := match stringify isprint http_labels (vals o) with Ok k => k | Panic => [] end.
  Lemma key_ok o : stringify isprint http_labels (vals o) = Ok (key o).
  Proof. unfold key. destruct (stringify_ok isprint http_labels (vals o) eq_refl) as (k & ->). reflexivity. Qed.
  Lemma key_inj a b : key a = key b -> a = b.
  Proof.
    intros E. pose proof (key_ok a) as Ka. pose proof (key_ok b) as Kb. rewrite E in Ka. pose proof (stringify_inj isprint _ _ _ _ Ka Kb) as Q. unfold vals in Q.
    destruct a as [[m p] c], b as [[m' p'] c']. cbn [fst snd] in Q. injection Q as -> -> Q. now rewrite (decz_inj _ _ Q).
  Qed.
  Definition keys (s : mstate V) : list bytes := map fst (tbl s).
  Lemma mset_new (m : list (bytes * series V)) k v : mget beqb m k = None -> map fst (mset beqb m k v) = map fst m ++ [k].
  Proof. induction m as [|[a x] m IH]; cbn; [reflexivity|]. destruct (beqb k a); [discriminate|]. intros H. cbn. now rewrite (IH H). Qed.
  Lemma mset_old (m : list (bytes * series V)) k v w : mget beqb m k = Some w -> map fst (mset beqb m k v) = map fst m.
  Proof. induction m as [|[a x] m IH]; cbn; [discriminate|]. destruct (beqb k a) eqn:E; [reflexivity|]. intros H. cbn. now rewrite (IH H). Qed.
  Lemma one s d o : pend s 0 = None -> let s' := fold_left mstep (observed d o) s in
    pend s' 0 = None /\ keys s' = if in_dec (list_eq_dec ascii_dec) (key o) (keys s) then keys s else keys s ++ [key o].
  Proof.
    intros P. cbn zeta. unfold observed. cbn [fold_left]. set (s1 := mstep s (LFind 0 d _)).
    pose proof (mget_none beqb beqb_eq (tbl s) (key o)) as Qn.
    assert (E1 : s1 = MState (match mget beqb (tbl s) (key o) with Some _ => tbl s | None => mset beqb (tbl s) (key o) (new_series zero) end) (set_pend (pend s) 0 (Some (key o, d))) (panics s)).
    { unfold s1, PromModel.mstep. rewrite P. fold (vals o). rewrite (key_ok o). destruct (mget beqb (tbl s) (key o)); reflexivity. }
    clearbody s1. subst s1. unfold PromModel.mstep. cbn [pend tbl set_pend Nat.eqb].
    destruct (mget beqb (tbl s) (key o)) as [h|] eqn:Eg.
    - rewrite Eg. cbn [pend set_pend Nat.eqb]. split; [reflexivity|]. unfold keys. cbn [tbl]. rewrite (mset_old _ _ _ _ Eg). destruct (in_dec _ _ _) as [_|N]; [reflexivity|]. apply Qn in N. discriminate.
    - rewrite (mget_mset_eq beqb beqb_eq). cbn [pend set_pend Nat.eqb]. split; [reflexivity|]. unfold keys. cbn [tbl].
      rewrite (mset_old _ _ _ (new_series zero)) by apply (mget_mset_eq beqb beqb_eq). rewrite (mset_new _ _ _ Eg). destruct (in_dec _ _ _) as [I|N]; [|reflexivity]. now apply (proj1 Qn) in I.
  Qed.
  Lemma many (l : list (V * (bytes * bytes * Z))) : forall s, pend s 0 = None -> NoDup (keys s) ->
    let s' := fold_left mstep (flat_map (fun x => observed (fst x) (snd x)) l) s in
    pend s' 0 = None /\ NoDup (keys s') /\ forall k, In k (keys s') <-> In k (keys s) \/ In k (map (fun x => key (snd x)) l).
  Proof.
    induction l as [|[d o] l IH]; intros s P N; cbn zeta; [split; [exact P|split; [exact N|intros k; cbn; tauto]]|].
    cbn [flat_map]. rewrite fold_left_app. cbn [fst snd]. destruct (one s d o P) as [P1 K1]. cbn zeta in K1.
    assert (N1 : NoDup (keys (fold_left mstep (observed d o) s))).
    { rewrite K1. destruct (in_dec _ _ _) as [|Ni]; [exact N|]. apply (NoDup_Add (a := key o) (l := keys s)); [|split; auto]. rewrite <- (app_nil_r (keys s)) at 1. apply Add_app. }
    destruct (IH _ P1 N1) as (P2 & N2 & I2). split; [exact P2|]. split; [exact N2|]. intros k. rewrite I2, K1. cbn [map In snd].
    destruct (in_dec _ _ _) as [I0|_]; [|rewrite in_app_iff; cbn; tauto]. split; [tauto|]. intros [H|[<-|H]]; auto.
  Qed.
  Lemma labels_all qs : exists l, flat_map (request route took) qs = flat_map (fun x => observed (fst x) (snd x)) l /\ map snd l = counted route qs.
  Proof.
    induction qs as [|q qs (l & E1 & E2)]; [exists []; split; reflexivity|]. exists (map (fun o => (took q, o)) (snd (serve (fst (route q)) (snd (route q)) q)) ++ l).
    unfold counted in *. cbn [flat_map]. rewrite E1, flat_map_app, map_app, map_map. cbn [snd]. rewrite map_id, E2. split; [|reflexivity]. f_equal. unfold request.
    induction (snd (serve (fst (route q)) (snd (route q)) q)) as [|o os IH]; cbn [flat_map map]; [reflexivity|]. now rewrite IH.
  Qed.
  Lemma keys_all qs : NoDup (keys (metrics qs)) /\ forall k, In k (keys (metrics qs)) <-> In k (map key (counted route qs)).
  Proof.
    destruct (labels_all qs) as (l & E1 & E2). unfold McModel.metrics, mrun. rewrite E1. destruct (many l (m_init (V := V))) as (_ & N & I0); [reflexivity|constructor|].
    split; [exact N|]. intros k. rewrite I0, <- E2, map_map. cbn. tauto.
  Qed.
  Lemma count_all qs : series_count isprint leb add zero route took bounds qs =
    length (nodup (fun a b : bytes * bytes * Z => ltac:(repeat decide equality) : {a = b} + {a <> b}) (counted route qs)).
  Proof.
    destruct (keys_all qs) as [N I0]. unfold series_count. rewrite <- (map_length fst). fold (keys (metrics qs)). rewrite <- (map_length key (nodup _ _)). apply Nat.le_antisymm.
    - apply NoDup_incl_length; [exact N|]. intros k Hk. apply I0 in Hk. apply in_map_iff in Hk as (o & <- & Ho). apply in_map, nodup_In, Ho.
    - apply NoDup_incl_length.
      + apply FinFun.Injective_map_NoDup; [exact key_inj|apply NoDup_nodup].
      + intros k Hk. apply I0. apply in_map_iff in Hk as (o & <- & Ho). apply nodup_In in Ho. now apply in_map.
  Qed.
End All.

Section Claims.
  Context (isprint : N -> bool) {V : Type} (leb : V -> V -> bool) (add : V -> V -> V) (zero : V).
  Context (route : hreq -> option bytes * hdlr) (took : hreq -> V) (bounds : list V).
  Notation metrics := (metrics isprint leb add zero route took bounds).
  Notation series_count := (series_count isprint leb add zero route took bounds).
  (* one series for each combination of method, path and status that was counted, and no other *)
  Theorem C146_exact : forall qs,
    (forall k, In k (map fst (tbl (metrics qs))) <-> exists m p c, In (m, p, c) (counted route qs) /\ stringify isprint http_labels [m; p; decz c] = Ok k) /\
    NoDup (map fst (tbl (metrics qs))) /\
    (forall l, NoDup l -> (forall o, In o l <-> In o (counted route qs)) -> series_count qs = length l).
  Proof.
    intros qs. destruct (keys_all isprint leb add zero route took bounds qs) as [N I0]. split; [|split; [exact N|]].
    - intros k. unfold keys in I0. rewrite I0, in_map_iff. split.
      + intros ([[m p] c] & <- & Ho). exists m, p, c. split; [exact Ho|exact (key_ok isprint (m, p, c))].
      + intros (m & p & c & Ho & E). exists (m, p, c). split; [|exact Ho]. pose proof (key_ok isprint (m, p, c)) as K. cbn [vals fst snd] in K. unfold vals in K. cbn [fst snd] in K. rewrite E in K. now injection K.
    - intros l Nl Il. rewrite count_all. apply Nat.le_antisymm; apply NoDup_incl_length.
      + apply NoDup_nodup.
      + intros o Ho. apply nodup_In in Ho. now apply Il.
      + exact Nl.
      + intros o Ho. apply nodup_In. now apply Il.
  Qed.
  (* a series never goes away *)
  Theorem C146_kept : forall qs more k, In k (map fst (tbl (metrics qs))) -> In k (map fst (tbl (metrics (qs ++ more)))).
  Proof.
    intros qs more k H. apply (proj1 (C146_exact _)) in H as (m & p & c & Ho & E). apply (proj1 (C146_exact _)). exists m, p, c. split; [|exact E].
    unfold counted in *. rewrite flat_map_app. apply in_or_app. now left.
  Qed.
  (* what would bound them: when the methods, the paths and the statuses that are counted are from these lists *)
  Theorem C146_partial : forall qs ms ps cs, (forall m p c, In (m, p, c) (counted route qs) -> In m ms /\ In p ps /\ In c cs) ->
    series_count qs <= length ms * length ps * length cs.
  Proof.
    intros qs ms ps cs H. rewrite count_all, <- !prod_length. apply NoDup_incl_length; [apply NoDup_nodup|]. intros [[m p] c] Ho. apply nodup_In in Ho.
    destruct (H m p c Ho) as (H1 & H2 & H3). apply in_prod; [apply in_prod; assumption|assumption].
  Qed.
  Lemma own q : answered route q -> exists c, In (q_method q, q_path q, c) (counted route [q]).
  Proof.
    unfold answered, counted. cbn [flat_map]. rewrite app_nil_r. unfold serve. destruct (snd (route q) q) as [calls died]. destruct (fst (route q)) as [path|].
    - destruct (resp 0 calls) as [c1 l1], (resp 0 l1) as [c2 l2], (net_run (net0 q) l2) as [n p]. destruct (p || died); cbn; [congruence|]. intros _. exists c2. auto.
    - destruct (resp 0 calls) as [c l], (net_run (net0 q) l) as [n p]. destruct (p || died); cbn; [congruence|]. intros _. exists c. auto.
  Qed.
  (* whatever is registered: each path that is asked for is a series of its own *)
  Theorem C146_paths : forall qs, (forall q, In q qs -> answered route q) -> NoDup (map q_path qs) -> length qs <= series_count qs.
  Proof.
    intros qs Ha Hn. rewrite count_all. rewrite <- (map_length q_path qs), <- (map_length (fun o : bytes * bytes * Z => snd (fst o)) (nodup _ _)).
    apply NoDup_incl_length; [exact Hn|]. intros p Hp. apply in_map_iff in Hp as (q & <- & Hq). destruct (own q (Ha q Hq)) as (c & Hc).
    apply in_map_iff. exists (q_method q, q_path q, c). split; [reflexivity|]. apply nodup_In. unfold counted in *. apply in_flat_map. exists q. split; [exact Hq|]. cbn [flat_map] in Hc. now rewrite app_nil_r in Hc.
  Qed.
  Definition nth_path (n : nat) : bytes := B "/" ++ repeat "a"%char n.
  (* so no number bounds them: anybody can make as many as they like *)
  Theorem C146_refuted : (forall q, anybody q -> answered route q) ->
    forall n, exists qs, length qs = n /\ (forall q, In q qs -> anybody q) /\ n <= series_count qs.
  Proof.
    intros Ha n. exists (map (fun i => HReq (B "GET") (nth_path i) [] None None) (seq 0 n)).
    assert (Q : forall q, In q (map (fun i => HReq (B "GET") (nth_path i) [] None None) (seq 0 n)) -> anybody q).
    { intros q Hq. apply in_map_iff in Hq as (i & <- & _). now exists (nth_path i). }
    split; [now rewrite map_length, seq_length|]. split; [exact Q|].
    rewrite <- (seq_length n 0) at 1. rewrite <- (map_length (fun i => HReq (B "GET") (nth_path i) [] None None) (seq 0 n)). apply C146_paths; [intros q Hq; now apply Ha, Q|].
    rewrite map_map. cbn [q_path]. apply FinFun.Injective_map_NoDup; [|apply seq_NoDup]. intros i j E. apply (f_equal (@length ascii)) in E. unfold nth_path in E. rewrite !app_length, !repeat_length in E. lia.
  Qed.
End Claims.

(* a server whose only handler is /x: what is not found is counted under the path that was asked for, what is found under /x twice *)
Definition route_x : hreq -> option bytes * hdlr := fun q =>
  if beqb (q_path q) (B "/x") then (Some (B "/x"), fun _ => ([Write (B "hello")], false)) else (None, fun _ => ([WriteHeader 404], false)).
Example C146_ex : (forall q, anybody q -> answered route_x q) /\
  let g (p : string) := HReq (B "GET") (B p) [] None None in
  map fst (tbl (metrics (fun _ => true) Z.leb Z.add 0%Z route_x (fun _ => 3%Z) [1%Z; 5%Z] [g "/x"%string; g "/a"%string; g "/x"%string; g "/b"%string; g "/a"%string]))
    = [B "method=""GET"",path=""/x"",code=""200"""; B "method=""GET"",path=""/a"",code=""404"""; B "method=""GET"",path=""/b"",code=""404"""].
Proof.
  split.
  - intros q (p & ->). unfold answered, route_x. cbn [q_path]. destruct (beqb p (B "/x")); cbn; discriminate.
  - vm_compute. reflexivity.
Qed.
Print Assumptions C146_exact.
Print Assumptions C146_kept.
Print Assumptions C146_partial.
Print Assumptions C146_paths.
Print Assumptions C146_refuted.
