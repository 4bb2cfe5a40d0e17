From Coq Require Import Bool Ascii String Arith NArith List Lia.
From Verif Require Import Prelude PreludeFacts Utf8Model Utf8Facts DurModel DurProofs KvProofs RtModel RtSpec.
Import ListNotations.

(* ---- paths ---- *)
Notation sl := ("/"%char).
Lemma is_slash_eq : forall c, is_slash c = true -> c = sl.
Proof. intros c H. unfold is_slash in H. apply N.eqb_eq in H. apply code_inj. exact H. Qed.
Lemma segs_nil : forall s, segs s <> [].
Proof. destruct s as [|c s]; cbn; [discriminate|]. destruct (is_slash c); [discriminate|]. destruct (segs s); discriminate. Qed.
Lemma join_segs : forall s, join (segs s) = sl :: s.
Proof.
  induction s as [|c s IH]; [reflexivity|]. cbn. destruct (is_slash c) eqn:E.
  - apply is_slash_eq in E. subst c. unfold join in *. cbn [map concat app]. rewrite IH. reflexivity.
  - destruct (segs s) as [|x l] eqn:D; [destruct (segs_nil s D)|]. unfold join in *. cbn [map concat app] in *. injection IH as IH. rewrite IH. reflexivity.
Qed.
Lemma segs_app : forall a b, segs (a ++ sl :: b) = segs a ++ segs b.
Proof.
  induction a as [|c a IH]; intros b; [reflexivity|]. cbn [app segs]. rewrite IH. destruct (is_slash c); [reflexivity|].
  destruct (segs a) as [|x l] eqn:D; [destruct (segs_nil a D)|]. reflexivity.
Qed.
Lemma segs_slash : forall a, segs (sl :: a) = [] :: segs a.
Proof. reflexivity. Qed.
Definition flat (x : bytes) : Prop := forall c, In c x -> is_slash c = false.
Lemma segs_flat : forall s x, In x (segs s) -> flat x.
Proof.
  induction s as [|c s IH]; intros x H; cbn in H; [destruct H as [<-|[]]; intros ? []|].
  destruct (is_slash c) eqn:E; [destruct H as [<-|H]; [intros ? []|apply IH; exact H]|].
  destruct (segs s) as [|y l] eqn:D; [destruct (segs_nil s D)|]. destruct H as [<-|H]; [|apply IH; right; exact H].
  intros d [<-|I]; [exact E|]. exact (IH y (or_introl eq_refl) d I).
Qed.
Lemma flat_segs : forall x, flat x -> segs x = [x].
Proof.
  induction x as [|c x IH]; intros F; [reflexivity|]. cbn. rewrite (F c (or_introl eq_refl)). rewrite IH; [reflexivity|]. intros d I. apply F. right. exact I.
Qed.
Lemma segs_join : forall l x, Forall flat (x :: l) -> segs (x ++ join l) = x :: l.
Proof.
  induction l as [|y l IH]; intros x F.
  - cbn. rewrite app_nil_r. apply flat_segs. inversion F; assumption.
  - inversion F as [|? ? F1 F2]. subst. unfold join in *. cbn [map concat]. change ((sl :: y) ++ concat (map (fun x0 => sl :: x0) l)) with (sl :: (y ++ concat (map (fun x0 => sl :: x0) l))).
    rewrite segs_app, (flat_segs x F1), (IH y F2). reflexivity.
Qed.
Lemma join_app : forall a b, join (a ++ b) = join a ++ join b.
Proof. intros. unfold join. rewrite map_app, concat_app. reflexivity. Qed.

(* the elements of a clean path *)
Definition dot (x : bytes) : Prop := x = B "." \/ x = B "..".
Definition okl (l : list bytes) : Prop := (forall x, In x l -> ~ dot x) /\ forall a b, l = a ++ [] :: b -> b = [].
Lemma flat_dot : forall w, dot w -> segs w = [w].
Proof. intros w [->| ->]; reflexivity. Qed.
Lemma clean_okl : forall r, clean (sl :: r) <-> okl (segs r).
Proof.
  intros r. split.
  - intros (_ & H2 & H3). split.
    + intros x I D. apply in_split in I. destruct I as (a & b & E). pose proof (join_segs r) as J. rewrite E, join_app in J.
      destruct (H3 (join a) (tl (join b)) x D) as [N1 N2]. destruct b as [|y b].
      * apply N1. rewrite <- J. unfold join. cbn [map concat]. rewrite app_nil_r. reflexivity.
      * apply N2. rewrite <- J. unfold join. cbn [map concat tl app]. rewrite <- ?app_assoc. reflexivity.
    + intros a b E. destruct b as [|y b]; [reflexivity|]. pose proof (join_segs r) as J. rewrite E, join_app in J.
      destruct (H2 (join a) (tl (join (y :: b)))). rewrite <- J. reflexivity.
  - intros [O1 O2].
    assert (SP : forall a y, sl :: r = a ++ sl :: y -> (a = [] /\ segs r = segs y) \/ exists a', segs r = segs a' ++ segs y).
    { intros a y E. destruct a as [|c a]; [left; injection E as ->; auto|]. injection E as <- ->. right. exists a. apply segs_app. }
    split; [exists r; reflexivity|]. split.
    + intros a b E. apply (SP a (sl :: b)) in E. rewrite segs_slash in E. destruct E as [[_ E]|[a' E]].
      * apply (segs_nil b). exact (O2 [] (segs b) E).
      * apply (segs_nil b). exact (O2 (segs a') (segs b) E).
    + intros a b w D. split; intros E.
      * apply (SP a w) in E. rewrite (flat_dot w D) in E. destruct E as [[_ E]|[a' E]]; apply (O1 w); try exact D; rewrite E.
        -- left. reflexivity.
        -- apply in_app_iff. right. left. reflexivity.
      * apply (SP a (w ++ sl :: b)) in E. rewrite segs_app, (flat_dot w D) in E. destruct E as [[_ E]|[a' E]]; apply (O1 w); try exact D; rewrite E.
        -- left. reflexivity.
        -- apply in_app_iff. right. left. reflexivity.
Qed.
Definition good (x : bytes) : Prop := x <> [] /\ ~ dot x.
Lemma push_good : forall st x, good x -> push st x = x :: st.
Proof.
  intros st x [N D]. unfold push. destruct (beqb x []) eqn:E1; [apply beqb_eq in E1; destruct (N E1)|].
  destruct (beqb x (B ".")) eqn:E2; [apply beqb_eq in E2; destruct D; left; exact E2|].
  destruct (beqb x (B "..")) eqn:E3; [apply beqb_eq in E3; destruct D; right; exact E3|]. reflexivity.
Qed.
Lemma fold_good : forall l st, Forall good l -> fold_left push l st = rev l ++ st.
Proof.
  induction l as [|x l IH]; intros st F; [reflexivity|]. inversion F as [|? ? F1 F2]. subst. cbn [fold_left rev]. rewrite (push_good st x F1), (IH _ F2), <- app_assoc. reflexivity.
Qed.
Lemma fold_push : forall l st, Forall (fun x => good x /\ flat x) st -> Forall flat l -> Forall (fun x => good x /\ flat x) (fold_left push l st).
Proof.
  induction l as [|x l IH]; intros st S1 F; [exact S1|]. inversion F as [|? ? F1 F2]. subst. cbn [fold_left]. apply IH; [|exact F2]. unfold push.
  destruct (beqb x []) eqn:E1; [exact S1|]. destruct (beqb x (B ".")) eqn:E2; [exact S1|]. cbn [orb]. destruct (beqb x (B "..")) eqn:E3.
  - destruct st; [constructor|]. inversion S1; assumption.
  - constructor; [|exact S1]. split; [|exact F1]. split; [intros ->; discriminate E1|]. intros [->| ->]; discriminate.
Qed.
Lemma okl_parts : forall l, l <> [] -> okl l -> exists a z, l = a ++ [z] /\ Forall good a /\ (z = [] \/ good z).
Proof.
  intros l N [O1 O2]. destruct (exists_last N) as (a & z & ->). exists a, z. split; [reflexivity|]. split.
  - apply Forall_forall. intros x I. split; [|apply O1; apply in_app_iff; auto]. intros ->. apply in_split in I. destruct I as (a1 & a2 & ->).
    rewrite <- app_assoc in O2. cbn in O2. specialize (O2 a1 (a2 ++ [z]) eq_refl). destruct a2; discriminate.
  - destruct z as [|c z]; [auto|]. right. split; [discriminate|]. apply O1. apply in_app_iff. right. left. reflexivity.
Qed.
Lemma okl_good : forall l, Forall good l -> okl l.
Proof.
  intros l F. rewrite Forall_forall in F. split.
  - intros x I. exact (proj2 (F x I)).
  - intros a b ->. destruct (F [] ltac:(apply in_app_iff; right; left; reflexivity)) as [N _]. destruct (N eq_refl).
Qed.
Lemma okl_last : forall l, Forall good l -> okl (l ++ [[]]).
Proof.
  intros l F. pose proof F as F'. rewrite Forall_forall in F. split.
  - intros x I. apply in_app_iff in I. destruct I as [I|[<-|[]]]; [exact (proj2 (F x I))|]. intros [H|H]; discriminate.
  - intros a b E. destruct b as [|y b]; [reflexivity|]. exfalso.
    assert (I : In [] l); [|destruct (F [] I) as [N _]; destruct (N eq_refl)].
    destruct (exists_last (l := y :: b)) as (b' & z & Eb); [discriminate|]. rewrite Eb in E. rewrite app_comm_cons, app_assoc in E. apply app_inj_tail in E. destruct E as [-> _].
    apply in_app_iff. right. left. reflexivity.
Qed.
Lemma last_in : forall (l : bytes) d, l <> [] -> In (last l d) l.
Proof. induction l as [|c l IH]; intros d N; [congruence|]. destruct l; [left; reflexivity|]. right. apply IH. discriminate. Qed.
Lemma last_app : forall (a b : bytes) d, b <> [] -> last (a ++ b) d = last b d.
Proof. induction a as [|c a IH]; intros b d N; [reflexivity|]. cbn [app last]. rewrite (IH b d N). destruct (a ++ b) eqn:E; [destruct a; [destruct (N E)|discriminate]|reflexivity]. Qed.
Lemma cleanPath_clean : forall p, clean (cleanPath p).
Proof.
  intros p. unfold cleanPath.
  assert (R : exists r, rooted p = sl :: r). { destruct p as [|c p]; cbn; [exists []; reflexivity|]. destruct (is_slash c) eqn:E; [apply is_slash_eq in E; subst; eauto|eauto]. }
  destruct R as [r R]. rewrite R. unfold Clean.
  assert (F : Forall (fun x => good x /\ flat x) (fold_left push (segs (sl :: r)) [])) by (apply fold_push; [constructor|apply Forall_forall; intros x; apply segs_flat]).
  destruct (fold_left push (segs (sl :: r)) []) as [|y st] eqn:E.
  - cbn [beqb]. change (negb (beqb (B "/") (B "/"))) with false. rewrite andb_false_r. apply (clean_okl []). split; [intros x [<-|[]] [H|H]; discriminate|].
    intros a b H. destruct a as [|? [|? ?]]; [injection H as <-; reflexivity|discriminate|discriminate].
  - set (l := rev (y :: st)) in *.
    assert (FG : Forall good l) by (apply Forall_forall; intros x I; apply in_rev in I; rewrite Forall_forall in F; exact (proj1 (F x I))).
    assert (FF : Forall flat l) by (apply Forall_forall; intros x I; apply in_rev in I; rewrite Forall_forall in F; exact (proj2 (F x I))).
    destruct l as [|x l'] eqn:El; [apply (f_equal (@length _)) in El; unfold l in El; rewrite rev_length in El; discriminate|].
    assert (J : join (x :: l') = sl :: (x ++ join l')) by reflexivity. rewrite J.
    assert (K : clean (sl :: (x ++ join l'))) by (apply clean_okl; rewrite segs_join by exact FF; apply okl_good; exact FG).
    assert (K2 : clean ((sl :: (x ++ join l')) ++ B "/")).
    { change ((sl :: (x ++ join l')) ++ B "/") with (sl :: ((x ++ join l') ++ [sl])). apply clean_okl. rewrite segs_app, segs_join by exact FF. apply okl_last. exact FG. }
    destruct (_ && _); assumption.
Qed.
Lemma clean_cleanPath : forall p, clean p -> cleanPath p = p.
Proof.
  intros p C. pose proof C as ([r Er] & _). cbn in Er. subst p. apply clean_okl in C. unfold cleanPath.
  change (rooted (sl :: r)) with (sl :: r). unfold Clean. rewrite segs_slash. cbn [fold_left]. change (push [] []) with (@nil bytes).
  destruct (okl_parts _ (segs_nil r) C) as (l & z & E & F & Z). pose proof (join_segs r) as J. rewrite E in J. rewrite join_app in J.
  assert (JZ : join [z] = sl :: z) by (unfold join; cbn; rewrite app_nil_r; reflexivity). rewrite JZ in J.
  rewrite E, fold_left_app, (fold_good l [] F), app_nil_r. cbn [fold_left]. destruct Z as [->|G].
  - change (push (rev l) []) with (rev l). assert (LS : is_slash (last (sl :: r) sl) = true) by (rewrite <- J, last_app by discriminate; reflexivity). rewrite LS. cbn [andb].
    destruct l as [|x l]; [cbn in *; exact J|]. destruct (rev (x :: l)) as [|y st] eqn:R; [apply (f_equal (@length _)) in R; rewrite rev_length in R; discriminate|].
    rewrite <- R, rev_involutive.
    assert (N : beqb (join (x :: l)) (B "/") = false).
    { destruct (beqb (join (x :: l)) (B "/")) eqn:Q; [|reflexivity]. apply beqb_eq in Q. unfold join in Q. cbn in Q. injection Q as Q. inversion F as [|? ? [N _] _]. destruct x; [destruct (N eq_refl)|discriminate]. }
    rewrite N. cbn [negb]. exact J.
  - rewrite (push_good _ z G). replace (rev (z :: rev l)) with (l ++ [z]) by (cbn [rev]; rewrite rev_involutive; reflexivity).
    rewrite join_app, JZ, J.
    assert (LS : is_slash (last (sl :: r) sl) = false).
    { rewrite <- J. rewrite last_app by discriminate. destruct G as [N _]. change (sl :: z) with ([sl] ++ z). rewrite last_app by exact N.
      apply (segs_flat r z); [rewrite E; apply in_app_iff; right; left; reflexivity|]. apply last_in. exact N. }
    rewrite LS. reflexivity.
Qed.
Lemma clean_iff : forall p, cleanPath p = p <-> clean p.
Proof. intros p. split; [intros <-; apply cleanPath_clean|apply clean_cleanPath]. Qed.
Lemma cleanPath_twice : forall p, cleanPath (cleanPath p) = cleanPath p.
Proof. intros p. apply clean_cleanPath. apply cleanPath_clean. Qed.
Lemma clean_prefix : forall a b, clean ((a ++ B "/") ++ b) -> clean (a ++ B "/").
Proof.
  intros a b C. destruct a as [|c a].
  - apply (clean_okl []). split; [intros x [<-|[]] [H|H]; discriminate|]. intros u v H. destruct u as [|? [|? ?]]; [injection H as <-; reflexivity|discriminate|discriminate].
  - pose proof C as ([r Er] & _). cbn in Er. injection Er as -> Er. change (((sl :: a) ++ B "/") ++ b) with (sl :: ((a ++ [sl]) ++ b)) in C. change ((sl :: a) ++ B "/") with (sl :: (a ++ [sl])).
    apply clean_okl in C. apply clean_okl. rewrite <- app_assoc in C. cbn [app] in C. rewrite segs_app in C. rewrite segs_app. change (segs []) with [@nil ascii].
    destruct C as [O1 O2]. split.
    + intros x I. apply in_app_iff in I. destruct I as [I|[<-|[]]]; [apply O1; apply in_app_iff; auto|]. intros [H|H]; discriminate.
    + intros u v E. destruct v as [|y v]; [reflexivity|]. exfalso. destruct (exists_last (l := y :: v)) as (v' & z & Ev); [discriminate|]. rewrite Ev in E.
      rewrite app_comm_cons, app_assoc in E. apply app_inj_tail in E. destruct E as [E _]. rewrite E, <- app_assoc in O2. cbn [app] in O2.
      specialize (O2 u (v' ++ segs b) eq_refl). destruct v'; [apply (segs_nil b O2)|discriminate].
Qed.

(* ---- the mux ---- *)
Record mux_ok (x : mux) : Prop := {
  k_nodup : NoDup (map fst (exact x));
  k_trees : forall e, In e (trees x) <-> In e (exact x) /\ is_tree (fst e) = true;
  k_sorted : forall l1 a l2, trees x = l1 ++ a :: l2 -> forall b, In b l2 -> length (fst b) <= length (fst a);
  k_hosts : hosts x = false <-> forall e, In e (exact x) -> is_path (fst e) = true }.
Lemma insert_in : forall (e : bytes * nat) (l : list (bytes * nat)) x, In x (insert e l) <-> x = e \/ In x l.
Proof.
  intros e l x. induction l as [|y l IH]; cbn [insert In]; [intuition|]. destruct (length (fst y) <? length (fst e)); cbn [In]; [intuition|]. rewrite IH. intuition.
Qed.
Lemma insert_sorted : forall (e : bytes * nat) (l : list (bytes * nat)), (forall l1 a l2, l = l1 ++ a :: l2 -> forall b, In b l2 -> length (fst b) <= length (fst a)) ->
  forall l1 a l2, insert e l = l1 ++ a :: l2 -> forall b, In b l2 -> length (fst b) <= length (fst a).
Proof.
  intros e l. induction l as [|y l IH]; intros H l1 a l2 E b I.
  - cbn in E. destruct l1 as [|? [|? ?]]; try discriminate. injection E as <- <-. destruct I.
  - cbn [insert] in E. destruct (length (fst y) <? length (fst e)) eqn:L.
    + apply Nat.ltb_lt in L. destruct l1 as [|z l1]; cbn [app] in E.
      * injection E as E1 E2; subst a l2. destruct I as [<-|I]; [lia|]. pose proof (H [] y l eq_refl b I). lia.
      * injection E as E0 E; subst z. exact (H l1 a l2 E b I).
    + apply Nat.ltb_ge in L. destruct l1 as [|z l1]; cbn [app] in E.
      * injection E as E1 E2; subst a l2. apply insert_in in I. destruct I as [->|I]; [exact L|]. exact (H [] y l eq_refl b I).
      * injection E as E0 E; subst z. apply (IH) with (l1 := l1) (a := a) (l2 := l2); try assumption. intros m1 c m2 Em. apply (H (y :: m1) c m2). rewrite Em. reflexivity.
Qed.
Lemma handle_exact : forall x p n y, handle x p n = Some y -> exact y = exact x ++ [(p, n)] /\ p <> [] /\ ~ In p (map fst (exact x)).
Proof.
  intros x p n y H. unfold handle in H. destruct p as [|c p]; [discriminate|]. destruct (mget beqb (exact x) (c :: p)) eqn:G; [discriminate|]. injection H as <-. cbn [exact].
  split; [reflexivity|]. split; [discriminate|]. apply (mget_none beqb beqb_ok). exact G.
Qed.
Lemma handle_none : forall x p n, handle x p n = None <-> p = [] \/ In p (map fst (exact x)).
Proof.
  intros x p n. unfold handle. destruct p as [|c p]; [intuition|]. destruct (mget beqb (exact x) (c :: p)) eqn:G.
  - split; [|reflexivity]. intros _. right. destruct (in_dec (list_eq_dec ascii_dec) (c :: p) (map fst (exact x))) as [I|I]; [exact I|]. apply (mget_none beqb beqb_ok) in I. congruence.
  - split; [discriminate|]. intros [H|H]; [discriminate|]. apply (mget_none beqb beqb_ok) in G. destruct (G H).
Qed.
Lemma handle_inv : forall x (p : bytes) n y, handle x p n = Some y ->
  y = Mux (exact x ++ [(p, n)]) (if is_tree p then insert (p, n) (trees x) else trees x) (hosts x || negb (is_path p)).
Proof.
  intros x p n y H. unfold handle in H. destruct p as [|c p]; [discriminate|]. destruct (mget beqb (exact x) (c :: p)); [discriminate|]. injection H as <-. reflexivity.
Qed.
Lemma handle_ok : forall x (p : bytes) n y, mux_ok x -> handle x p n = Some y -> mux_ok y.
Proof.
  intros x p n y [K1 K2 K3 K4] H. destruct (handle_exact _ _ _ _ H) as (_ & N & NI). apply handle_inv in H. subst y. constructor; cbn [exact trees hosts].
  - rewrite map_app. cbn [map fst]. apply (NoDup_Add (a := p) (l := map fst (exact x))); [|auto]. rewrite <- (app_nil_r (map fst (exact x))) at 1. apply Add_app.
  - intros e. destruct (is_tree p) eqn:T.
    + rewrite insert_in, in_app_iff, K2. cbn [In]. split.
      * intros [->|[I1 I2]]; [split; [right; left; reflexivity|exact T]|split; [left; exact I1|exact I2]].
      * intros [[I|[<-|[]]] T']; [right; auto|left; reflexivity].
    + rewrite in_app_iff, K2. cbn [In]. split; [intros [I1 I2]; split; [left; exact I1|exact I2]|]. intros [[I|[<-|[]]] T']; [auto|cbn [fst] in T'; congruence].
  - destruct (is_tree p); [apply insert_sorted; exact K3|exact K3].
  - rewrite orb_false_iff, negb_false_iff, K4. split.
    + intros [A1 A2] e I. apply in_app_iff in I. destruct I as [I|[<-|[]]]; [auto|exact A2].
    + intros A. split; [intros e I; apply A; apply in_app_iff; auto|]. apply (A (p, n)). apply in_app_iff. right. left. reflexivity.
Qed.
Lemma handle_all_spec : forall ps x n y b, handle_all x ps n = (y, b) ->
  exists a r, ps = a ++ r /\ exact y = exact x ++ map (fun p => (p, n)) a /\ (b = true <-> r = []) /\ (mux_ok x -> mux_ok y) /\ (forall p, In p a -> p <> []) /\
    match r with [] => True | p :: _ => p = [] \/ In p (map fst (exact y)) end.
Proof.
  induction ps as [|p ps IH]; intros x n y b H; cbn in H.
  - injection H as <- <-. exists [], []. cbn. rewrite app_nil_r. split; [reflexivity|]. split; [reflexivity|]. split; [split; auto|]. split; [auto|]. split; [intros ? []|exact Logic.I].
  - destruct (handle x p n) as [z|] eqn:E.
    + destruct (IH _ _ _ _ H) as (a & r & -> & E1 & E2 & E3 & E5 & E4). exists (p :: a), r. destruct (handle_exact _ _ _ _ E) as (Ez & Np & _).
      split; [reflexivity|]. split; [rewrite E1, Ez, <- app_assoc; reflexivity|]. split; [exact E2|]. split; [intros K; apply E3; exact (handle_ok _ _ _ _ K E)|]. split; [|exact E4]. intros q [<-|I]; [exact Np|exact (E5 q I)].
    + injection H as <- <-. exists [], (p :: ps). cbn [app map]. rewrite app_nil_r. split; [reflexivity|]. split; [reflexivity|]. split; [split; intros Q; discriminate|]. split; [auto|]. split; [intros ? []|].
      apply handle_none in E. exact E.
Qed.
Lemma document_get : forall ps d n p, mget beqb (document d ps n) p = if in_dec (list_eq_dec ascii_dec) p ps then Some n else mget beqb d p.
Proof.
  unfold document. induction ps as [|q ps IH]; intros d n p; [reflexivity|]. cbn [fold_left]. rewrite IH.
  destruct (in_dec (list_eq_dec ascii_dec) p ps) as [I|I]; destruct (in_dec (list_eq_dec ascii_dec) p (q :: ps)) as [J|J]; try reflexivity.
  - destruct J. right. exact I.
  - destruct J as [->|J]; [apply (mget_mset_eq beqb beqb_ok)|destruct (I J)].
  - apply (mget_mset_ne beqb beqb_ok). intros ->. apply J. left. reflexivity.
Qed.

(* ---- the server ---- *)
Record ok (s : srv) : Prop := {
  o_mux : mux_ok (mx s);
  o_docs : forall p n, documented s p n -> registered s p n }.
(* what a call adds *)
Definition adds (s : srv) (n : nat) (c : call) (t : srv) : Prop := exists a r, paths c = a ++ r /\
  exact (mx t) = exact (mx s) ++ map (fun p => (p, n)) a /\ (mux_ok (mx s) -> mux_ok (mx t)) /\ (forall p, In p a -> p <> []) /\
  (forall p k, documented t p k -> documented s p k \/ (k = n /\ In p a)).
Lemma adds_nil : forall s n c, adds s n c s.
Proof. intros s n c. exists [], (paths c). cbn. rewrite app_nil_r. split; [reflexivity|]. split; [reflexivity|]. split; [auto|]. split; [intros ? []|auto]. Qed.
Lemma documents : forall s x ps n q k a, documented (Srv x (document (docs s) ps n)) q k -> ps = a -> documented s q k \/ (k = n /\ In q a).
Proof.
  intros s x ps n q k a D <-. unfold documented in D. cbn [docs] in D. rewrite document_get in D.
  destruct (in_dec (list_eq_dec ascii_dec) q ps) as [I|I]; [|left; exact D]. injection D as <-. auto.
Qed.
Lemma adds_one : forall s n c p, paths c = [p] -> adds s n c (fst (match handle (mx s) p n with Some x => (Srv x (document (docs s) [p] n), Done) | None => (s, Panicked) end)).
Proof.
  intros s n c p P. destruct (handle (mx s) p n) as [x|] eqn:H; [|apply adds_nil]. destruct (handle_exact _ _ _ _ H) as (E & N & _). exists [p], []. cbn [fst mx map].
  split; [exact P|]. split; [exact E|]. split; [intros K; exact (handle_ok _ _ _ _ K H)|]. split; [intros q [<-|[]]; exact N|]. intros q k D. exact (documents _ _ _ _ _ _ _ D eq_refl).
Qed.
Lemma step_spec : forall s n c, adds s n c (fst (step s n c)).
Proof.
  intros s n c. destruct c as [[ps|] b|p|p|ps]; cbn [step].
  - destruct ps as [|p0 ps0]; [apply adds_nil|]. set (ps := p0 :: ps0) in *. destruct (handle_all (mx s) ps n) as [x [|]] eqn:H;
      destruct (handle_all_spec _ _ _ _ _ H) as (a & r & P & E & R & K & N & _).
    + assert (r = []) by (apply R; reflexivity). subst r. exists a, []. rewrite app_nil_r in *. cbn [paths].
      destruct b; cbn [fst mx]; (split; [exact P|]; split; [exact E|]; split; [exact K|]; split; [exact N|]; intros q k D).
      * exact (documents _ _ _ _ _ _ _ D P).
      * left. exact D.
    + exists a, r. cbn [fst mx]. split; [exact P|]. split; [exact E|]. split; [exact K|]. split; [exact N|]. intros q k D. left. exact D.
  - apply adds_nil.
  - apply (adds_one s n (Request p) p). reflexivity.
  - apply (adds_one s n (Handle p) p). reflexivity.
  - destruct (handle_all (mx s) ps n) as [x bb] eqn:H. destruct (handle_all_spec _ _ _ _ _ H) as (a & r & P & E & R & K & N & _). exists a, r. cbn [fst mx].
    split; [exact P|]. split; [exact E|]. split; [exact K|]. split; [exact N|]. intros q k D. left. exact D.
Qed.
Lemma step_ok : forall s n c, ok s -> ok (fst (step s n c)).
Proof.
  intros s n c [O1 O2]. destruct (step_spec s n c) as (a & r & P & E & K & N & D). constructor; [exact (K O1)|].
  intros p k H. unfold registered. rewrite E, in_app_iff. destruct (D p k H) as [H1|[-> H1]]; [left; exact (O2 p k H1)|right]. apply in_map_iff. exists p. auto.
Qed.
Lemma run_ok : forall cs s n, ok s -> ok (run s n cs).
Proof. induction cs as [|c cs IH]; intros s n O; [exact O|]. cbn [run]. apply IH. apply step_ok. exact O. Qed.
Lemma new_ok : ok NewServer.
Proof.
  constructor; [constructor|]; cbn [NewServer mx exact trees hosts].
  - cbn. repeat constructor; cbn; intuition; discriminate.
  - intros e. split; [intros []|]. intros [[<-|[<-|[<-|[]]]] T]; discriminate T.
  - intros l1 a l2 E. destruct l1; discriminate.
  - split; [|reflexivity]. intros _ e [<-|[<-|[<-|[]]]]; reflexivity.
  - intros p n H. discriminate H.
Qed.
Lemma run_exact : forall cs s n, exists l, exact (mx (run s n cs)) = exact (mx s) ++ l /\
  forall p k, In (p, k) l -> n <= k /\ exists c, nth_error cs (k - n) = Some c /\ In p (paths c).
Proof.
  induction cs as [|c cs IH]; intros s n.
  - exists []. cbn. rewrite app_nil_r. split; [reflexivity|]. intros p k [].
  - cbn [run]. destruct (step_spec s n c) as (a & r & P & E & _ & _ & _). destruct (IH (fst (step s n c)) (S n)) as (l & E2 & Q). rewrite E in E2.
    exists (map (fun p => (p, n)) a ++ l). split; [rewrite E2, <- app_assoc; reflexivity|]. intros p k I. apply in_app_iff in I. destruct I as [I|I].
    + apply in_map_iff in I. destruct I as (q & Eq & I). injection Eq as -> <-. split; [lia|]. exists c. rewrite Nat.sub_diag. split; [reflexivity|]. rewrite P, in_app_iff. auto.
    + destruct (Q p k I) as (L & c' & N & I'). split; [lia|]. exists c'. split; [|exact I']. replace (k - n) with (S (k - S n)) by lia. exact N.
Qed.
Lemma is_path_begins : forall p, is_path p = true <-> begins p.
Proof.
  intros p. split.
  - destruct p as [|c p]; [discriminate|]. cbn. intros H. apply is_slash_eq in H. subst c. exists p. reflexivity.
  - intros [r ->]. reflexivity.
Qed.
Lemma run_path : forall cs s n, (forall e, In e (exact (mx s)) -> is_path (fst e) = true) -> no_hosts cs -> forall e, In e (exact (mx (run s n cs))) -> is_path (fst e) = true.
Proof.
  induction cs as [|c cs IH]; intros s n A H e; [apply A|]. cbn [run]. apply IH.
  - intros f F. destruct (step_spec s n c) as (a & r & P & E & K & N & _).
    rewrite E, in_app_iff in F. destruct F as [F|F]; [exact (A f F)|]. apply in_map_iff in F. destruct F as (q & <- & I). cbn [fst].
    destruct (H c q (or_introl eq_refl)) as [G|G]; [rewrite P, in_app_iff; auto|destruct (N q I G)|]. apply is_path_begins. exact G.
  - intros c' q I. apply H. right. exact I.
Qed.

(* ---- requests ---- *)
Lemma has_prefix_iff : forall p s, has_prefix p s = true <-> exists b, s = p ++ b.
Proof.
  induction p as [|c p IH]; intros s; cbn [has_prefix]; [split; [exists s; reflexivity|reflexivity]|]. destruct s as [|d s]; [split; [discriminate|intros [b Hb]; discriminate]|].
  rewrite andb_true_iff, N.eqb_eq, IH. split.
  - intros [E [b ->]]. apply code_inj in E. subst d. exists b. reflexivity.
  - intros [b E]. injection E as -> ->. split; [reflexivity|]. exists b. reflexivity.
Qed.
Lemma last_slash : forall (p : bytes) d, p <> [] -> is_slash (last p d) = true <-> exists a, p = a ++ B "/".
Proof.
  intros p d N. split.
  - intros H. apply is_slash_eq in H. destruct (exists_last N) as (a & c & ->). rewrite last_last in H. subst c. exists a. reflexivity.
  - intros [a ->]. change (B "/") with [sl]. rewrite last_last. reflexivity.
Qed.
Lemma is_tree_iff : forall p, is_tree p = true <-> exists a, p = a ++ B "/".
Proof.
  intros [|c p]; [split; [discriminate|intros [a E]; destruct a; discriminate]|]. unfold is_tree. apply last_slash. discriminate.
Qed.
Lemma has_iff : forall x p, has x p = true <-> In p (map fst (exact x)).
Proof.
  intros x p. unfold has. destruct (mget beqb (exact x) p) eqn:G.
  - split; [|reflexivity]. intros _. destruct (in_dec (list_eq_dec ascii_dec) p (map fst (exact x))) as [I|I]; [exact I|]. apply (mget_none beqb beqb_ok) in I. congruence.
  - split; [discriminate|]. intros I. apply (mget_none beqb beqb_ok) in G. destruct (G I).
Qed.
Lemma matches_len : forall p path, matches p path -> length p <= length path.
Proof. intros p path [->|[_ [b ->]]]; [lia|]. rewrite app_length. lia. Qed.
Lemma matches_prefix : forall p path, matches p path -> exists b, path = p ++ b.
Proof. intros p path [->|[_ H]]; [exists []; rewrite app_nil_r; reflexivity|exact H]. Qed.
Lemma matches_same : forall p q path, matches p path -> matches q path -> length p = length q -> p = q.
Proof.
  intros p q path H1 H2 L. apply matches_prefix in H1, H2. destruct H1 as [b ->]. destruct H2 as [c E]. 
  revert q L E. induction p as [|x p IH]; intros [|y q] L E; try discriminate; [reflexivity|]. injection E as -> E. injection L as L. rewrite (IH q L E). reflexivity.
Qed.
(* the pattern that ServeMux.match takes *)
Definition best (x : mux) (path p : bytes) (n : nat) : Prop :=
  In (p, n) (exact x) /\ matches p path /\ forall q m, In (q, m) (exact x) -> matches q path -> length q <= length p.
Lemma lookup_best : forall x path n, mux_ok x -> lookup x path = Some n -> exists p, best x path p n.
Proof.
  intros x path n [K1 K2 K3 K4] H. unfold lookup in H. destruct (mget beqb (exact x) path) as [k|] eqn:G.
  - injection H as ->. apply (mget_in beqb beqb_ok) in G; [|exact K1]. exists path. split; [exact G|]. split; [left; reflexivity|]. intros q m _ M. exact (matches_len _ _ M).
  - destruct (find (fun e => has_prefix (fst e) path) (trees x)) as [[p k]|] eqn:F; [|discriminate]. cbn in H. injection H as ->.
    assert (Fs := find_some _ _ F). destruct Fs as [I P]. cbn [fst] in P. apply has_prefix_iff in P. apply K2 in I. destruct I as [I T]. cbn [fst] in T. apply is_tree_iff in T.
    exists p. split; [exact I|]. split; [right; split; assumption|]. intros q m J M. destruct M as [->|[M1 M2]].
    + exfalso. apply (mget_none beqb beqb_ok) in G. apply G. apply in_map_iff. exists (path, m). auto.
    + assert (Q : In (q, m) (trees x)) by (apply K2; split; [exact J|apply is_tree_iff; exact M1]). apply has_prefix_iff in M2.
      clear - F Q M2 K3. revert F Q K3. generalize (trees x). induction l as [|e l IH]; intros F Q K3; [destruct Q|]. cbn [find] in F.
      destruct (has_prefix (fst e) path) eqn:E.
      * injection F as ->. destruct Q as [Q|Q]; [injection Q as -> ->; lia|]. exact (K3 [] (p, n) l eq_refl (q, m) Q).
      * destruct Q as [->|Q]; [cbn [fst] in E; congruence|]. apply IH; [exact F|exact Q|]. intros l1 a l2 El. apply (K3 (e :: l1) a l2). rewrite El. reflexivity.
Qed.
Lemma lookup_none : forall x path, mux_ok x -> lookup x path = None -> forall q m, In (q, m) (exact x) -> ~ matches q path.
Proof.
  intros x path [K1 K2 K3 K4] H q m I M. unfold lookup in H. destruct (mget beqb (exact x) path) as [k|] eqn:G; [discriminate|].
  destruct (find (fun e => has_prefix (fst e) path) (trees x)) as [e|] eqn:F; [discriminate|]. destruct M as [->|[M1 M2]].
  - apply (mget_none beqb beqb_ok) in G. apply G. apply in_map_iff. exists (path, m). auto.
  - assert (Q := find_none _ _ F (q, m)). cbn [fst] in Q. apply has_prefix_iff in M2. rewrite M2 in Q. discriminate Q. apply K2. split; [exact I|]. apply is_tree_iff. exact M1.
Qed.
Lemma key_inj : forall x p n m, mux_ok x -> In (p, n) (exact x) -> In (p, m) (exact x) -> n = m.
Proof.
  intros x p n m [K1 _ _ _] H1 H2. apply (mget_in beqb beqb_ok) in H1; [|exact K1]. apply (mget_in beqb beqb_ok) in H2; [|exact K1]. congruence.
Qed.
Lemma best_lookup : forall x path p n, mux_ok x -> best x path p n -> lookup x path = Some n.
Proof.
  intros x path p n K (I & M & L). destruct (lookup x path) as [k|] eqn:E.
  - destruct (lookup_best _ _ _ K E) as (q & I2 & M2 & L2). assert (p = q) by (apply (matches_same p q path M M2); pose proof (L q k I2 M2); pose proof (L2 p n I M); lia). subst q.
    f_equal. exact (key_inj _ _ _ _ K I2 I).
  - destruct (lookup_none _ _ K E p n I M).
Qed.
Lemma exact_best : forall x p n, In (p, n) (exact x) -> best x p p n.
Proof. intros x p n I. split; [exact I|]. split; [left; reflexivity|]. intros q m _ M. exact (matches_len _ _ M). Qed.
(* a clean path that is registered gets to its handler, unless a pattern with a host gets in between *)
Lemma reach : forall s host p n, ok s -> host_ok host -> registered s p n -> clean p ->
  dispatch (mx s) host p = To n \/ exists q m, registered s q m /\ ~ begins q /\ matches q (host ++ p) /\ dispatch (mx s) host p = To m.
Proof.
  intros s host p n [K _] HO R C. unfold registered in *. unfold dispatch. cbv zeta. assert (CP : cleanPath p = p) by (apply clean_iff; exact C). rewrite CP.
  assert (HP : has (mx s) p = true) by (apply has_iff; apply in_map_iff; exists (p, n); auto).
  unfold slash_redirect. rewrite HP. cbn [orb]. rewrite beqb_refl. cbn [negb]. unfold handler.
  assert (LP : lookup (mx s) p = Some n) by (apply (best_lookup _ _ p); [exact K|apply exact_best; exact R]).
  destruct (hosts (mx s)); [|rewrite LP; left; reflexivity]. destruct (lookup (mx s) (host ++ p)) as [m|] eqn:L; [|rewrite LP; left; reflexivity].
  destruct host as [|c host]; [cbn [app] in L; rewrite LP in L; injection L as ->; left; reflexivity|]. right.
  destruct (lookup_best _ _ _ K L) as (q & I & M & _). exists q, m. split; [exact I|]. split; [|split; [exact M|reflexivity]].
  intros [r ->]. apply matches_prefix in M. destruct M as [b E]. cbn in E. injection E as -> _. apply HO. left. reflexivity.
Qed.
Lemma all_paths : forall s, ok s -> (forall e, In e (exact (mx s)) -> is_path (fst e) = true) -> hosts (mx s) = false.
Proof. intros s [K _] A. apply (k_hosts _ K). exact A. Qed.
Lemma slash_more : forall p, clean p -> is_slash (last p " "%char) = false -> clean (p ++ B "/").
Proof.
  intros p [B1 [B2 B3]] L. assert (N : forall a, p <> a ++ B "/").
  { intros a ->. change (B "/") with [sl] in L. rewrite last_last in L. discriminate L. }
  split; [destruct B1 as [r ->]; exists (r ++ B "/"); rewrite app_assoc; reflexivity|]. split.
  - intros a b E. destruct b as [|c b] using rev_ind.
    + rewrite app_nil_r in E. change (B "//") with ([sl] ++ [sl]) in E. rewrite app_assoc in E. change (B "/") with [sl] in E. apply app_inj_tail in E. destruct E as [E _]. exact (N a E).
    + rewrite !app_assoc in E. change (B "/") with [sl] in E. apply app_inj_tail in E. destruct E as [E _]. rewrite <- app_assoc in E. exact (B2 _ _ E).
  - intros a b w W. split; intros E.
    + destruct W as [-> | ->]; rewrite app_assoc in E.
      * change (B ".") with ["."%char] in E. change (B "/") with [sl] in E. apply app_inj_tail in E. destruct E as [_ E]. discriminate E.
      * change (B "..") with (["."%char] ++ ["."%char]) in E. rewrite app_assoc in E. change (B "/") with [sl] in E. apply app_inj_tail in E. destruct E as [_ E]. discriminate E.
    + destruct b as [|c b _] using rev_ind.
      * rewrite app_nil_r in E. replace (a ++ B "/" ++ w ++ B "/") with ((a ++ B "/" ++ w) ++ B "/") in E by (rewrite <- !app_assoc; reflexivity). change (B "/") with [sl] in E. apply app_inj_tail in E. destruct E as [E _].
        destruct (B3 a [] w W) as [Q _]. exact (Q E).
      * replace (a ++ B "/" ++ w ++ B "/" ++ b ++ [c]) with ((a ++ B "/" ++ w ++ B "/" ++ b) ++ [c]) in E by (rewrite <- !app_assoc; reflexivity). change (p ++ B "/") with (p ++ [sl]) in E. apply app_inj_tail in E. destruct E as [E _].
        destruct (B3 a b w W) as [_ Q]. exact (Q E).
Qed.
