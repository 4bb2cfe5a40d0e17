(* How ServeMux cleans paths: one step at a time. *)
From Coq Require Import Bool Ascii String Arith NArith List Lia Wf_nat.
From Verif Require Import Prelude PreludeFacts Utf8Model Utf8Facts DurModel DurProofs KvProofs RtModel RtSpec RtProofs.
Import ListNotations.

Lemma named_good : forall x, named x -> good x.
Proof. intros x (A & C & D & _). split; [exact A|]. intros [E|E]; contradiction. Qed.
Lemma named_flat : forall x, named x -> flat x.
Proof. intros x (_ & _ & _ & F) c I. destruct (is_slash c) eqn:E; [|reflexivity]. apply is_slash_eq in E. subst c. contradiction. Qed.
Lemma good_named : forall x, good x -> flat x -> named x.
Proof.
  intros x [A N] F. split; [exact A|]. split; [intros E; apply N; left; exact E|]. split; [intros E; apply N; right; exact E|].
  intros I. specialize (F _ I). discriminate F.
Qed.
Definition stack (p : bytes) : list bytes := fold_left push (segs p) [].
Definition trail (p : bytes) : bool := is_slash (last p sl).
Lemma cleanPath_by : forall p q, begins p -> begins q -> stack p = stack q -> (trail p = trail q \/ stack q = []) -> cleanPath p = cleanPath q.
Proof.
  intros p q [r ->] [r2 ->] E T. unfold cleanPath. change (rooted (B "/" ++ r)) with (B "/" ++ r). change (rooted (B "/" ++ r2)) with (B "/" ++ r2).
  unfold Clean. fold (stack (B "/" ++ r)) (stack (B "/" ++ r2)). fold (trail (B "/" ++ r)) (trail (B "/" ++ r2)). rewrite E. destruct T as [T|T]; [rewrite T; reflexivity|].
  rewrite T. change (negb (beqb (B "/") (B "/"))) with false. rewrite !andb_false_r. reflexivity.
Qed.
Lemma begins_mid : forall a b c, begins (a ++ B "/" ++ b) -> begins (a ++ B "/" ++ c).
Proof. intros a b c [r E]. destruct a as [|x a]; [exists c; reflexivity|]. injection E as -> _. exists (a ++ B "/" ++ c). reflexivity. Qed.
Lemma stack_mid : forall a b, stack (a ++ sl :: b) = fold_left push (segs b) (stack a).
Proof. intros. unfold stack. rewrite segs_app, fold_left_app. reflexivity. Qed.
Lemma trail_app : forall a b, b <> [] -> trail (a ++ b) = trail b.
Proof. intros a b N. unfold trail. rewrite last_app by exact N. reflexivity. Qed.
Lemma trail_cons : forall c b, trail (c :: sl :: b) = trail (sl :: b).
Proof. reflexivity. Qed.
Lemma up_push : forall st x, good x -> push (push st x) (B "..") = st.
Proof. intros st x G. rewrite (push_good st x G). reflexivity. Qed.
Lemma left_stack : forall a d, left_of a d -> stack d = stack a.
Proof. intros a d [[-> ->]|[-> _]]; reflexivity. Qed.
Lemma left_begins : forall a b d, left_of a d -> begins (a ++ B "/" ++ b) -> begins d.
Proof.
  intros a b d [[-> ->]|(-> & N & _)] [r E]; [exists []; reflexivity|]. destruct a as [|c a]; [contradiction|]. injection E as -> _. exists a. reflexivity.
Qed.
Lemma left_trail : forall a d, left_of a d -> trail d = false \/ stack d = [].
Proof.
  intros a d [[-> ->]|(-> & N & L)]; [right; reflexivity|]. left. destruct (exists_last N) as (b & c & ->). unfold trail. rewrite last_last.
  destruct (is_slash c) eqn:E; [|reflexivity]. apply is_slash_eq in E. subst c. destruct (L b eq_refl).
Qed.
Lemma shorter_begins : forall p q, shorter p q -> begins p -> begins q.
Proof.
  intros p q H Hb. destruct H as [a b|a b|a x b N|b|a d L|a x d N L|].
  - exact (begins_mid a (B "/" ++ b) b Hb).
  - exact (begins_mid a (B "./" ++ b) b Hb).
  - exact (begins_mid a _ b Hb).
  - exists b. reflexivity.
  - exact (left_begins a _ d L Hb).
  - exact (left_begins a _ d L Hb).
  - exists []. reflexivity.
Qed.
Lemma shorter_same : forall p q, shorter p q -> begins p -> cleanPath p = cleanPath q.
Proof.
  intros p q H Hb. assert (Hq := shorter_begins p q H Hb). destruct H as [a b|a b|a x b N|b|a d L|a x d N L|].
  - apply cleanPath_by; try assumption.
    + change (B "//" ++ b) with (sl :: sl :: b). change (B "/" ++ b) with (sl :: b). rewrite !stack_mid, segs_slash. reflexivity.
    + left. rewrite (trail_app a (B "//" ++ b)), (trail_app a (B "/" ++ b)) by discriminate. reflexivity.
  - apply cleanPath_by; try assumption.
    + change (B "/./" ++ b) with (sl :: B "." ++ sl :: b). change (B "/" ++ b) with (sl :: b). rewrite !stack_mid, segs_app. reflexivity.
    + left. rewrite (trail_app a (B "/./" ++ b)), (trail_app a (B "/" ++ b)) by discriminate. reflexivity.
  - apply cleanPath_by; try assumption.
    + change (B "/" ++ x ++ B "/../" ++ b) with (sl :: x ++ sl :: B ".." ++ sl :: b). change (B "/" ++ b) with (sl :: b). rewrite !stack_mid, !segs_app.
      rewrite (flat_segs x (named_flat x N)). cbn [app]. change (segs (B "..")) with [B ".."]. cbn [app fold_left]. rewrite up_push by (apply named_good; exact N). reflexivity.
    + left. change (B "/" ++ x ++ B "/../" ++ b) with (B "/" ++ x ++ B "/.." ++ (B "/" ++ b)). rewrite !app_assoc, <- !(app_assoc _ (B "/") b).
      rewrite (trail_app _ (B "/" ++ b)), (trail_app a (B "/" ++ b)) by discriminate. reflexivity.
  - apply cleanPath_by; try assumption; [reflexivity|]. left. change (B "/../" ++ b) with (B "/.." ++ (B "/" ++ b)). rewrite (trail_app _ (B "/" ++ b)) by discriminate. reflexivity.
  - apply cleanPath_by; try assumption.
    + rewrite (left_stack a d L). change (B "/.") with (sl :: B "."). rewrite stack_mid. reflexivity.
    + rewrite (trail_app a (B "/.")) by discriminate. destruct (left_trail a d L) as [->|E]; [left; reflexivity|right; exact E].
  - apply cleanPath_by; try assumption.
    + rewrite (left_stack a d L). change (B "/" ++ x ++ B "/..") with (sl :: x ++ sl :: B ".."). rewrite stack_mid, segs_app, (flat_segs x (named_flat x N)).
      cbn [app fold_left]. change (segs (B "..")) with [B ".."]. cbn [fold_left]. apply up_push, named_good, N.
    + rewrite !app_assoc. rewrite (trail_app _ (B "/..")) by discriminate. destruct (left_trail a d L) as [->|E]; [left; reflexivity|right; exact E].
  - reflexivity.
Qed.
Lemma cleaned_path : forall p q, cleaned p q -> begins p -> q = cleanPath p.
Proof.
  intros p q H. induction H as [p C|p p1 q S1 _ IH]; intros Hb.
  - symmetry. apply clean_iff. exact C.
  - rewrite (shorter_same _ _ S1 Hb). apply IH. exact (shorter_begins _ _ S1 Hb).
Qed.

(* there is always a step to do *)
Lemma first_bad : forall l, okl l \/ exists pre x post, l = pre ++ x :: post /\ Forall good pre /\ ((x = [] /\ post <> []) \/ dot x).
Proof.
  induction l as [|x l IH].
  - left. split; [intros ? []|]. intros [|? ?] ? E; discriminate E.
  - destruct (list_eq_dec ascii_dec x (B ".")) as [->|N1]; [right; exists [], (B "."), l; unfold dot; auto|].
    destruct (list_eq_dec ascii_dec x (B "..")) as [->|N2]; [right; exists [], (B ".."), l; unfold dot; auto|].
    assert (ND : ~ dot x) by (intros [E|E]; contradiction).
    destruct x as [|c x].
    + destruct l as [|y l]; [left|right; exists [], [], (y :: l); repeat split; auto; left; split; [reflexivity|discriminate]].
      split; [intros ? [<-|[]]; exact ND|]. intros [|? [|? ?]] b E; [injection E as <-; reflexivity|discriminate E|discriminate E].
    + destruct IH as [[O1 O2]|(pre & y & post & -> & F & D)].
      * left. split; [intros z [<-|I]; [exact ND|apply O1; exact I]|]. intros [|z a] b E; [discriminate E|]. injection E as _ E. exact (O2 a b E).
      * right. exists ((c :: x) :: pre), y, post. split; [reflexivity|]. split; [|exact D]. constructor; [split; [discriminate|exact ND]|exact F].
Qed.
Lemma join_one : forall x, join [x] = sl :: x.
Proof. intros. unfold join. cbn. rewrite app_nil_r. reflexivity. Qed.
Lemma join_cons : forall x l, join (x :: l) = sl :: x ++ join l.
Proof. reflexivity. Qed.
Lemma join_left : forall pre, Forall good pre -> Forall flat pre -> exists d, left_of (join pre) d.
Proof.
  intros pre G F. destruct pre as [|y pre]; [exists (B "/"); left; auto|]. exists (join (y :: pre)). right. split; [reflexivity|]. split; [discriminate|].
  destruct (exists_last (l := y :: pre)) as (l & z & E); [discriminate|]. rewrite E in G, F |- *. clear E. apply Forall_app in G, F. destruct G as [_ G], F as [_ F].
  inversion G as [|? ? [N _] _]. inversion F as [|? ? F1 _]. subst. intros b E. rewrite join_app, join_one in E. destruct (exists_last N) as (w & c & ->).
  change (sl :: w ++ [c]) with ((sl :: w) ++ [c]) in E. rewrite app_assoc in E. apply app_inj_tail in E. destruct E as [_ E].
  assert (I1 : In c (w ++ [c])) by (apply in_app_iff; right; left; reflexivity). specialize (F1 c I1). rewrite E in F1. discriminate F1.
Qed.
Lemma progress : forall p, begins p -> clean p \/ exists q, shorter p q.
Proof.
  intros p [r ->]. change (B "/" ++ r) with (sl :: r). destruct (first_bad (segs r)) as [O|(pre & x & post & E & G & D)]; [left; apply clean_okl; exact O|]. right.
  assert (F : Forall flat (pre ++ x :: post)) by (rewrite <- E; apply Forall_forall; intros y; apply segs_flat).
  rewrite <- join_segs, E, join_app, join_cons. clear E. apply Forall_app in F. destruct F as [Fp Fx].
  destruct (join_left pre G Fp) as (d & L). destruct D as [[-> N]|[->| ->]].
  - destruct post as [|y post]; [contradiction|]. rewrite join_cons. exists (join pre ++ B "/" ++ (y ++ join post)). apply sh_slashes.
  - destruct post as [|y post]; [exists d; apply sh_last_dot; exact L|]. rewrite join_cons. exists (join pre ++ B "/" ++ (y ++ join post)). apply sh_dot.
  - destruct pre as [|z pre0].
    + destruct post as [|y post]; [exists (B "/"); apply sh_last_top|]. rewrite join_cons. exists (B "/" ++ (y ++ join post)). apply sh_top.
    + destruct (exists_last (l := z :: pre0)) as (l & z' & El); [discriminate|]. rewrite El in G, Fp |- *. clear El L. apply Forall_app in G, Fp.
      destruct G as [G G1], Fp as [Fp Fp1]. inversion G1 as [|? ? G2 _]. inversion Fp1 as [|? ? F2 _]. subst. assert (NM := good_named _ G2 F2).
      rewrite join_app, join_one, <- app_assoc. destruct (join_left l G Fp) as (d' & L'). destruct post as [|y post].
      * exists d'. apply (sh_last_up (join l) z' d' NM L').
      * rewrite join_cons. exists (join l ++ B "/" ++ (y ++ join post)). apply (sh_up (join l) z' (y ++ join post) NM).
Qed.
Lemma shorter_length : forall p q, begins p -> shorter p q -> length q < length p.
Proof.
  intros p q Hb H. destruct H as [a b|a b|a x b N|b|a d L|a x d N L|]; rewrite ?app_length; cbn [length B]; try (cbn; lia).
  - destruct L as [[-> ->]|[-> _]]; cbn; lia.
  - destruct L as [[-> ->]|[-> _]]; cbn; lia.
Qed.
Lemma cleaned_exists : forall p, begins p -> exists q, cleaned p q.
Proof.
  intros p. induction p as [p IH] using (induction_ltof1 _ (@length ascii)). intros Hb. destruct (progress p Hb) as [C|(q & H)]; [exists p; apply cl_done; exact C|].
  destruct (IH q) as (q' & Hq); [exact (shorter_length p q Hb H)|exact (shorter_begins p q H Hb)|]. exists q'. exact (cl_step _ _ _ H Hq).
Qed.
Lemma absolute_rooted : forall path p, absolute path p -> p = rooted path /\ begins p.
Proof.
  intros path p [[[r ->] ->]|[N ->]]; [split; [reflexivity|exists r; reflexivity]|]. split; [|exists path; reflexivity]. destruct path as [|c path]; [reflexivity|]. cbn [rooted].
  destruct (is_slash c) eqn:E; [|reflexivity]. apply is_slash_eq in E. subst c. destruct N. exists path. reflexivity.
Qed.
Lemma cleanPath_rooted : forall path, cleanPath (rooted path) = cleanPath path.
Proof.
  intros path. unfold cleanPath. replace (rooted (rooted path)) with (rooted path); [reflexivity|]. destruct path as [|c path]; [reflexivity|]. cbn [rooted].
  destruct (is_slash c) eqn:E; [cbn [rooted]; rewrite E; reflexivity|reflexivity].
Qed.
