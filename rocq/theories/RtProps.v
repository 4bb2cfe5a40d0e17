(* C120-C122: which handler a path of the server gets, and what registering leaves. *)
From Coq Require Import Bool Ascii String Arith NArith List Lia.
From Verif Require Import Prelude PreludeFacts Utf8Model Utf8Facts DurModel DurProofs KvProofs RtModel RtSpec RtProofs RtClean.
Import ListNotations.

Definition after (cs : list call) : srv := run NewServer 3 cs.
Lemma after_ok : forall cs, ok (after cs).
Proof. intros cs. apply run_ok. exact new_ok. Qed.
Lemma after_paths : forall cs, no_hosts cs -> forall p n, registered (after cs) p n -> begins p.
Proof.
  intros cs H p n R. apply is_path_begins. change p with (fst (p, n)). apply (run_path cs NewServer 3); [|exact H|exact R]. intros e [<-|[<-|[<-|[]]]]; reflexivity.
Qed.
Lemma after_hosts : forall cs, no_hosts cs -> hosts (mx (after cs)) = false.
Proof. intros cs H. apply all_paths; [apply after_ok|]. intros [p n] I. apply is_path_begins. exact (after_paths cs H p n I). Qed.
Lemma after_made : forall cs p n, registered (after cs) p n -> (In (p, n) (exact (mx NewServer))) \/ made_by cs n p.
Proof.
  intros cs p n R. destruct (run_exact cs NewServer 3) as (l & E & Q). unfold registered, after in R. rewrite E, in_app_iff in R. destruct R as [R|R]; [left; exact R|right].
  exact (Q p n R).
Qed.
Lemma docs_made : forall cs s n p k, documented (run s n cs) p k -> documented s p k \/ n <= k.
Proof.
  induction cs as [|c cs IH]; intros s n p k D; [left; exact D|]. cbn [run] in D. destruct (IH _ _ _ _ D) as [D2|L]; [|right; lia].
  destruct (step_spec s n c) as (a & r & _ & _ & _ & _ & Q). destruct (Q p k D2) as [Q1|[-> _]]; [left; exact Q1|right; lia].
Qed.

(* C120: a path of the documentation, with nothing to clean, is served by the call that documented it: for every history of calls without
   hosts, every host and every such path. *)
Theorem C120_partial : forall cs host p n, no_hosts cs -> documented (after cs) p n -> clean p ->
  dispatch (mx (after cs)) host p = To n /\ made_by cs n p.
Proof.
  intros cs host p n NH D C. destruct (after_ok cs) as [K OD]. assert (R := OD p n D). split.
  - unfold dispatch. cbv zeta. assert (CP : cleanPath p = p) by (apply clean_iff; exact C). rewrite CP. unfold slash_redirect.
    assert (HP : has (mx (after cs)) p = true) by (apply has_iff; apply in_map_iff; exists (p, n); split; [reflexivity|exact R]). rewrite HP. cbn [orb]. rewrite beqb_refl. cbn [negb].
    unfold handler. rewrite (after_hosts cs NH), (best_lookup _ _ p n K (exact_best _ _ _ R)). reflexivity.
  - destruct (after_made cs p n R) as [I|M]; [|exact M]. exfalso. destruct (docs_made cs NewServer 3 p n D) as [D0|L]; [discriminate D0|].
    cbn in I. destruct I as [I|[I|[I|[]]]]; injection I as _ <-; lia.
Qed.
Print Assumptions C120_partial.
(* what a request gets at all: only patterns that are clean, and that are for its path *)
Theorem C120_clean : forall cs host path n, no_hosts cs -> dispatch (mx (after cs)) host path = To n ->
  clean path /\ exists p, registered (after cs) p n /\ clean p /\ matches p path.
Proof.
  intros cs host path n NH H. unfold dispatch in H. cbv zeta in H. destruct (slash_redirect (mx (after cs)) host (cleanPath path)); [discriminate|].
  destruct (beqb (cleanPath path) path) eqn:E; cbn [negb] in H; [|discriminate]. apply beqb_eq in E. apply clean_iff in E. split; [exact E|].
  destruct (handler (mx (after cs)) host path) as [k|] eqn:G; [|discriminate]. injection H as ->. unfold handler in G. rewrite (after_hosts cs NH) in G.
  destruct (after_ok cs) as [K _]. destruct (lookup_best _ _ _ K G) as (p & I & M & _). exists p. split; [exact I|]. split; [|exact M].
  destruct M as [->|[[a ->] [b ->]]]; [exact E|]. exact (clean_prefix a b E).
Qed.
Print Assumptions C120_clean.
(* so a path that is documented but not clean may be served nowhere *)
Theorem C120_refuted : exists cs p n, no_hosts cs /\ documented (after cs) p n /\ begins p /\ forall host path, dispatch (mx (after cs)) host path <> To n.
Proof.
  exists [Register (Some [B "/api/./x"]) true], (B "/api/./x"), 3.
  assert (NH : no_hosts [Register (Some [B "/api/./x"]) true]).
  { intros c p [<-|[]] [<-|[]]. right. exists (B "api/./x"). reflexivity. }
  split; [exact NH|]. split; [reflexivity|]. split; [exists (B "api/./x"); reflexivity|]. intros host path H. destruct (C120_clean _ _ _ _ NH H) as (_ & p & R & C & _).
  unfold registered in R. cbn in R. destruct R as [R|[R|[R|[R|[]]]]]; try discriminate R. injection R as <-. destruct C as (_ & _ & C). destruct (C (B "/api") (B "x") (B ".") (or_introl eq_refl)) as [_ Q]. apply Q. reflexivity.
Qed.
Print Assumptions C120_refuted.
(* and one without a leading slash is served only to those that use its first element as the host *)
Theorem C120_relative_refuted : exists cs p n, documented (after cs) p n /\
  forall host path, dispatch (mx (after cs)) host path = To n -> host = B "api" /\ path = B "/x".
Proof.
  exists [Register (Some [B "api/x"]) true], (B "api/x"), 3. split; [reflexivity|]. intros host path H. unfold dispatch in H. cbv zeta in H.
  set (s := after [Register (Some [B "api/x"]) true]) in *.
  destruct (slash_redirect (mx s) host (cleanPath path)); [discriminate|]. destruct (beqb (cleanPath path) path) eqn:E; cbn [negb] in H; [|discriminate]. apply beqb_eq in E.
  apply clean_iff in E. destruct E as [[r ->] _]. destruct (handler (mx s) host (B "/" ++ r)) as [k|] eqn:G; [|discriminate]. injection H as ->. unfold handler in G.
  assert (K : mux_ok (mx s)) by apply after_ok.
  assert (A : forall path, lookup (mx s) path = Some 3 -> path = B "api/x").
  { intros q L. destruct (lookup_best _ _ _ K L) as (p & I & M & _). cbn in I. destruct I as [I|[I|[I|[I|[]]]]]; try discriminate I. injection I as <-.
    destruct M as [M|[[a M] _]]; [symmetry; exact M|]. apply (f_equal (fun l => last l " "%char)) in M. change (B "/") with [sl] in M. rewrite last_last in M. discriminate M. }
  assert (LR : lookup (mx s) (B "/" ++ r) <> Some 3) by (intros Q; apply A in Q; discriminate Q).
  destruct (hosts (mx s)); [|destruct (LR G)]. destruct (lookup (mx s) (host ++ B "/" ++ r)) as [m|] eqn:L; [|destruct (LR G)]. injection G as ->. apply A in L.
  cbn in L. destruct host as [|c1 [|c2 [|c3 [|c4 host]]]]; cbn in L; try discriminate L.
  - injection L as -> -> -> ->. split; reflexivity.
  - injection L as -> -> -> -> L. destruct host as [|? [|? ?]]; discriminate L.
Qed.
Print Assumptions C120_relative_refuted.
(* The longest pattern for a path gets it: with the exception of ServeMux that a path without a pattern of its own is redirected when
   there is one for it with a slash. *)
Theorem C120_longest : forall cs host path n, no_hosts cs -> host_ok host -> clean path ->
  dispatch (mx (after cs)) host path = To n <->
  (exists p, longest (after cs) path p n) /\ (taken (after cs) path \/ ~ taken (after cs) (path ++ B "/") \/ exists a, path = a ++ B "/").
Proof.
  intros cs host path n NH HO C. set (s := after cs). assert (K : mux_ok (mx s)) by apply after_ok.
  assert (T : forall p, has (mx s) p = true <-> taken s p).
  { intros p. rewrite has_iff. split.
    - intros I. apply in_map_iff in I. destruct I as ([q k] & <- & I). exists k. exact I.
    - intros [k I]. apply in_map_iff. exists (p, k). split; [reflexivity|exact I]. }
  assert (HT : forall p, begins p -> taken s (host ++ p) -> taken s p).
  { intros p BP [k I]. destruct host as [|c host]; [exists k; exact I|]. exfalso. destruct (after_paths cs NH _ _ I) as [r E]. cbn in E. injection E as -> _. apply HO. left. reflexivity. }
  assert (BS : begins (path ++ B "/")) by (destruct C as [[r ->] _]; exists (r ++ B "/"); rewrite app_assoc; reflexivity).
  assert (NE : path <> []) by (destruct C as [[r ->] _]; discriminate).
  assert (SR : slash_redirect (mx s) host path = true <-> ~ (taken s path \/ ~ taken s (path ++ B "/") \/ exists a, path = a ++ B "/")).
  { unfold slash_redirect. destruct (has (mx s) path || has (mx s) (host ++ path)) eqn:E1.
    - split; [discriminate|]. intros Q. exfalso. apply Q. left. apply orb_true_iff in E1. destruct E1 as [E1|E1]; apply T in E1; [exact E1|]. exact (HT path (proj1 C) E1).
    - apply orb_false_iff in E1. destruct E1 as [E1 _]. assert (NT : ~ taken s path) by (intros Q; apply T in Q; congruence). destruct path as [|c0 path0]; [destruct (NE eq_refl)|]. set (path := c0 :: path0) in *.
      destruct (has (mx s) (path ++ B "/") || has (mx s) (host ++ path ++ B "/")) eqn:E2.
      + assert (TS : taken s (path ++ B "/")). { apply orb_true_iff in E2. destruct E2 as [E2|E2]; apply T in E2; [exact E2|]. exact (HT _ BS E2). }
        rewrite negb_true_iff. split.
        * intros L [Q|[Q|Q]]; [exact (NT Q)|exact (Q TS)|]. apply (last_slash path " "%char NE) in Q. congruence.
        * intros Q. destruct (is_slash (last path " "%char)) eqn:L; [|reflexivity]. exfalso. apply Q. right. right. apply (last_slash path " "%char NE). exact L.
      + apply orb_false_iff in E2. destruct E2 as [E2 _]. split; [discriminate|]. intros Q. exfalso. apply Q. right. left. intros W. apply T in W. congruence. }
  assert (CP : cleanPath path = path) by (apply clean_iff; exact C). unfold dispatch. cbv zeta. rewrite CP, beqb_refl. cbn [negb]. unfold handler. unfold s at 2 3. rewrite (after_hosts cs NH).
  change (lookup (mx (after cs)) path) with (lookup (mx s) path). destruct (slash_redirect (mx s) host path) eqn:E.
  - split; [discriminate|]. intros [_ Q]. destruct (proj1 SR eq_refl Q).
  - assert (D : taken s path \/ ~ taken s (path ++ B "/") \/ exists a, path = a ++ B "/").
    { destruct (has (mx s) path) eqn:H1; [left; apply T; exact H1|]. right. destruct (has (mx s) (path ++ B "/")) eqn:H2; [right|left; intros W; apply T in W; congruence].
      apply (last_slash path " "%char NE). destruct (is_slash (last path " "%char)) eqn:L; [reflexivity|]. exfalso. assert (Q : false = true); [|discriminate Q]. apply SR.
      intros [Q|[Q|Q]]; [apply T in Q; congruence|apply Q; apply T; exact H2|apply (last_slash path " "%char NE) in Q; congruence]. }
    split.
    + intros H. split; [|exact D]. destruct (lookup (mx s) path) as [k|] eqn:L; [|discriminate]. injection H as ->. exact (lookup_best _ _ _ K L).
    + intros [[p Lp] _]. rewrite (best_lookup _ _ p n K Lp). reflexivity.
Qed.
Print Assumptions C120_longest.
Lemma slash_true : forall x host (p : bytes), slash_redirect x host p = true ->
  has x (p ++ B "/") || has x (host ++ p ++ B "/") = true /\ is_slash (last p " "%char) = false.
Proof.
  intros x host p E. unfold slash_redirect in E. destruct (has x p || has x (host ++ p)); [discriminate|]. destruct p as [|c0 p0]; [discriminate|].
  destruct (has x ((c0 :: p0) ++ B "/") || has x (host ++ (c0 :: p0) ++ B "/")); [|discriminate]. apply negb_true_iff in E. auto.
Qed.
(* A client that follows a redirect of the mux gets no second one: for every mux, host and path. *)
Theorem C120_redirect : forall x host path q r, dispatch x host path = Redirect q -> dispatch x host q <> Redirect r.
Proof.
  intros x host path q r H. unfold dispatch in H. cbv zeta in H. set (p := cleanPath path) in *. assert (C : clean p) by apply cleanPath_clean. clearbody p.
  destruct (slash_redirect x host p) eqn:E.
  - assert (Eq : q = p ++ B "/") by congruence. rewrite Eq. apply slash_true in E. destruct E as [E2 E]. assert (C2 := slash_more p C E). apply clean_iff in C2.
    unfold dispatch. cbv zeta. rewrite C2. unfold slash_redirect. rewrite E2, beqb_refl. cbn [negb]. destruct (handler x host (p ++ B "/")); discriminate.
  - destruct (negb (beqb p path)); [|destruct (handler x host path); discriminate]. injection H as <-. apply clean_iff in C. unfold dispatch. cbv zeta. rewrite C, E, beqb_refl. cbn [negb].
    destruct (handler x host p); discriminate.
Qed.
Print Assumptions C120_redirect.

(* Where it leads: every path comes to one clean path by steps that drop an element and leave the meaning, and the redirect is to that
   path, or to it with a slash; a path that is clean is not redirected to another but for the slash. *)
Theorem C120_cleaned : forall path p, absolute path p ->
  (exists q, cleaned p q) /\ (forall q, cleaned p q -> forall q', cleaned p q' -> q' = q) /\
  forall x host q, cleaned p q ->
    match dispatch x host path with
    | Redirect r => (r = q /\ path <> q) \/ r = q ++ B "/"
    | _ => path = q
    end.
Proof.
  intros path p A. destruct (absolute_rooted path p A) as [E Hb]. split; [exact (cleaned_exists p Hb)|].
  assert (U : forall q, cleaned p q -> q = cleanPath path) by (intros q H; rewrite (cleaned_path p q H Hb), E; apply cleanPath_rooted).
  split; [intros q H q' H'; rewrite (U q H); exact (U q' H')|]. intros x host q H. apply U in H. subst q. unfold dispatch. cbv zeta.
  destruct (slash_redirect x host (cleanPath path)); [right; reflexivity|]. destruct (beqb (cleanPath path) path) eqn:F; cbn [negb].
  - apply beqb_eq in F. destruct (handler x host path); symmetry; exact F.
  - left. split; [reflexivity|]. intros Q. rewrite <- Q, beqb_refl in F. discriminate F.
Qed.
Print Assumptions C120_cleaned.
Example C120_cleaned_ex : absolute (B "a/b/../c/.") (B "/a/b/../c/.") /\ cleaned (B "/a/b/../c/.") (B "/a/c") /\
  dispatch (mx NewServer) (B "h") (B "a/b/../c/.") = Redirect (B "/a/c").
Proof.
  split; [right; split; [intros [r E]; discriminate E|reflexivity]|]. split; [|reflexivity].
  apply (cl_step _ (B "/a/b/../c")); [apply (sh_last_dot (B "/a/b/../c")); right; split; [reflexivity|]; split; [discriminate|]|].
  - intros b E. assert (L := last_last b "/"%char " "%char). change (B "/") with ["/"%char] in E. rewrite <- E in L. discriminate L.
  - apply (cl_step _ (B "/a/c")).
    + apply (sh_up (B "/a") (B "b") (B "c")). split; [discriminate|]. split; [discriminate|]. split; [discriminate|]. intros [E|[]]. discriminate E.
    + apply cl_done, clean_iff. reflexivity.
Qed.

(* C121: the three paths of NewServer get to their handlers whatever is registered without hosts *)
Theorem C121_partial : forall cs host, no_hosts cs ->
  dispatch (mx (after cs)) host (B "/live") = To 0 /\ dispatch (mx (after cs)) host (B "/ready") = To 1 /\ dispatch (mx (after cs)) host (B "/openapi.json") = To 2.
Proof.
  intros cs host NH. destruct (run_exact cs NewServer 3) as (l & E & _). assert (K : mux_ok (mx (after cs))) by apply after_ok.
  assert (A : forall p n, In (p, n) (exact (mx NewServer)) -> cleanPath p = p -> dispatch (mx (after cs)) host p = To n).
  { intros p n I CP. assert (R : In (p, n) (exact (mx (after cs)))) by (unfold after; rewrite E, in_app_iff; left; exact I). unfold dispatch. cbv zeta. rewrite CP. unfold slash_redirect.
    assert (HP : has (mx (after cs)) p = true) by (apply has_iff; apply in_map_iff; exists (p, n); split; [reflexivity|exact R]). rewrite HP. cbn [orb]. rewrite beqb_refl. cbn [negb].
    unfold handler. rewrite (after_hosts cs NH), (best_lookup _ _ p n K (exact_best _ _ _ R)). reflexivity. }
  split; [|split]; apply A; try (cbn; tauto); reflexivity.
Qed.
Print Assumptions C121_partial.
(* With hosts, only a pattern with a host can take them: for every history. *)
Theorem C121_hosts : forall cs host p n, host_ok host -> In (p, n) [(B "/live", 0); (B "/ready", 1); (B "/openapi.json", 2)] ->
  dispatch (mx (after cs)) host p = To n \/ exists q m, registered (after cs) q m /\ ~ begins q /\ matches q (host ++ p) /\ dispatch (mx (after cs)) host p = To m.
Proof.
  intros cs host p n HO I. apply reach; [apply after_ok|exact HO| |].
  - destruct (run_exact cs NewServer 3) as (l & E & _). unfold registered, after. rewrite E, in_app_iff. left. exact I.
  - apply clean_iff. destruct I as [I|[I|[I|[]]]]; injection I as <- _; reflexivity.
Qed.
Print Assumptions C121_hosts.
Theorem C121_refuted : exists cs host, host_ok host /\ dispatch (mx (after cs)) host (B "/live") = To 3 /\ dispatch (mx (after cs)) (B "g") (B "/live") = To 0.
Proof.
  exists [Handle (B "h/")], (B "h"). split; [intros [Q|[]]; discriminate Q|]. split; reflexivity.
Qed.
Print Assumptions C121_refuted.

(* C122: when RegisterAPI succeeds, all its paths are served by it and documented. *)
Theorem C122_done : forall cs ps b t, step (after cs) (3 + length cs) (Register (Some ps) b) = (t, Done) ->
  ps <> [] /\ forall p, In p ps -> registered t p (3 + length cs) /\ documented t p (3 + length cs).
Proof.
  intros cs ps b t H. set (n := 3 + length cs) in *. destruct ps as [|p0 ps0]; [cbn [step] in H; discriminate H|]. split; [discriminate|]. cbn [step] in H. 
  destruct (handle_all (mx (after cs)) (p0 :: ps0) n) as [x [|]] eqn:E; [|discriminate]. destruct b; [|discriminate]. assert (Et : t = Srv x (document (docs (after cs)) (p0 :: ps0) n)) by congruence. subst t. intros p I.
  destruct (handle_all_spec _ _ _ _ _ E) as (a & r & P & E1 & R & _). assert (r = []) by (apply R; reflexivity). subst r. rewrite app_nil_r in P. subst a. split.
  - unfold registered. cbn [mx]. rewrite E1, in_app_iff. right. apply in_map_iff. exists p. auto.
  - unfold documented. cbn [docs]. rewrite document_get. destruct (in_dec (list_eq_dec ascii_dec) p (p0 :: ps0)) as [_|Q]; [reflexivity|destruct (Q I)].
Qed.
Print Assumptions C122_done.
(* An object that api.NewServer does not take, or one without urls, leaves the server as it was. *)
Theorem C122_partial : forall s n op b, op = None \/ op = Some [] -> step s n (Register op b) = (s, Failed).
Proof. intros s n op b [->| ->]; reflexivity. Qed.
Print Assumptions C122_partial.
(* Else what is left of a call that does not succeed: the first of its paths are served by it, and none are documented. *)
Theorem C122_left : forall cs ps b t o, step (after cs) (3 + length cs) (Register (Some ps) b) = (t, o) -> o <> Done ->
  exists a r, ps = a ++ r /\ (forall p k, registered t p k <-> registered (after cs) p k \/ (k = 3 + length cs /\ In p a)) /\
  (forall p k, documented t p k <-> documented (after cs) p k) /\ (o = Failed -> r = [] /\ b = false \/ ps = []) /\
  (o = Panicked -> exists p r', r = p :: r' /\ (p = [] \/ taken (after cs) p \/ In p a)).
Proof.
  intros cs ps b t o H NO. set (n := 3 + length cs) in *. destruct ps as [|p0 ps0].
  - cbn [step] in H. injection H as <- <-. exists [], []. split; [reflexivity|]. split; [intros p k; split; [auto|intros [Q|[_ []]]; exact Q]|]. split; [reflexivity|]. split; [auto|discriminate].
  - cbn [step] in H. destruct (handle_all (mx (after cs)) (p0 :: ps0) n) as [x bb] eqn:E.
    destruct (handle_all_spec _ _ _ _ _ E) as (a & r & P & E1 & R & _ & _ & W). exists a, r. split; [exact P|].
    assert (RG : forall d p k, registered (Srv x d) p k <-> registered (after cs) p k \/ (k = n /\ In p a)).
    { intros d p k. unfold registered. cbn [mx]. rewrite E1, in_app_iff, in_map_iff. split.
      - intros [Q|(q & Q & Iq)]; [left; exact Q|right]. injection Q as -> <-. auto.
      - intros [Q|[-> Q]]; [left; exact Q|right]. exists p. auto. }
    destruct bb; [destruct b; [injection H as <- <-; destruct (NO eq_refl)|]|]; injection H as <- <-; (split; [apply RG|]; split; [reflexivity|]; split; [|]).
    + intros _. left. split; [apply R; reflexivity|reflexivity].
    + discriminate.
    + discriminate.
    + intros _. destruct r as [|p r]; [assert (Q : false = true) by (apply R; reflexivity); discriminate Q|]. exists p, r. split; [reflexivity|]. destruct W as [W|W]; [left; exact W|right].
      rewrite E1, map_app, in_app_iff, map_map in W. cbn [fst] in W. rewrite map_id in W. destruct W as [W|W]; [left|right; exact W]. apply in_map_iff in W. destruct W as ([q k] & <- & W). exists k. exact W.
Qed.
Print Assumptions C122_left.
(* and they are not none: in each case, the path is served and not documented *)
Theorem C122_refuted : exists cs ps p, let s := after (cs ++ [Register (Some ps) false]) in
  snd (step (after cs) (3 + length cs) (Register (Some ps) false)) = Failed /\ In p ps /\ dispatch (mx s) (B "h") p = To (3 + length cs) /\ forall n, ~ documented s p n.
Proof.
  exists [Handle (B "/a")], [B "/b"], (B "/b"). cbv zeta. split; [reflexivity|]. split; [left; reflexivity|]. split; [reflexivity|]. intros n D. discriminate D.
Qed.
Print Assumptions C122_refuted.
Theorem C122_panic_refuted : exists cs ps p, let s := after (cs ++ [Register (Some ps) true]) in
  snd (step (after cs) (3 + length cs) (Register (Some ps) true)) = Panicked /\ In p ps /\ dispatch (mx s) (B "h") p = To (3 + length cs) /\ forall n, ~ documented s p n.
Proof.
  exists [], [B "/b"; B "/live"], (B "/b"). cbv zeta. split; [reflexivity|]. split; [left; reflexivity|]. split; [reflexivity|]. intros n D. discriminate D.
Qed.
Print Assumptions C122_panic_refuted.
(* It panics when one of its paths is empty, or taken, or twice there, and only then. *)
Theorem C122_panics : forall cs ps b, snd (step (after cs) (3 + length cs) (Register (Some ps) b)) = Panicked <->
  exists a p r, ps = a ++ p :: r /\ (p = [] \/ taken (after cs) p \/ In p a).
Proof.
  intros cs ps b. split.
  - intros H. destruct (step (after cs) (3 + length cs) (Register (Some ps) b)) as [t o] eqn:E. cbn [snd] in H. subst o.
    destruct (C122_left cs ps b t Panicked E) as (a & r & P & _ & _ & _ & Q); [discriminate|]. destruct (Q eq_refl) as (p & r' & -> & W). exists a, p, r'. auto.
  - intros (a & p & r & P & W). destruct (step (after cs) (3 + length cs) (Register (Some ps) b)) as [t o] eqn:E. cbn [snd]. destruct o; [exfalso|exfalso|reflexivity].
    all: destruct ps as [|p0 ps0]; [destruct a; discriminate P|]; cbn [step] in E; destruct (handle_all (mx (after cs)) (p0 :: ps0) (3 + length cs)) as [x [|]] eqn:HA; [|discriminate].
    all: clear E; set (n := 3 + length cs) in *; rewrite P in HA; clear P.
    all: assert (W2 : p = [] \/ In p (map fst (exact (mx (after cs)))) \/ In p a) by
      (destruct W as [W|[[k W]|W]]; [auto| |auto]; right; left; apply in_map_iff; exists (p, k); split; [reflexivity|exact W]).
    all: clear W; revert HA W2; generalize (mx (after cs)); clear; induction a as [|q a IH]; intros m HA W; cbn [app handle_all] in HA.
    all: try (destruct (handle m p n) as [y|] eqn:Hp; [|discriminate]; destruct (handle_exact _ _ _ _ Hp) as (_ & N1 & N2); destruct W as [W|[W|[]]]; auto; fail).
    all: destruct (handle m q n) as [y|] eqn:Hq; [|discriminate]; apply (IH y HA); destruct (handle_exact _ _ _ _ Hq) as (E1 & _ & _); rewrite E1, map_app, in_app_iff; cbn [map fst In].
    all: destruct W as [W|[W|[W|W]]]; auto.
Qed.
Print Assumptions C122_panics.
(* Nothing that is served or documented is lost or replaced by later calls, whatever becomes of them. *)
Theorem C122_kept : forall cs ds p n, registered (after cs) p n -> registered (after (cs ++ ds)) p n /\ (documented (after cs) p n -> documented (after (cs ++ ds)) p n).
Proof.
  assert (RA : forall cs ds s k, run s k (cs ++ ds) = run (run s k cs) (k + length cs) ds).
  { induction cs as [|c cs IH]; intros ds s k; cbn [app run length]; [rewrite Nat.add_0_r; reflexivity|]. rewrite IH. f_equal. lia. }
  intros cs ds p n R. unfold after. rewrite RA. fold (after cs). generalize (3 + length cs). assert (O := after_ok cs). revert O R. generalize (after cs). induction ds as [|d ds IH]; intros s O R k; [auto|].
  cbn [run]. assert (O2 := step_ok s k d O). destruct (step_spec s k d) as (a & r & P & E & _ & _ & _).
  assert (R2 : registered (fst (step s k d)) p n) by (unfold registered; rewrite E, in_app_iff; left; exact R). destruct (IH _ O2 R2 (S k)) as [Q1 Q2]. split; [exact Q1|]. intros D. apply Q2.
  assert (KEY : In p (map fst (exact (mx s)))) by (apply in_map_iff; exists (p, n); split; [reflexivity|exact R]).
  clear - D KEY. assert (ONE : forall q, documented (fst (match handle (mx s) q k with Some x => (Srv x (document (docs s) [q] k), Done) | None => (s, Panicked) end)) p n).
  { intros q. destruct (handle (mx s) q k) as [x|] eqn:H; [|exact D]. destruct (handle_exact _ _ _ _ H) as (_ & _ & NI). unfold documented. cbn [fst docs]. rewrite document_get.
    destruct (in_dec (list_eq_dec ascii_dec) p [q]) as [I|I]; [|exact D]. destruct I as [->|[]]. destruct (NI KEY). }
  assert (FRESH : forall ps m x, In p (map fst (exact m)) -> handle_all m ps k = (x, true) -> ~ In p ps).
  { induction ps as [|q ps IH]; intros m x K H I; [destruct I|]. cbn in H. destruct (handle m q k) as [y|] eqn:Hq; [|discriminate]. destruct (handle_exact _ _ _ _ Hq) as (E & _ & NI).
    destruct I as [->|I]; [exact (NI K)|]. apply (IH y x); [rewrite E, map_app, in_app_iff; left; exact K|exact H|exact I]. }
  destruct d as [[ps|] b|q|q|ps]; cbn [step].
  - destruct ps as [|p0 ps0]; [exact D|]. destruct (handle_all (mx s) (p0 :: ps0) k) as [x [|]] eqn:H; [|exact D]. destruct b; [|exact D]. unfold documented. cbn [fst docs]. rewrite document_get.
    destruct (in_dec (list_eq_dec ascii_dec) p (p0 :: ps0)) as [I|I]; [|exact D]. destruct (FRESH _ _ _ KEY H I).
  - exact D.
  - apply ONE.
  - apply ONE.
  - destruct (handle_all (mx s) ps k) as [x bb]. exact D.
Qed.
Print Assumptions C122_kept.

(* the server of these examples: an api with two paths, one of them with a slash at its end, and a page for all the rest *)
Definition site : list call := [Register (Some [B "/api/x"; B "/api/"]) true; Handle (B "/")].
Example site_no_hosts : no_hosts site.
Proof. intros c p [<-|[<-|[]]]; cbn; intros I; right; repeat (destruct I as [<-|I]; [eexists; reflexivity|]); destruct I. Qed.
Example C120_ex : documented (after site) (B "/api/x") 3 /\ cleanPath (B "/api/x") = B "/api/x" /\ dispatch (mx (after site)) (B "h") (B "/api/x") = To 3 /\
  dispatch (mx (after site)) (B "h") (B "/api/y") = To 3 /\ dispatch (mx (after site)) (B "h") (B "/b") = To 4 /\ dispatch (mx (after site)) (B "h") (B "/live") = To 0 /\
  dispatch (mx (after site)) (B "h") (B "/api") = Redirect (B "/api/") /\ dispatch (mx (after site)) (B "h") (B "/api/../live") = Redirect (B "/live").
Proof. repeat split; reflexivity. Qed.
Example C120_longest_ex : (exists p, longest (after site) (B "/api/y") p 3) /\ ~ taken (after site) (B "/api/y/").
Proof.
  assert (H : dispatch (mx (after site)) (B "h") (B "/api/y") = To 3) by reflexivity. apply (C120_longest site (B "h") (B "/api/y") 3 site_no_hosts) in H.
  - destruct H as [H _]. split; [exact H|]. intros [n I]. cbn in I. repeat (destruct I as [I|I]; [discriminate I|]). destruct I.
  - intros [Q|[]]; discriminate Q.
  - apply clean_iff. reflexivity.
Qed.
Example C122_ex : snd (step (after site) 5 (Register (Some [B "/c"]) true)) = Done /\ snd (step (after site) 5 (Register (Some [B "/c"; B "/api/x"]) true)) = Panicked /\
  snd (step (after site) 5 (Register (Some []) true)) = Failed.
Proof. repeat split; reflexivity. Qed.
