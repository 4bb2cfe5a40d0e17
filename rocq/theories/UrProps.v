(* Property C136: /repo/http/client.go Client.API against /repo/http/api.go RegisterAPI. *)
From Coq Require Import Bool Ascii String Arith NArith Lia List.
From Verif Require Import Prelude PreludeFacts Utf8Model Utf8Facts DurModel DurProofs KvProofs RtModel RtSpec RtProofs RtClean RtProps UrModel UrSpec.
Import ListNotations.

(* ---- escaped text ---- *)
Lemma unhex_iff c v : unhex c = Some v <-> hex_digit c v.
Proof.
  unfold unhex, hex_digit. cbv zeta.
  assert (A : forall a b n, ((a <=? n) && (n <=? b))%N = true <-> (a <= n <= b)%N) by (intros; rewrite andb_true_iff, !N.leb_le; tauto).
  destruct ((48 <=? code c) && (code c <=? 57))%N eqn:E1; [apply A in E1|assert (F1 : ~ (48 <= code c <= 57)%N) by (intros X; apply A in X; congruence)];
    [|destruct ((97 <=? code c) && (code c <=? 102))%N eqn:E2; [apply A in E2|assert (F2 : ~ (97 <= code c <= 102)%N) by (intros X; apply A in X; congruence)]];
    [| |destruct ((65 <=? code c) && (code c <=? 70))%N eqn:E3; [apply A in E3|assert (F3 : ~ (65 <= code c <= 70)%N) by (intros X; apply A in X; congruence)]];
    clear A; (split; [intros H; try discriminate; try (injection H as <-); lia|intros H; first [f_equal; lia|exfalso; lia]]).
Qed.
Lemma percent c : N.eqb (code c) 37 = true <-> c = "%"%char.
Proof. rewrite N.eqb_eq. split; [intros H; apply code_inj; exact H|intros ->; reflexivity]. Qed.
Lemma unescape_iff : forall e p, unescape e = Some p <-> spells e p.
Proof.
  intros e. remember (length e) as n eqn:En. assert (Hn : length e <= n) by lia. clear En. revert e Hn. induction n as [|n IH]; intros e Hn p.
  - destruct e as [|c e]; [|cbn in Hn; lia]. split; [intros H; injection H as <-; constructor|intros H; inversion H; reflexivity].
  - destruct e as [|c e]; [split; [intros H; injection H as <-; constructor|intros H; inversion H; reflexivity]|]. cbn [length] in Hn. cbn [unescape].
    destruct (N.eqb (code c) 37) eqn:Ec.
    + apply percent in Ec. subst c. split.
      * destruct e as [|a [|b e]]; try discriminate. destruct (unhex a) as [x|] eqn:Ea; [|discriminate]. destruct (unhex b) as [y|] eqn:Eb; [|discriminate].
        destruct (unescape e) as [q|] eqn:Eq; [|discriminate]. intros H. injection H as <-. apply sp_byte; [now apply unhex_iff|now apply unhex_iff|]. apply IH; [cbn [length] in Hn; lia|exact Eq].
      * intros H. inversion H as [|? ? ? Hc|a b x y e' q Ha Hb Hs]; subst; [contradiction|]. apply unhex_iff in Ha, Hb. apply IH in Hs; [|cbn [length] in Hn; lia]. now rewrite Ha, Hb, Hs.
    + assert (Hc : c <> "%"%char) by (intros X; apply percent in X; congruence). split.
      * destruct (unescape e) as [q|] eqn:Eq; [|discriminate]. intros H. injection H as <-. apply sp_plain; auto. apply IH; [lia|exact Eq].
      * intros H. inversion H as [|? ? ? Hc' Hs|]; subst; [|contradiction]. apply IH in Hs; [|lia]. now rewrite Hs.
Qed.
Lemma hex_not_slash c v : hex_digit c v -> c <> sl.
Proof. intros (_ & H) ->. change (code sl) with 47%N in H. lia. Qed.
Lemma spells_mid : forall e p, spells e p -> forall a b, e = a ++ sl :: b -> exists q r, spells a q /\ spells b r /\ p = q ++ sl :: r.
Proof.
  induction 1 as [|c e p Hc Hs IH|x y vx vy e p Hx Hy Hs IH]; intros a b E.
  - destruct a; discriminate.
  - destruct a as [|c' a]; cbn [app] in E.
    + injection E as -> ->. exists [], p. split; [constructor|]. auto.
    + injection E as -> E. destruct (IH a b E) as (q & r & S1 & S2 & ->). exists (c' :: q), r. split; [now constructor|]. auto.
  - destruct a as [|c1 [|c2 [|c3 a]]]; cbn [app] in E.
    + discriminate.
    + injection E as _ -> _. exfalso. exact (hex_not_slash _ _ Hx eq_refl).
    + injection E as _ _ -> _. exfalso. exact (hex_not_slash _ _ Hy eq_refl).
    + injection E as <- <- <- E. destruct (IH a b E) as (q & r & S1 & S2 & ->). exists (chr (16 * vx + vy) :: q), r. split; [now constructor|]. auto.
Qed.
Lemma spells_dot w : w = B "." \/ w = B ".." -> spells w w.
Proof. intros [->| ->]; repeat (constructor; [discriminate|]); constructor. Qed.
Lemma spells_fun e p q : spells e p -> spells e q -> p = q.
Proof. intros H1 H2. apply unescape_iff in H1, H2. congruence. Qed.
Lemma spells_clean e p : spells e p -> begins e -> clean p -> clean e.
Proof.
  intros Hs Hb (_ & C2 & C3). split; [exact Hb|]. split.
  - intros a b E. destruct (spells_mid _ _ Hs a (sl :: b) E) as (q & r & _ & S2 & ->). destruct (spells_mid _ _ S2 [] b eq_refl) as (q' & r' & S3 & _ & ->). inversion S3; subst. exact (C2 q r' eq_refl).
  - intros a b w Hw. split; intros E.
    + destruct (spells_mid _ _ Hs a w E) as (q & r & _ & S2 & ->). rewrite (spells_fun _ _ _ S2 (spells_dot w Hw)) in C3. exact (proj1 (C3 q [] w Hw) eq_refl).
    + destruct (spells_mid _ _ Hs a (w ++ sl :: b) E) as (q & r & _ & S2 & ->). destruct (spells_mid _ _ S2 w b eq_refl) as (q' & r' & S3 & _ & ->).
      rewrite (spells_fun _ _ _ S3 (spells_dot w Hw)) in C3. exact (proj2 (C3 q r' w Hw) eq_refl).
Qed.
Lemma begins_spelled e p : spells e p -> begins e -> begins p.
Proof. intros Hs [r ->]. destruct (spells_mid _ _ Hs [] r eq_refl) as (q & t & S1 & _ & ->). inversion S1; subst. exists t. reflexivity. Qed.

(* ---- resolvePath ---- *)
Lemma round_plain str x : ~ dot x -> round (str, false) x = (str ++ sl :: x, false).
Proof.
  intros H. unfold round. destruct (beqb x (B ".")) eqn:E1; [apply beqb_eq in E1; exfalso; apply H; now left|].
  destruct (beqb x (B "..")) eqn:E2; [apply beqb_eq in E2; exfalso; apply H; now right|]. reflexivity.
Qed.
Lemma round_all : forall l str, (forall x, In x l -> ~ dot x) -> fold_left round l (str, false) = (str ++ join l, false).
Proof.
  induction l as [|x l IH]; intros str H; [cbn; now rewrite app_nil_r|]. cbn [fold_left]. rewrite round_plain; [|apply H; now left]. rewrite IH; [|intros y Hy; apply H; now right].
  change (join (x :: l)) with ((sl :: x) ++ join l). now rewrite <- app_assoc.
Qed.
Lemma in_last (l : list bytes) d : l <> [] -> In (last l d) l.
Proof. intros H. destruct (exists_last H) as (a & z & ->). rewrite last_last. apply in_app_iff. right. now left. Qed.
Lemma resolve_clean b e : clean e -> resolvePath b e = e.
Proof.
  intros C. destruct (proj1 C) as [r ->]. change (B "/" ++ r) with (sl :: r) in *. apply clean_okl in C. destruct C as [O _]. unfold resolvePath. cbv zeta.
  change (is_slash sl) with true. cbv iota. rewrite segs_slash. cbn [fold_left]. change (round ([], true) []) with (@nil ascii, false).
  rewrite round_all by exact O. cbn [fst app]. rewrite join_segs.
  match goal with |- context [beqb ?z (B ".")] => assert (L : z = last (segs r) []) by (destruct (segs r) eqn:E; [destruct (segs_nil r E)|reflexivity]); rewrite L end.
  assert (N : ~ dot (last (segs r) [])) by (apply O, in_last, segs_nil).
  destruct (beqb (last (segs r) []) (B ".")) eqn:E1; [apply beqb_eq in E1; exfalso; apply N; now left|].
  destruct (beqb (last (segs r) []) (B "..")) eqn:E2; [apply beqb_eq in E2; exfalso; apply N; now right|].
  cbn [orb]. rewrite app_nil_r. reflexivity.
Qed.

(* ---- C136: which request Client.API makes ---- *)
Lemma sends base u us host p : server_at base host -> only_path u -> path_is u p -> clean p -> request (Some base) (u :: us) = Sent host p.
Proof.
  intros (S1 & S2 & S3) (O1 & O2 & O3 & O4) (P1 & P2) C. assert (Ce := spells_clean _ _ P2 P1 C). unfold request, resolve. rewrite O1, O2, O3, O4. cbn [beqb negb orb].
  rewrite (resolve_clean _ _ Ce). unfold send. cbn [u_scheme u_host u_esc]. assert (H : beqb (u_scheme base) (B "http") || beqb (u_scheme base) (B "https") = true) by (destruct S1 as [->| ->]; reflexivity).
  rewrite H. cbn [negb]. rewrite S2. destruct host as [|c host]; [destruct (S3 eq_refl)|]. apply unescape_iff in P2. rewrite P2. destruct (proj1 C) as [r ->]. reflexivity.
Qed.
(* An operation that is registered without an error is the one that a client of that server calls: for every history of calls without hosts
   before and after, every server and every first url that is an absolute path with nothing to clean, however it is escaped; as long as no
   other call has taken the documentation of the path. *)
Theorem C136_partial : forall cs k u us ok base host name p, no_hosts cs -> nth_error cs k = Some (Register (Some (map Path (u :: us))) ok) ->
  path_is u p -> only_path u -> clean p -> documented (after cs) p (3 + k) -> server_at base host ->
  request (Some base) (u :: us) = Sent host p /\ dispatch (mx (after cs)) name p = To (3 + k).
Proof.
  intros cs k u us ok base host name p NH E P O C D S. split; [exact (sends base u us host p S O P C)|]. exact (proj1 (C120_partial cs name p (3 + k) NH D C)).
Qed.
Print Assumptions C136_partial.
(* and when the last call is its registration, nothing has to be said about the documentation *)
Theorem C136_done : forall cs u us ok t base host name p, no_hosts cs -> (forall q, In q (map Path (u :: us)) -> begins q) ->
  step (after cs) (3 + length cs) (Register (Some (map Path (u :: us))) ok) = (t, Done) ->
  path_is u p -> only_path u -> clean p -> server_at base host ->
  request (Some base) (u :: us) = Sent host p /\ dispatch (mx t) name p = To (3 + length cs).
Proof.
  intros cs u us ok t base host name p NH BQ E P O C S. split; [exact (sends base u us host p S O P C)|].
  set (c := Register (Some (map Path (u :: us))) ok) in *.
  assert (At : after (cs ++ [c]) = t).
  { unfold after. assert (R : forall l s n, run s n (l ++ [c]) = fst (step (run s n l) (n + length l) c)).
    { induction l as [|x l IH]; intros s n; cbn [app run length]; [now rewrite Nat.add_0_r|]. rewrite IH. f_equal. f_equal. lia. }
    rewrite R. change (run NewServer 3 cs) with (after cs). now rewrite E. }
  rewrite <- At. apply C120_partial; [|rewrite At|exact C].
  - intros x q Hx Hq. apply in_app_iff in Hx as [Hx|[<-|[]]]; [exact (NH x q Hx Hq)|]. right. exact (BQ q Hq).
  - apply (C122_done cs (map Path (u :: us)) ok t E). left. unfold Path. destruct P as [_ P]. apply unescape_iff in P. now rewrite P.
Qed.
Print Assumptions C136_done.
(* The path of BaseUrl makes no difference: operations below a prefix are not found. *)
Theorem C136_prefix_refuted : forall base esc u us p host, server_at base host -> only_path u -> path_is u p -> clean p ->
  request (Some (Url (u_scheme base) (u_opaque base) (u_user base) (u_host base) esc (u_query base))) (u :: us) = Sent host p.
Proof. intros base esc u us p host S O P C. apply sends; auto. Qed.
Print Assumptions C136_prefix_refuted.
(* An url with a host is asked there, whatever BaseUrl is. *)
Theorem C136_host_refuted : forall base u us host path, u_host u = host -> host <> [] -> u_scheme u = B "http" -> path_is u path -> clean path ->
  request (Some base) (u :: us) = Sent host path.
Proof.
  intros base u us host path H1 H2 H3 (P1 & P2) C. unfold request, resolve. rewrite H3. cbn [beqb negb orb]. change (negb (beqb (B "http") [])) with true. cbn [orb].
  unfold send. cbn [u_scheme u_host u_esc]. change (negb (beqb (B "http") (B "http") || beqb (B "http") (B "https"))) with false. cbv iota. rewrite H1.
  destruct host as [|c host]; [destruct (H2 eq_refl)|].
  assert (R : resolvePath (u_esc u) [] = u_esc u).
  { rewrite <- (resolve_clean [] (u_esc u) (spells_clean _ _ P2 P1 C)) at 2. unfold resolvePath. destruct P1 as [r ->]. reflexivity. }
  rewrite R. apply unescape_iff in P2. rewrite P2. destruct (proj1 C) as [r ->]. reflexivity.
Qed.
Print Assumptions C136_host_refuted.
(* Client.API panics exactly for an object without an url; without BaseUrl it gets nowhere with a path. *)
Theorem C136_panics_refuted : forall base urls, (request base urls = Panics <-> urls = []) /\
  (forall u us, only_path u -> request None (u :: us) = Refused).
Proof.
  intros base urls. split.
  - split; [|intros ->; reflexivity]. destruct urls as [|u us]; [reflexivity|]. intros H. exfalso. cbn [request] in H. destruct base; unfold send in H; match type of H with context [if ?b then _ else _] => destruct b; [discriminate|] end;
      match type of H with context [match ?h with [] => _ | _ => _ end] => destruct h; discriminate end.
  - intros u us (H & _). cbn [request]. unfold send. rewrite H. reflexivity.
Qed.
Print Assumptions C136_panics_refuted.
(* A path with something to clean is registered as it is, but asked for clean, so that another operation may answer. *)
Theorem C136_other_refuted : exists cs u1 u2 base, no_hosts cs /\ cs = [Register (Some (map Path [u1])) true; Register (Some (map Path [u2])) true] /\
  only_path u1 /\ only_path u2 /\ Path u1 = B "/api/../x" /\ Path u2 = B "/x" /\ documented (after cs) (Path u1) 3 /\ documented (after cs) (Path u2) 4 /\
  request (Some base) [u1] = Sent (B "h") (B "/x") /\ dispatch (mx (after cs)) (B "h") (B "/x") = To 4.
Proof.
  exists [Register (Some [B "/api/../x"]) true; Register (Some [B "/x"]) true], (Url [] [] false [] (B "/api/../x") []), (Url [] [] false [] (B "/x") []), (Url (B "http") [] false (B "h") [] []).
  split. { intros c p [<-|[<-|[]]] [<-|[]]; right; [exists (B "api/../x")|exists (B "x")]; reflexivity. }
  repeat split; reflexivity.
Qed.
Print Assumptions C136_other_refuted.
Example C136_ex : let u := Url [] [] false [] (B "/a%20b/c") (B "q=1") in let cs := [Handle (B "/"); Register (Some (map Path [u])) true; Raw [B "/a b/"]] in
  no_hosts cs /\ nth_error cs 1 = Some (Register (Some (map Path [u])) true) /\ path_is u (B "/a b/c") /\ only_path u /\ clean (B "/a b/c") /\
  documented (after cs) (B "/a b/c") 4 /\ server_at (Url (B "https") [] false (B "h:80") (B "/v1/") []) (B "h:80") /\
  request (Some (Url (B "https") [] false (B "h:80") (B "/v1/") [])) [u] = Sent (B "h:80") (B "/a b/c") /\ dispatch (mx (after cs)) (B "h") (B "/a b/c") = To 4.
Proof.
  cbv zeta. split. { intros c p [<-|[<-|[<-|[]]]] [<-|[]]; right; [exists []|exists (B "a b/c")|exists (B "a b/")]; reflexivity. }
  split; [reflexivity|]. split. { split; [exists (B "a%20b/c"); reflexivity|]. apply unescape_iff. reflexivity. }
  split; [repeat split|]. split; [apply clean_iff; reflexivity|]. split; [reflexivity|]. split; [split; [now right|split; [reflexivity|discriminate]]|]. split; reflexivity.
Qed.
