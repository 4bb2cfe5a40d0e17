(* Proofs about HTTP. *)
From Coq Require Import Bool Ascii String Arith NArith ZArith Lia List.
From Verif Require Import Prelude PreludeFacts Utf8Model Utf8Facts QuoteModel DecModel DecFacts DurModel DurProofs EncModel JsonModel KvSpec JsonSpec JsonFacts JsonProofs CtxModel ErrModel ErrSpec ErrProofs MarModel MarSpec ConfModel ConfSpec ApiModel ApiSpec HttpModel HttpSpec.
Import ListNotations.

(* ---- response ---- *)
Lemma resp_locked l : forall c, c <> 0%Z -> resp c l = (c, filter (fun o => negb (is_status o)) l).
Proof.
  induction l as [|o l IH]; intros c Hc; cbn [resp filter]; auto. apply Z.eqb_neq in Hc as Hb.
  destruct o as [d|b|k v]; cbn [resp1 is_status negb]; rewrite ?Hb, IH by auto; reflexivity.
Qed.
Lemma filter_nowh l : filter is_status (filter (fun o => negb (is_status o)) l) = [].
Proof. induction l as [|o l IH]; cbn; auto. destruct (is_status o) eqn:E; cbn; auto. now rewrite E. Qed.
Lemma filter_idem {A} (f : A -> bool) l : filter f (filter f l) = filter f l.
Proof. induction l as [|o l IH]; cbn; auto. destruct (f o) eqn:E; cbn; auto. rewrite E. congruence. Qed.
Lemma resp_settles l e c : settles l e c -> c <> 0%Z ->
  fst (resp 0 l) = c /\ filter is_status (snd (resp 0 l)) = (if e then [WriteHeader c] else []) /\
  resp 0 (snd (resp 0 l)) = resp 0 l /\ settles (snd (resp 0 l)) e c.
Proof.
  intros H Hc. induction H as [d l|b l|k v l e c H IH].
  - cbn [resp resp1]. change (0 =? 0)%Z with true. cbv iota. rewrite resp_locked by auto. cbn [fst snd app filter is_status]. rewrite filter_nowh.
    repeat split; try constructor. cbn [resp resp1]. change (0 =? 0)%Z with true. cbv iota. rewrite resp_locked, filter_idem by auto. reflexivity.
  - cbn [resp resp1]. change (0 =? 0)%Z with true. cbv iota. rewrite resp_locked by discriminate. cbn [fst snd app filter is_status]. rewrite filter_nowh.
    repeat split; try constructor. cbn [resp resp1]. change (0 =? 0)%Z with true. cbv iota. rewrite resp_locked, filter_idem by discriminate. reflexivity.
  - destruct (IH Hc) as (I1 & I2 & I3 & I4). cbn [resp resp1]. destruct (resp 0 l) as [c2 o2] eqn:E. cbn [fst snd app filter is_status] in *.
    repeat split; auto; [|now constructor]. cbn [resp resp1]. rewrite I3. reflexivity.
Qed.
Lemma settles_or l : (exists e c, settles l e c) \/ Forall (fun o => exists k v, o = AddHeader k v) l.
Proof.
  induction l as [|o l IH]; [right; constructor|]. destruct o as [c|b|k v]; [left; exists true, c; constructor|left; exists false, 200%Z; constructor|].
  destruct IH as [(e & c & H)|H]; [left; exists e, c; now constructor|right; constructor; eauto].
Qed.
Lemma resp_silent l : Forall (fun o => exists k v, o = AddHeader k v) l -> resp 0 l = (0%Z, l).
Proof. induction 1 as [|o l (k & v & ->) H IH]; cbn [resp resp1]; auto. now rewrite IH. Qed.
(* what is not WriteHeader is passed on *)
Lemma resp_passes l : forall c, filter (fun o => negb (is_status o)) (snd (resp c l)) = filter (fun o => negb (is_status o)) l.
Proof.
  induction l as [|o l IH]; intros c; cbn [resp filter]; auto. destruct (resp1 c o) as [c1 o1] eqn:E1. specialize (IH c1). destruct (resp c1 l) as [c2 o2]. cbn [snd] in *.
  rewrite filter_app, IH. destruct o as [d|b|k v]; cbn [resp1 is_status negb] in *; [destruct (c =? 0)%Z| |]; injection E1 as <- <-; reflexivity.
Qed.

(* ---- net/http ---- *)
Lemma net_sent_stays n o : n_sent n <> None -> n_sent (fst (net_call n o)) = n_sent n.
Proof.
  intros H. destruct o as [c|b|k v]; cbn [net_call fst]; auto.
  - unfold net_header. destruct (n_sent n) eqn:E; [|congruence]. now cbn [fst].
  - unfold net_write, net_header. destruct (n_sent n) as [[c h]|] eqn:E; [|congruence]. cbn [fst]. rewrite E. destruct (no_body c || n_head n); cbn [n_sent]; auto.
Qed.
Lemma net_all_sent l : forall n, n_sent n <> None -> n_sent (net_all n l) = n_sent n.
Proof.
  induction l as [|o l IH]; intros n H; cbn [net_all fold_left]; auto. fold (net_all (fst (net_call n o)) l).
  rewrite IH; rewrite net_sent_stays; auto.
Qed.
Lemma net_all_settles l e c : settles l e c -> final c -> forall n, n_sent n = None -> exists h, n_sent (net_all n l) = Some (c, h).
Proof.
  intros H Hf. induction H as [d l|b l|k v l e c H IH]; intros n Hn; cbn [net_all fold_left].
  - fold (net_all (fst (net_call n (WriteHeader d))) l). assert (E : n_sent (fst (net_call n (WriteHeader d))) = Some (d, n_hdr n)).
    { cbn [net_call]. unfold net_header. rewrite Hn. destruct Hf as [->|Hf]; [reflexivity|].
      replace ((d <? 100) || (999 <? d))%Z with false by lia. replace ((d <=? 199) && negb (d =? 101))%Z with false by lia. reflexivity. }
    exists (n_hdr n). rewrite net_all_sent; rewrite E; congruence.
  - fold (net_all (fst (net_call n (Write b))) l). assert (E : n_sent (fst (net_call n (Write b))) = Some (200%Z, n_hdr n)).
    { cbn [net_call fst]. unfold net_write, net_header. rewrite Hn. cbn [Z.ltb Z.compare Pos.compare Pos.compare_cont orb Z.leb andb fst n_sent n_head].
      destruct (no_body 200 || n_head n); reflexivity. }
    exists (n_hdr n). rewrite net_all_sent; rewrite E; congruence.
  - fold (net_all (fst (net_call n (AddHeader k v))) l). apply IH; auto.
Qed.
Lemma net_run_all l : forall n n', net_run n l = (n', false) -> n' = net_all n l.
Proof.
  induction l as [|o l IH]; intros n n'; cbn [net_run net_all fold_left]; [congruence|]. destruct (net_call n o) as [m p]. destruct p; [discriminate|]. intros H. now apply IH.
Qed.
Lemma finish_status n : status_of (finish n) = match n_sent n with Some (c, _) => Some c | None => Some 200%Z end.
Proof. unfold finish. destruct (n_sent n) as [[c h]|]; reflexivity. Qed.

(* ---- texts ---- *)
Lemma prefixb_iff p : forall s, prefixb p s = true <-> exists r, s = p ++ r.
Proof.
  induction p as [|x p IH]; intros s; cbn [prefixb]; [split; [intros _; exists s; reflexivity|auto]|]. destruct s as [|y s]; cbn [app].
  { split; [discriminate|]. intros (r & H). discriminate H. }
  rewrite andb_true_iff, N.eqb_eq, IH. split.
  - intros (E & r & ->). exists r. apply code_inj in E. now subst.
  - intros (r & E). injection E as -> ->. eauto.
Qed.
Lemma containsb_iff p : forall s, containsb p s = true <-> includes s p.
Proof.
  induction s as [|c s IH]; cbn [containsb]; rewrite orb_true_iff, prefixb_iff.
  - split; [intros [(r & H)|H]; [exists [], r; auto|discriminate]|]. intros (a & b & H). left. exists b. destruct a; [auto|discriminate].
  - rewrite IH. split.
    + intros [(r & H)|(a & b & ->)]; [exists [], r; auto|]. exists (c :: a), b. reflexivity.
    + intros (a & b & H). destruct a as [|x a]; [left; exists b; auto|]. injection H as -> ->. right. exists a, b. reflexivity.
Qed.

(* ---- the JSON of an error ---- *)
Section Says.
  Context (short : bool).
  Local Open Scope N_scope.
  Lemma pvalue_str f d s rest : pvalue (S f) d (jstr short s ++ rest) = Some (JStr (cleaned s), rest).
  Proof.
    destruct (pstring_jstr short s rest) as (q & -> & Hq). cbn [app pvalue]. rewrite ws_cons by reflexivity.
    change (code dquote =? 123) with false. change (code dquote =? 91) with false. change (code dquote =? 34) with true. cbv iota. now rewrite Hq.
  Qed.
  Lemma pmember f d acc k s x rest : x = 44 \/ x = 125 ->
    pmembers (S (S f)) d acc (jstr short k ++ B ":" ++ jstr short s ++ chr x :: rest) =
    (if x =? 44 then pmembers (S f) d (mset beqb acc (cleaned k) (JStr (cleaned s))) rest else Some (JObj (mset beqb acc (cleaned k) (JStr (cleaned s))), rest)).
  Proof.
    intros Hx. change (pmembers (S (S f)) d acc (jstr short k ++ B ":" ++ jstr short s ++ chr x :: rest)) with
      (match eat 34 (ws (jstr short k ++ B ":" ++ jstr short s ++ chr x :: rest)) with None => None | Some t => match pstring t with None => None | Some (k0, r) =>
         match eat 58 (ws r) with None => None | Some r1 => match pvalue (S f) d r1 with None => None | Some (v, r2) => match ws r2 with
           | c :: r3 => if code c =? 44 then pmembers (S f) d (mset beqb acc k0 v) r3 else if code c =? 125 then Some (JObj (mset beqb acc k0 v), r3) else None | [] => None end end end end end).
    destruct (pstring_jstr short k (B ":" ++ jstr short s ++ chr x :: rest)) as (q & -> & Hq). cbn [app]. rewrite ws_cons by reflexivity.
    cbn [eat]. change (code dquote =? 34) with true. cbv iota. rewrite Hq. change (B ":" ++ jstr short s ++ chr x :: rest) with (chr 58 :: jstr short s ++ chr x :: rest).
    rewrite ws_cons by reflexivity. cbn [eat]. change (code (chr 58) =? 58) with true. cbv iota. rewrite pvalue_str.
    destruct Hx as [-> | ->]; rewrite ws_cons by reflexivity; reflexivity.
  Qed.
End Says.
Lemma says1 short k s : cleaned k = k -> says (jmap short [(k, s)]) [(k, s)].
Proof.
  intros Hk. unfold says, jmap. cbn [map fst snd]. cbn [jenc map ksort fold_right insert fst snd group join colon nl app].
  set (j := _ :: _). assert (Hj : j = chr 123 :: jstr short k ++ B ":" ++ jstr short s ++ chr 125 :: []).
  { subst j. unfold group, nl, colon. cbn [app join]. rewrite <- !app_assoc. reflexivity. }
  unfold Decode. rewrite Hj at 1. rewrite Hj. cbv iota. set (r := jstr short k ++ _). replace (2 * length (chr 123 :: r) + 2)%nat with (S (S (S (2 * length r + 1)))) by (cbn [length]; lia).
  set (m := (2 * length r + 1)%nat).
  change (pvalue (S (S (S m))) 0 (chr 123 :: r)) with (match ws (chr 123 :: r) with [] => None | c :: t =>
    if (code c =? 123)%N then if (maxdepth <=? 0)%nat then None else match eat 125 (ws t) with Some r => Some (JObj [], r) | None => pmembers (S (S m)) 1 [] t end else pvalue (S (S (S m))) 0 (c :: t) end).
  rewrite ws_cons by reflexivity. change (code (chr 123) =? 123)%N with true. cbv iota.
  replace (maxdepth <=? 0)%nat with false by reflexivity.
  assert (He : eat 125 (ws r) = None). { subst r. unfold jstr. cbn [app]. rewrite ws_cons by reflexivity. reflexivity. }
  rewrite He. subst r. rewrite pmember by auto. rewrite Hk. reflexivity.
Qed.
Lemma says2 short s t : says (jmap short [(B "error", s); (B "tracking", t)]) [(B "error", s); (B "tracking", t)].
Proof.
  unfold says, jmap. cbn [map fst snd].
  set (j := jenc _ _ _ _). assert (Hj : j = chr 123 :: jstr short (B "error") ++ B ":" ++ jstr short s ++ chr 44 :: jstr short (B "tracking") ++ B ":" ++ jstr short t ++ chr 125 :: []).
  { subst j. cbn [jenc map fst snd]. change (ksort [(B "error", jstr short s); (B "tracking", jstr short t)]) with [(B "error", jstr short s); (B "tracking", jstr short t)].
    cbn [map fst snd]. unfold group, nl, colon. cbn [app join]. rewrite <- !app_assoc. cbn [app]. rewrite <- !app_assoc. reflexivity. }
  unfold Decode. rewrite Hj at 1. rewrite Hj. cbv iota. set (r := jstr short (B "error") ++ _). replace (2 * length (chr 123 :: r) + 2)%nat with (S (S (S (S (2 * length r))))) by (cbn [length]; lia).
  set (m := (2 * length r)%nat).
  change (pvalue (S (S (S (S m)))) 0 (chr 123 :: r)) with (match ws (chr 123 :: r) with [] => None | c :: t =>
    if (code c =? 123)%N then if (maxdepth <=? 0)%nat then None else match eat 125 (ws t) with Some r => Some (JObj [], r) | None => pmembers (S (S (S m))) 1 [] t end else pvalue (S (S (S (S m)))) 0 (c :: t) end).
  rewrite ws_cons by reflexivity. change (code (chr 123) =? 123)%N with true. cbv iota.
  replace (maxdepth <=? 0)%nat with false by reflexivity.
  assert (He : eat 125 (ws r) = None). { subst r. unfold jstr. cbn [app]. rewrite ws_cons by reflexivity. reflexivity. }
  rewrite He. subst r. rewrite pmember by auto. change (44 =? 44)%N with true. cbv iota. rewrite pmember by auto. change (125 =? 44)%N with false. cbv iota.
  change (cleaned (B "error")) with (B "error"). change (cleaned (B "tracking")) with (B "tracking"). reflexivity.
Qed.

(* ---- the replies of handleRequest ---- *)
Lemma net_header_final n c : final c -> n_sent n = None -> net_header n c = (Net (n_head n) (n_hdr n) (n_info n) (Some (c, n_hdr n)) (n_body n), false).
Proof.
  intros Hf Hn. unfold net_header. rewrite Hn. destruct Hf as [->|Hf]; [reflexivity|].
  replace ((c <? 100) || (999 <? c))%Z with false by lia. replace ((c <=? 199) && negb (c =? 101))%Z with false by lia. reflexivity.
Qed.
Lemma net_write_sent n c h b : n_sent n = Some (c, h) -> no_body c = false -> n_head n = false -> net_write n b = Net false (n_hdr n) (n_info n) (Some (c, h)) (n_body n ++ b).
Proof. intros H1 H2 H3. unfold net_write, net_header. rewrite H1. cbn [fst]. rewrite H1, H2, H3. reflexivity. Qed.
Lemma bodied_final c : bodied c -> final c /\ no_body c = false.
Proof. intros (H1 & H2 & H3). unfold final, no_body. split; [lia|]. lia. Qed.
Lemma resp_wh2 c b : c <> 0%Z -> resp 0 [WriteHeader c; Write b] = (c, [WriteHeader c; Write b]).
Proof. intros H. cbn [resp resp1]. change (0 =? 0)%Z with true. cbv iota. replace (c =? 0)%Z with false by lia. reflexivity. Qed.
Lemma run_status_body q c b : bodied c -> beqb (q_method q) (B "HEAD") = false ->
  net_run (net0 q) [WriteHeader c; Write b] = (Net false [] [] (Some (c, [])) b, false).
Proof.
  intros Hb Hq. destruct (bodied_final c Hb) as [Hf Hn]. cbn [net_run net_call]. rewrite net_header_final by (auto; reflexivity).
  cbn [net0 n_head n_hdr n_info n_body]. rewrite Hq. rewrite (net_write_sent _ c []); auto.
Qed.
Lemma serve_status_body h q c b : h q = ([WriteHeader c; Write b], false) -> bodied c -> beqb (q_method q) (B "HEAD") = false ->
  serve None h q = (Reply [] c [] b, [(q_method q, q_path q, c)]).
Proof.
  intros Hh Hb Hq. unfold serve. rewrite Hh, resp_wh2 by (destruct Hb; lia). rewrite run_status_body by auto. reflexivity.
Qed.
Lemma handle_reads uh um st short gz tid f q b : reads q b -> handle_request uh um st short gz tid f q =
  match f b with HErr e => (fail uh um st short tid e, false) | HOut out => (done gz (q_accept q) out, false) | HPanic => ([], true) end.
Proof. unfold handle_request. intros [->|[-> ->]]; reflexivity. Qed.

(* writes of a body after the header *)
Lemma run_writes l : forall n c h, n_sent n = Some (c, h) -> no_body c = false -> n_head n = false ->
  net_run n (map Write l) = (Net false (n_hdr n) (n_info n) (Some (c, h)) (n_body n ++ concat l), false).
Proof.
  induction l as [|b l IH]; intros n c h H1 H2 H3; cbn [map net_run concat].
  - rewrite app_nil_r. destruct n; cbn in *; subst. reflexivity.
  - cbn [net_call]. rewrite (net_write_sent n c h b) by auto. rewrite (IH _ c h) by auto. cbn [n_hdr n_info n_body]. now rewrite app_assoc.
Qed.
Lemma run_first_writes l n : l <> [] -> n_sent n = None -> n_head n = false ->
  net_run n (map Write l) = (Net false (n_hdr n) (n_info n) (Some (200%Z, n_hdr n)) (n_body n ++ concat l), false).
Proof.
  intros Hl H1 H2. destruct l as [|b l]; [congruence|]. cbn [map net_run net_call concat]. unfold net_write. rewrite net_header_final by (auto; right; lia). cbn [fst n_sent].
  change (no_body 200) with false. cbn [n_head orb]. rewrite H2. rewrite (run_writes l _ 200%Z (n_hdr n)) by auto. cbn [n_hdr n_info n_body]. now rewrite app_assoc.
Qed.
Lemma resp_headers k v l c : resp c (AddHeader k v :: l) = (fst (resp c l), AddHeader k v :: snd (resp c l)).
Proof. cbn [resp resp1]. destruct (resp c l). reflexivity. Qed.
Lemma resp_writes l : forall c, l <> [] -> (c = 0 \/ c = 200)%Z -> resp c (map Write l) = (200%Z, map Write l).
Proof.
  induction l as [|b l IH]; intros c Hl Hc; [congruence|]. cbn [map resp resp1]. replace (if (c =? 0)%Z then 200%Z else c) with 200%Z by (destruct Hc as [->| ->]; reflexivity).
  destruct l as [|b' l]; [reflexivity|]. rewrite IH by (auto; discriminate). reflexivity.
Qed.

(* once the status is sent nothing panics *)
Lemma net_run_sent l : forall n c h, n_sent n = Some (c, h) -> exists n', net_run n l = (n', false) /\ n_sent n' = Some (c, h).
Proof.
  induction l as [|o l IH]; intros n c h H; cbn [net_run]; [eauto|]. assert (E : exists m, net_call n o = (m, false) /\ n_sent m = Some (c, h)).
  { pose proof (net_sent_stays n o) as Hs. rewrite H in Hs. specialize (Hs ltac:(discriminate)). destruct o as [d|b|k v]; cbn [net_call] in *; eauto.
    unfold net_header in *. rewrite H in *. eauto. }
  destruct E as (m & -> & Hm). eauto.
Qed.
Lemma net_run_settles l e c : settles l e c -> final c -> forall n, n_sent n = None -> exists n' h, net_run n l = (n', false) /\ n_sent n' = Some (c, h).
Proof.
  intros H Hf. induction H as [d l|b l|k v l e c H IH]; intros n Hn; cbn [net_run].
  - cbn [net_call]. rewrite net_header_final by auto. destruct (net_run_sent l (Net (n_head n) (n_hdr n) (n_info n) (Some (d, n_hdr n)) (n_body n)) d (n_hdr n)) as (n' & H1 & H2); eauto.
  - cbn [net_call]. assert (E : n_sent (net_write n b) = Some (200%Z, n_hdr n)).
    { unfold net_write. rewrite net_header_final by auto. cbn [fst n_sent n_head]. destruct (no_body 200 || n_head n); reflexivity. }
    destruct (net_run_sent l _ _ _ E) as (n' & H1 & H2). eauto.
  - cbn [net_call]. apply IH; auto.
Qed.
Lemma final_nz c : final c -> c <> 0%Z.
Proof. unfold final. lia. Qed.
Lemma serve_settles p h q l e c : h q = (l, false) -> settles l e c -> final c ->
  exists r, serve p h q = (r, match p with None => [(q_method q, q_path q, c)] | Some x => [(q_method q, x, c); (q_method q, q_path q, c)] end) /\ status_of r = Some c.
Proof.
  intros Hh Hs Hf. destruct (resp_settles l e c Hs (final_nz c Hf)) as (R1 & _ & R3 & R4).
  destruct (net_run_settles _ e c R4 Hf (net0 q) eq_refl) as (n' & hd & N1 & N2). exists (finish n'). unfold serve. rewrite Hh.
  destruct (resp 0 l) as [c1 l1]. cbn [fst snd] in *. subst c1. rewrite finish_status, N2. destruct p; [rewrite R3|]; rewrite N1; auto.
Qed.
