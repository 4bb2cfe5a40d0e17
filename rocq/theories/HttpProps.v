(* Properties C42-C44, C78-C84: /repo/http/server.go, mux.go, call.go, api.go, client.go. *)
From Coq Require Import Bool Ascii String Arith NArith ZArith Lia List.
From Verif Require Import Prelude PreludeFacts Utf8Model Utf8Facts QuoteModel DecModel DecFacts DurModel DurProofs EncModel JsonModel KvSpec JsonSpec JsonFacts KvProofs JsonProofs CtxModel ErrModel ErrSpec ErrProofs ErrProps MarModel MarSpec MarFacts ConfModel ConfSpec ApiModel ApiSpec ApiProofs ApiCall ApiProps HttpModel HttpSpec HttpProofs.
Import ListNotations.

(* ---- C42 ---- *)
Section Errors.
  Context (uh : N -> option Z) (um : N -> bytes) (st : Z -> bytes) (short : bool) (gz : bytes -> list bytes) (tid : bytes).
  (* With a status of 500 or more, the reply and what is recorded depend on nothing else of the error, nor on how messages are
     made (um, st). *)
  Theorem C42_no_leak : forall um' st' f f' q b e e', reads q b -> f b = HErr e -> f' b = HErr e' ->
    ErrorCode uh (Some e) 500 = ErrorCode uh (Some e') 500 -> (500 <= ErrorCode uh (Some e) 500)%Z ->
    serve None (handle_request uh um st short gz tid f) q = serve None (handle_request uh um' st' short gz tid f') q.
  Proof.
    intros um' st' f f' q b e e' Hr Hf Hf' Hc Hge. unfold serve. rewrite !(handle_reads _ _ _ _ _ _ _ _ _ Hr), Hf, Hf'. unfold fail. rewrite <- Hc.
    replace (ErrorCode uh (Some e) 500 <? 500)%Z with false by lia. reflexivity.
  Qed.
  (* Full statement: the message is in the body for each status below 500, the tracking id in any case.  Here for statuses that
     have a body, and methods other than HEAD. *)
  Theorem C42_message_partial : forall f q b e, reads q b -> f b = HErr e -> q_method q <> B "HEAD" ->
    bodied (ErrorCode uh (Some e) 500) -> (ErrorCode uh (Some e) 500 < 500)%Z ->
    exists j, serve None (handle_request uh um st short gz tid f) q =
        (Reply [] (ErrorCode uh (Some e) 500) [] j, [(q_method q, q_path q, ErrorCode uh (Some e) 500)]) /\
      says j [(B "error", emsg um st e); (B "tracking", tid)].
  Proof.
    intros f q b e Hr Hf Hq Hb Hlt. exists (jmap short [(B "error", emsg um st e); (B "tracking", tid)]). split; [|apply says2].
    apply serve_status_body; auto; [|now apply beqb_neq]. rewrite (handle_reads _ _ _ _ _ _ _ _ _ Hr), Hf. unfold fail. replace (ErrorCode uh (Some e) 500 <? 500)%Z with true by lia. reflexivity.
  Qed.
  Theorem C42_internal_partial : forall f q b e, reads q b -> f b = HErr e -> q_method q <> B "HEAD" ->
    (500 <= ErrorCode uh (Some e) 500 <= 999)%Z ->
    exists j, serve None (handle_request uh um st short gz tid f) q =
        (Reply [] (ErrorCode uh (Some e) 500) [] j, [(q_method q, q_path q, ErrorCode uh (Some e) 500)]) /\
      says j [(B "tracking", tid)].
  Proof.
    intros f q b e Hr Hf Hq Hb. exists (jmap short [(B "tracking", tid)]). split; [|now apply says1].
    apply serve_status_body; [|unfold bodied; lia|now apply beqb_neq]. rewrite (handle_reads _ _ _ _ _ _ _ _ _ Hr), Hf. unfold fail. replace (ErrorCode uh (Some e) 500 <? 500)%Z with false by lia. reflexivity.
  Qed.
  (* http.Error{304, err}: no body; {103, err}: 200 with the message; {0, err} (or 1000): no reply at all *)
  Theorem C42_status_refuted : forall e, let f := fun c (_ : bytes) => HErr (EHttp c (Some e)) in let q := HReq (B "GET") (B "/x") [] None None in
    serve None (handle_request uh um st short gz tid (f 304%Z)) q = (Reply [] 304 [] [], [(B "GET", B "/x", 304%Z)]) /\
    serve None (handle_request uh um st short gz tid (f 103%Z)) q =
      (Reply [103%Z] 200 [] (jmap short [(B "error", B "103 " ++ emsg um st e); (B "tracking", tid)]), [(B "GET", B "/x", 103%Z)]) /\
    serve None (handle_request uh um st short gz tid (f 0%Z)) q = (Broken, []) /\
    serve None (handle_request uh um st short gz tid (f 1000%Z)) q = (Broken, []).
  Proof. intros e f q. repeat split. Qed.
  (* The handlers of call.go send nothing of the error but the status. *)
  Theorem C42_call : forall maxlength q l l' e e', ErrorCode uh (Some e) 500 = ErrorCode uh (Some e') 500 ->
    serve None (call_handler uh maxlength (Some (l, Some e))) q = serve None (call_handler uh maxlength (Some (l', Some e'))) q.
  Proof. intros maxlength q l l' e e' Hc. unfold serve, call_handler. destruct (q_body q) as [[y|x]|]; rewrite ?Hc; reflexivity. Qed.
  (* and nothing that was written, nor anything else, is in its body *)
  Theorem C42_call_body : forall maxlength q l e r recs, (forall x, q_body q <> Some (inr x)) -> final (ErrorCode uh (Some e) 500) -> serve None (call_handler uh maxlength (Some (l, Some e))) q = (r, recs) ->
    r = Reply [] (ErrorCode uh (Some e) 500) [] [] /\ recs = [(q_method q, q_path q, ErrorCode uh (Some e) 500)].
  Proof.
    intros maxlength q l e r recs Hb Hc E. assert (Eh : call_handler uh maxlength (Some (l, Some e)) q = ([WriteHeader (ErrorCode uh (Some e) 500)], false)) by (unfold call_handler; destruct (q_body q) as [[y|x]|]; auto; now destruct (Hb x)).
    unfold serve in E. rewrite Eh in E. set (c := ErrorCode uh (Some e) 500) in *. clearbody c. cbn [resp resp1] in E. destruct (c =? 0)%Z eqn:E0; [apply Z.eqb_eq in E0; unfold final in Hc; lia|]. cbn [Z.eqb app net_run net_call] in E.
    rewrite net_header_final in E by auto. cbn in E. injection E as <- <-. auto.
  Qed.
End Errors.
Print Assumptions C42_no_leak.
Print Assumptions C42_message_partial.
Print Assumptions C42_internal_partial.
Print Assumptions C42_status_refuted.
Print Assumptions C42_call.
Print Assumptions C42_call_body.
Example C42_ex : let q := HReq (B "POST") (B "/x") [] None (Some (inl (B "{}"))) in
  let run e := fst (serve None (handle_request (fun _ => None) (fun _ => []) (fun _ => []) true (fun o => [o]) (B "id-1") (fun _ => HErr e)) q) in
  reads q (B "{}") /\ q_method q <> B "HEAD" /\
  run (EBase 0 (B "db password is hunter2")) = Reply [] 500 [] (jmap true [(B "tracking", B "id-1")]) /\
  run (EWrap 0 (B "x") (EHttp 501 (Some (EBase 0 (B "secret"))))) = Reply [] 501 [] (jmap true [(B "tracking", B "id-1")]) /\
  run (ECtx (EInfo [] None) (EHttp 404 (Some (EBase 0 (B "no bob"))))) = Reply [] 404 [] (B "{""error"":""404 no bob"",""tracking"":""id-1""}").
Proof. cbn zeta. split; [now left|]. split; [discriminate|]. repeat split. Qed.

(* ---- C43 ---- *)
(* Unless WriteHeader(0) is called: at most one status is passed on, the first, and none if a body comes first; everything else
   is passed on in order. *)
Theorem C43_once : forall l, ~ In (WriteHeader 0) l ->
  filter (fun o => negb (is_status o)) (snd (resp 0 l)) = filter (fun o => negb (is_status o)) l /\
  ((exists c, filter is_status (snd (resp 0 l)) = [WriteHeader c] /\ settles l true c) \/
   (filter is_status (snd (resp 0 l)) = [] /\ forall c, ~ settles l true c)).
Proof.
  intros l Hz. split; [apply resp_passes|]. assert (Hu : forall e c, settles l e c -> forall e' c', settles l e' c' -> e = e' /\ c = c').
  { clear Hz. induction 1 as [d l|b l|k v l e c H IH]; intros e' c' H'; inversion H'; subst; auto. }
  destruct (settles_or l) as [(e & c & Hs)|Hn].
  - assert (Hc : c <> 0%Z). { intros ->. apply Hz. clear -Hs. remember 0%Z as z eqn:Ez. induction Hs; subst; [now left|discriminate|right; auto]. }
    destruct (resp_settles l e c Hs Hc) as (_ & R2 & _). rewrite R2. destruct e; [left; eauto|right]. split; auto. intros c' H'. destruct (Hu _ _ Hs _ _ H'). discriminate.
  - right. rewrite resp_silent by auto. cbn [snd]. split.
    + clear -Hn. induction Hn as [|o l (k & v & ->) Hn IH]; auto.
    + intros c H. clear -Hn H. remember true as e eqn:Ee. induction H; inversion Hn as [|? ? (k' & v' & E) Hn']; subst; try discriminate. auto.
Qed.
Print Assumptions C43_once.
(* Full statement: for all calls.  Here if the first call that settles the status settles one that ends a response: it is the one
   sent, and the one recorded, also by both writers if the handler was registered with Handle. *)
Theorem C43_sent_partial : forall p h q l e c, h q = (l, false) -> settles l e c -> final c ->
  exists r, serve p h q = (r, match p with None => [(q_method q, q_path q, c)] | Some x => [(q_method q, x, c); (q_method q, q_path q, c)] end) /\ status_of r = Some c.
Proof. exact serve_settles. Qed.
Print Assumptions C43_sent_partial.
(* A handler that writes nothing: 200 is sent, 0 recorded. *)
Theorem C43_silent_refuted : forall q, serve None (fun _ => ([], false)) q = (Reply [] 200 [] [], [(q_method q, q_path q, 0%Z)]).
Proof. reflexivity. Qed.
Print Assumptions C43_silent_refuted.
(* Early hints: the status after them is dropped, 200 is sent instead, and 103 recorded. *)
Theorem C43_hints_refuted : forall q c b, q_method q <> B "HEAD" ->
  serve None (fun _ => ([WriteHeader 103; WriteHeader c; Write b], false)) q = (Reply [103%Z] 200 [] b, [(q_method q, q_path q, 103%Z)]).
Proof. intros q c b H. apply beqb_neq in H. unfold serve. cbn [resp resp1]. unfold net0. rewrite H. reflexivity. Qed.
Print Assumptions C43_hints_refuted.
(* WriteHeader(0) panics; a handler that recovers may send two. *)
Theorem C43_zero_refuted : forall c, snd (resp 0 [WriteHeader 0; WriteHeader c]) = [WriteHeader 0; WriteHeader c].
Proof. reflexivity. Qed.
Print Assumptions C43_zero_refuted.
Example C43_ex : let l := [AddHeader (B "a") (B "b"); WriteHeader 404; Write (B "x"); WriteHeader 200; Write (B "y")] in
  let q := HReq (B "GET") (B "/a/1") [] None None in
  ~ In (WriteHeader 0) l /\ settles l true 404 /\ final 404 /\
  serve (Some (B "/a/")) (fun _ => (l, false)) q = (Reply [] 404 [(B "a", B "b")] (B "xy"), [(B "GET", B "/a/", 404%Z); (B "GET", B "/a/1", 404%Z)]) /\
  settles [Write (B "x"); WriteHeader 404] false 200.
Proof.
  cbn zeta. split; [intros [H|[H|[H|[H|[H|[]]]]]]; discriminate|]. split; [repeat constructor|]. split; [right; lia|]. split; [reflexivity|constructor].
Qed.

(* ---- C44 ---- *)
Section Replies.
  Context (uh : N -> option Z) (um : N -> bytes) (st : Z -> bytes) (short : bool) (gz : bytes -> list bytes) (tid : bytes) (gunzip : bytes -> option bytes).
  Context (Hgz : forall o, gunzip (concat (gz o)) = Some o).
  (* Full statement: also that it is compressed only if the client may accept gzip.  Here: exactly if there are more than 16 KiB and
     the Accept header (not Accept-Encoding) has gzip in it. *)
  Theorem C44_reply_partial : forall f q b out, reads q b -> f b = HOut out -> q_method q <> B "HEAD" ->
    exists h body, fst (serve None (handle_request uh um st short gz tid f) q) = Reply [] (match out with [] => 204 | _ => 200 end)%Z h body /\
      content gunzip h body out /\ (zipped h <-> (16384 < N.of_nat (length out))%N /\ includes (q_accept q) (B "gzip")).
  Proof.
    intros f q b out Hr Hf Hq. apply beqb_neq in Hq. unfold serve. rewrite (handle_reads _ _ _ _ _ _ _ _ _ Hr), Hf. unfold done. change (16 * 1024)%N with 16384%N.
    destruct out as [|x out].
    { exists [], []. split; [reflexivity|]. split; [split; [intros []|reflexivity]|]. split; [intros []|cbn; lia]. }
    set (o := x :: out). destruct ((16384 <? N.of_nat (length o))%N && containsb (B "gzip") (q_accept q)) eqn:E.
    - apply andb_true_iff in E as [E1 E2]. apply N.ltb_lt in E1. apply containsb_iff in E2. rewrite !resp_headers. cbn [fst snd].
      set (h := [(B "Content-Type", B "application/json"); (B "Content-Encoding", B "gzip")]).
      assert (Hz : zipped h) by (right; now left). exists h, (concat (gz o)). split; [|split; [split; [auto|tauto]|tauto]].
      cbn [net_run net_call net0 n_head n_hdr n_info n_sent n_body app]. rewrite Hq. specialize (Hgz o). destruct (gz o) as [|y g] eqn:Eg.
      + reflexivity.
      + rewrite resp_writes by (auto; discriminate). cbn [snd]. rewrite run_first_writes by (auto; discriminate). reflexivity.
    - exists [(B "Content-Type", B "application/json")], o.
      assert (Hz : ~ zipped [(B "Content-Type", B "application/json")]) by (intros [Hz|[]]; discriminate).
      split; [|split; [split; [tauto|auto]|split; [tauto|]]].
      + rewrite resp_headers. cbn [resp resp1 fst snd app net_run net_call net0 n_head n_hdr n_info n_sent n_body]. rewrite Hq. reflexivity.
      + intros [E1 E2]. apply N.ltb_lt in E1. apply containsb_iff in E2. rewrite E1, E2 in E. discriminate.
  Qed.
  (* HEAD: the same without the body *)
  Theorem C44_head : forall f path accept enc body out b, reads (HReq (B "HEAD") path accept enc body) b -> f b = HOut out ->
    exists i c h x, fst (serve None (handle_request uh um st short gz tid f) (HReq (B "GET") path accept enc body)) = Reply i c h x /\
      fst (serve None (handle_request uh um st short gz tid f) (HReq (B "HEAD") path accept enc body)) = Reply i c h [].
  Proof.
    intros f path accept enc body out b Hr Hf. unfold serve. assert (Hr' : reads (HReq (B "GET") path accept enc body) b) by (destruct Hr as [H|H]; [now left|now right]).
    rewrite (handle_reads _ _ _ _ _ _ _ _ _ Hr), (handle_reads _ _ _ _ _ _ _ _ _ Hr'), Hf. cbn [q_accept].
    assert (Hrun : forall l n n', n_head n = false -> n_head n' = true -> n_hdr n = n_hdr n' -> n_info n = n_info n' -> n_sent n = n_sent n' -> n_body n' = [] ->
      match net_run n l, net_run n' l with (m, p), (m', p') => p = p' /\ n_hdr m = n_hdr m' /\ n_info m = n_info m' /\ n_sent m = n_sent m' /\ n_body m' = [] end).
    { clear. induction l as [|o l IH]; intros n n' A1 A2 A3 A4 A5 A6; cbn [net_run]; [auto|].
      destruct o as [c|y|k v]; cbn [net_call].
      - unfold net_header. rewrite <- A5, <- A3, <- A4. destruct (n_sent n) eqn:Es; [apply IH; congruence|].
        destruct ((c <? 100) || (999 <? c))%Z; [repeat split; congruence|].
        destruct ((c <=? 199) && negb (c =? 101))%Z; apply IH; auto.
      - assert (W : n_head (net_write n y) = false /\ n_head (net_write n' y) = true /\ n_hdr (net_write n y) = n_hdr (net_write n' y) /\ n_info (net_write n y) = n_info (net_write n' y) /\
          n_sent (net_write n y) = n_sent (net_write n' y) /\ n_body (net_write n' y) = []).
        { unfold net_write, net_header. rewrite <- A5. destruct (n_sent n) as [[c h]|] eqn:Es; cbn [fst].
          - rewrite <- A5, Es, A2, orb_true_r. destruct (no_body c || n_head n); cbn [n_head n_hdr n_info n_sent n_body]; repeat split; congruence.
          - change ((200 <? 100) || (999 <? 200))%Z with false. change ((200 <=? 199) && negb (200 =? 101))%Z with false. cbv iota. cbn [fst n_sent n_head n_hdr n_info n_body].
            rewrite A1, A2. cbn [no_body orb]. change (no_body 200) with false. cbn [orb n_head n_hdr n_info n_sent n_body]. repeat split; congruence. }
        destruct W as (W1 & W2 & W3 & W4 & W5 & W6). apply IH; auto.
      - apply IH; cbn [n_head n_hdr n_info n_sent n_body]; congruence. }
    destruct (resp 0 (done gz accept out)) as [c l] eqn:El. specialize (Hrun l (net0 (HReq (B "GET") path accept enc body)) (net0 (HReq (B "HEAD") path accept enc body)) eq_refl eq_refl eq_refl eq_refl eq_refl eq_refl).
    assert (Hs : exists e d, settles (done gz accept out) e d /\ final d \/ Forall (fun o => exists k v, o = AddHeader k v) (done gz accept out)).
    { unfold done. destruct out as [|y out]; [exists true, 204%Z; left; split; [constructor|right; lia]|].
      destruct ((16 * 1024 <? N.of_nat (length (y :: out)))%N && containsb (B "gzip") accept).
      - destruct (gz (y :: out)) as [|g gs]; [exists true, 0%Z; right; repeat constructor; eauto|]. exists false, 200%Z. left. split; [repeat constructor|right; lia].
      - exists false, 200%Z. left. split; [repeat constructor|right; lia]. }
    destruct Hs as (e & d & Hs).
    assert (Hp : snd (net_run (net0 (HReq (B "GET") path accept enc body)) l) = false).
    { destruct Hs as [[Hs Hd]|Hs].
      - destruct (resp_settles _ _ _ Hs (final_nz _ Hd)) as (_ & _ & _ & R4). rewrite El in R4. cbn [snd] in R4.
        destruct (net_run_settles _ _ _ R4 Hd (net0 (HReq (B "GET") path accept enc body)) eq_refl) as (n' & h & N1 & _). now rewrite N1.
      - rewrite resp_silent in El by auto. injection El as <- <-. clear -Hs. generalize (net0 (HReq (B "GET") path accept enc body)). induction Hs as [|o l (k & v & ->) Hs IH]; intros n; cbn [net_run net_call]; auto. }
    destruct (net_run (net0 (HReq (B "GET") path accept enc body)) l) as [m p], (net_run (net0 (HReq (B "HEAD") path accept enc body)) l) as [m' p']. cbn [snd] in Hp.
    destruct Hrun as (E1 & E2 & E3 & E4 & E5). subst p p'. cbn [orb fst]. unfold finish. rewrite <- E4. destruct (n_sent m) as [[d' h]|].
    - exists (n_info m), d', h, (n_body m). rewrite E3, E5. auto.
    - exists (n_info m), 200%Z, (n_hdr m), []. rewrite E3, E2. auto.
  Qed.
  (* More than 16 KiB, Accept: application/gzip, Accept-Encoding: identity *)
  Theorem C44_accept_refuted : forall f q b out, let q' := HReq (B "GET") (B "/x") (B "application/gzip") (Some (B "identity")) None in
    q = q' -> b = [] -> f b = HOut out -> (16384 < N.of_nat (length out))%N ->
    ~ may_gzip q /\ exists c h body, fst (serve None (handle_request uh um st short gz tid f) q) = Reply [] c h body /\ zipped h.
  Proof.
    intros f q b out q' -> -> Hf Hl. split.
    - intros H. destruct (H (B "identity") eq_refl) as [H1|H1]; [apply containsb_iff in H1; discriminate|].
      apply containsb_iff in H1. discriminate.
    - destruct (C44_reply_partial f q' [] out) as (h & body & H1 & H2 & H3); auto; [right; auto|discriminate|]. eexists _, h, body. split; [exact H1|]. apply H3. split; auto.
      apply containsb_iff. reflexivity.
  Qed.
  (* call.go: no compression *)
  Lemma leaves_cbody l b : leaves l b -> cbody l = b.
  Proof. induction 1 as [|l b x _ IH|l x]; unfold cbody in *; rewrite ?fold_left_app; cbn [fold_left]; [reflexivity|now rewrite IH|reflexivity]. Qed.
  Theorem C44_call : forall maxlength q l b, q_method q <> B "HEAD" -> (forall e, q_body q <> Some (inr e)) -> leaves l b ->
    serve None (call_handler uh maxlength (Some (l, None))) q =
      let c := match b with [] => 204%Z | _ => 200%Z end in (Reply [] c [] b, [(q_method q, q_path q, c)]).
  Proof.
    intros maxlength q l b Hq Hb Hl. apply leaves_cbody in Hl. subst b. apply beqb_neq in Hq. unfold serve, call_handler. destruct (q_body q) as [[y|e]|] eqn:E; [|now destruct (Hb e)|];
      destruct (cbody l); auto; cbn zeta; rewrite resp_wh2 by discriminate; rewrite run_status_body; auto; unfold bodied; lia.
  Qed.
End Replies.
Print Assumptions C44_reply_partial.
Print Assumptions C44_head.
Print Assumptions C44_accept_refuted.
Print Assumptions C44_call.
(* "compressed" by a letter in front *)
Example C44_ex : let gz := fun o : bytes => [B "z"; o] in let gunzip := fun b : bytes => match b with _ :: r => Some r | [] => None end in
  let q a := HReq (B "GET") (B "/x") a None None in
  let run o a := fst (serve None (handle_request (fun _ => None) (fun _ => []) (fun _ => []) true gz (B "id") (fun _ => HOut o)) (q a)) in
  (forall o, gunzip (concat (gz o)) = Some o) /\ reads (q []) [] /\ run [] [] = Reply [] 204 [] [] /\
  run (B "{}") (B "gzip") = Reply [] 200 [(B "Content-Type", B "application/json")] (B "{}") /\
  let big := repeat (chr 120) (N.to_nat 16385) in
  (16384 < N.of_nat (length big))%N /\ includes (B "text/html, gzip") (B "gzip") /\ exists h, run big (B "text/html, gzip") = Reply [] 200 h (B "z" ++ big) /\ zipped h.
Proof.
  cbn zeta. split; [intros o; cbn; now rewrite app_nil_r|]. split; [right; auto|]. split; [reflexivity|]. split; [reflexivity|].
  assert (Hl : N.of_nat (length (repeat (chr 120) (N.to_nat 16385))) = 16385%N) by (rewrite repeat_length; apply N2Nat.id).
  split; [rewrite Hl; lia|]. split; [apply containsb_iff; reflexivity|].
  eexists. split.
  - unfold serve. rewrite (handle_reads _ _ _ _ _ _ _ (HReq (B "GET") (B "/x") (B "text/html, gzip") None None) []) by (right; auto). unfold done.
    destruct (repeat (chr 120) (N.to_nat 16385)) as [|x big] eqn:E; [cbn in Hl; lia|]. rewrite Hl. change ((16 * 1024 <? 16385)%N) with true. cbn [q_accept]. 
    replace (containsb (B "gzip") (B "text/html, gzip")) with true by reflexivity. cbn. now rewrite ?app_nil_r.
  - right. now left.
Qed.

(* ---- C78 ---- *)
Section Upstream.
  Context (uh : N -> option Z) (um : N -> bytes) (st : Z -> bytes) (short : bool) (gz : bytes -> list bytes) (tid : bytes).
  (* Full statement: for each error that the operation did not make for its caller.  Here for those without an http.Error in them. *)
  Theorem C78_plain_partial : forall f q b e, reads q b -> f b = HErr e -> q_method q <> B "HEAD" -> plain_error uh e ->
    exists j, serve None (handle_request uh um st short gz tid f) q = (Reply [] 500 [] j, [(q_method q, q_path q, 500%Z)]) /\ says j [(B "tracking", tid)].
  Proof.
    intros f q b e Hr Hf Hq Hp. assert (E : ErrorCode uh (Some e) 500 = 500%Z).
    { destruct (C25_error_code uh e 500) as [(pre & x & post & c & H1 & H2 & H3 & H4)|[_ H]]; auto.
      exfalso. unfold plain_error in Hp. rewrite Forall_forall in Hp. rewrite (Hp x) in H3; [discriminate|]. rewrite H1. apply in_elt. }
    destruct (C42_internal_partial uh um st short gz tid f q b e Hr Hf Hq) as (j & H1 & H2); [lia|]. rewrite E in H1. eauto.
  Qed.
  (* An operation that asks another service, which answers with a status from 300 to 499 other than 304, and returns the error, as
     Client.API does (client.go:108): the caller gets that status, and its line. *)
  Theorem C78_upstream_refuted : forall q status line, q_method q <> B "HEAD" -> q_body q = None -> (300 <= status < 500)%Z -> status <> 304%Z ->
    exists e j, client_error status line = Some e /\
      let m := B "can't send request: " ++ emsg um st e in
      serve None (handle_request uh um st short gz tid (fun _ => HErr (ECtx (EInfo [] None) (EWrap 0 m e)))) q = (Reply [] status [] j, [(q_method q, q_path q, status)]) /\
      m = B "can't send request: " ++ decz status ++ B " " ++ line /\ says j [(B "error", m); (B "tracking", tid)].
  Proof.
    intros q status line Hq Hb H1 H2. unfold client_error. replace ((status =? 200) || (status =? 204))%Z with false by lia.
    eexists. assert (Hr : reads q []) by (right; auto).
    destruct (C42_message_partial uh um st short gz tid (fun _ => HErr (ECtx (EInfo [] None) (EWrap 0 (B "can't send request: " ++ decz status ++ B " " ++ line) (EHttp status (Some (EBase 0 line))))))
      q [] _ Hr eq_refl Hq) as (j & J1 & J2).
    - change (ErrorCode uh _ 500) with status. unfold bodied. lia.
    - change (ErrorCode uh _ 500) with status. lia.
    - exists j. split; [reflexivity|]. cbn zeta. split; [exact J1|]. split; [reflexivity|exact J2].
  Qed.
End Upstream.
Print Assumptions C78_plain_partial.
Print Assumptions C78_upstream_refuted.
Example C78_ex : plain_error (fun _ => None) (ECtx (EInfo [] None) (EWrap 1 (B "can't query users: no such table") (EBase 2 (B "no such table")))) /\
  client_error 404 (B "404 Not Found") = Some (EHttp 404 (Some (EBase 0 (B "404 Not Found")))) /\
  fst (serve None (handle_request (fun _ => None) (fun _ => []) (fun _ => []) true (fun o => [o]) (B "id") (fun _ => HErr (EWrap 1 (B "x") (EHttp 404 None)))) (HReq (B "GET") (B "/") [] None None)) =
    Reply [] 404 [] (B "{""error"":""x"",""tracking"":""id""}").
Proof. split; [repeat constructor|]. split; reflexivity. Qed.

(* ---- C79, C82, C80 ---- *)
Section Api.
  Context (f2i f2u : floatv -> Z) (uh : N -> option Z) (um : N -> bytes) (st : Z -> bytes) (short : bool) (gz : bytes -> list bytes) (tid : bytes).
  Context (m1 : bytes -> bytes) (m2 : data -> bytes).
  (* Full statement: for each request whose body cannot be read, is not a JSON object, or does not fit the fields.  Here without the
     second. *)
  Theorem C79_data_partial : forall ser do q b m, reads q b -> q_method q <> B "HEAD" -> Decode b = Good (Some (NMap m)) ->
    Recv f2i f2u ser m None = RErr ->
    exists j, serve None (handle_request uh um st short gz tid (api_request f2i f2u short m1 m2 ser do)) q = (Reply [] 400 [] j, [(q_method q, q_path q, 400%Z)]) /\
      says j [(B "error", B "400 " ++ m2 m); (B "tracking", tid)].
  Proof.
    intros ser do q b m Hr Hq Hd Hrecv.
    assert (Hf : api_request f2i f2u short m1 m2 ser do b = HErr (EHttp 400 (Some (cerror (m2 m))))).
    { unfold api_request, ReadFrom. destruct b as [|x b]; [discriminate|]. now rewrite Hd, Hrecv. }
    destruct (C42_message_partial uh um st short gz tid _ q b _ Hr Hf Hq) as (j & J1 & J2); [unfold bodied; cbn; lia|cbn; lia|]. exists j. split; [exact J1|exact J2].
  Qed.
  Theorem C79_body_partial : forall f q e, q_body q = Some (inr e) -> q_method q <> B "HEAD" ->
    exists j, serve None (handle_request uh um st short gz tid f) q = (Reply [] 400 [] j, [(q_method q, q_path q, 400%Z)]) /\
      says j [(B "error", B "400 " ++ emsg um st e); (B "tracking", tid)].
  Proof.
    intros f q e Hb Hq. exists (jmap short [(B "error", B "400 " ++ emsg um st e); (B "tracking", tid)]). split; [|apply says2].
    apply serve_status_body; [|unfold bodied; lia|now apply beqb_neq]. unfold handle_request. rewrite Hb. reflexivity.
  Qed.
  (* What is not a JSON object: 500, without a message *)
  Theorem C79_json_refuted : forall ser do q b, reads q b -> q_method q <> B "HEAD" -> b <> [] -> (forall m, Decode b <> Good (Some (NMap m))) ->
    exists j, serve None (handle_request uh um st short gz tid (api_request f2i f2u short m1 m2 ser do)) q = (Reply [] 500 [] j, [(q_method q, q_path q, 500%Z)]) /\
      says j [(B "tracking", tid)].
  Proof.
    intros ser do q b Hr Hq Hb Hd.
    assert (Hf : api_request f2i f2u short m1 m2 ser do b = HErr (cerror (m1 b))).
    { unfold api_request, ReadFrom. destruct b as [|x b]; [congruence|]. destruct (Decode (x :: b)) as [[[]|]| |] eqn:E; auto. now destruct (Hd l). }
    eapply C78_plain_partial; eauto. repeat constructor.
  Qed.

  (* An operation that requires an identity has no influence on any reply: it is never run.  No request succeeds. *)
  Theorem C82_no_identity : forall fs init ser f q do do', typed fs init -> NewHandler fs (Some init) = Some ser -> In f fs -> is_auth f -> is_required f ->
    serve None (handle_request uh um st short gz tid (api_request f2i f2u short m1 m2 ser do)) q =
      serve None (handle_request uh um st short gz tid (api_request f2i f2u short m1 m2 ser do')) q /\
    forall b out, api_request f2i f2u short m1 m2 ser do b <> HOut out.
  Proof.
    intros fs init ser f q do do' Ht Hn Hi Ha Hq.
    assert (H : forall b obj, Recv f2i f2u ser b None <> ROk obj) by (intros b obj; eapply C40_auth_required; eauto; now left).
    assert (E : forall b, api_request f2i f2u short m1 m2 ser do b = api_request f2i f2u short m1 m2 ser do' b).
    { intros b. unfold api_request. destruct (ReadFrom b) as [d|]; auto. specialize (H d). destruct (Recv f2i f2u ser d None) as [obj| |]; auto. now destruct (H obj). }
    split.
    - unfold serve, handle_request. destruct (q_body q) as [[y|x]|]; rewrite ?E; reflexivity.
    - intros b out. unfold api_request. destruct (ReadFrom b) as [d|]; [|discriminate]. specialize (H d). destruct (Recv f2i f2u ser d None) as [obj| |]; try discriminate. now destruct (H obj).
  Qed.

  (* Full statement: for all operations.  Here for those that do not fail with a status that looks like success: a call over HTTP
     succeeds, and with the same result, exactly if running the operation with the data as JSON does (C41). *)
  Theorem C80_call_partial : forall cli ser do path obj obj', (forall o e, do o = DErr e -> ~ looks_ok (ErrorCode uh (Some e) 500)) ->
    (http_call f2i f2u short m1 m2 uh um st gz tid cli ser do path obj = ROk obj' <->
     api_call f2i f2u cli ser (by_json short) None (outcome_of do) obj = ROk obj').
  Proof.
    intros cli ser do path obj obj' Hdo.
    assert (Hne : forall n x, Encode short false (NMap n) = Ok x -> exists c r, x = c :: r).
    { intros n x Hx. unfold Encode in Hx. destruct (encodable (NMap n)); [|discriminate]. injection Hx as <-. cbn [jenc]. unfold group. destruct (map _ (ksort _)); cbn [app]; eauto. }
    assert (Hby : forall n, by_json short n = match Encode short false (NMap n) with Ok j => ReadFrom j | Panic => None end).
    { intros n. unfold by_json. destruct (Encode short false (NMap n)) as [j|] eqn:Ej; auto. destruct (Hne _ _ Ej) as (x & r & ->). reflexivity. }
    unfold http_call, api_call. destruct (ClientSend cli obj) as [d|]; [|tauto]. rewrite Hby.
    destruct (Encode short false (NMap d)) as [j|] eqn:Ej; [|split; discriminate].
    set (q := HReq (B "POST") path [] None (Some (inl j))). assert (Hr : reads q j) by now left.
    assert (Hfail : forall e, api_request f2i f2u short m1 m2 ser do j = HErr e -> ~ looks_ok (ErrorCode uh (Some e) 500) ->
      forall o, client_reply f2i f2u cli (fst (serve None (handle_request uh um st short gz tid (api_request f2i f2u short m1 m2 ser do)) q)) obj <> ROk o).
    { intros e He Hl o. set (c := ErrorCode uh (Some e) 500) in *. unfold looks_ok in Hl.
      unfold serve. rewrite (handle_reads _ _ _ _ _ _ _ _ _ Hr), He. unfold fail. fold c. destruct (Z.eq_dec c 0) as [Hc|Hc].
      - rewrite Hc. discriminate.
      - rewrite resp_wh2 by auto. cbn [net_run net_call]. unfold net_header at 1. cbn [net0 n_sent]. destruct ((c <? 100) || (999 <? c))%Z eqn:Eb; [discriminate|].
        apply orb_false_iff in Eb as [E1 E2]. apply Z.ltb_ge in E1, E2.
        replace ((c <=? 199) && negb (c =? 101))%Z with false by lia.
        match goal with |- context [net_write ?n ?b] => assert (W : n_sent (net_write n b) = Some (c, [])) end.
        { unfold net_write, net_header. cbn [fst n_sent n_hdr]. destruct (no_body c || _); reflexivity. }
        cbn [orb fst]. unfold finish. rewrite W. unfold client_reply. replace (c =? 204)%Z with false by lia. replace (c =? 200)%Z with false by lia. discriminate. }
    assert (Hpanic : api_request f2i f2u short m1 m2 ser do j = HPanic ->
      forall o, client_reply f2i f2u cli (fst (serve None (handle_request uh um st short gz tid (api_request f2i f2u short m1 m2 ser do)) q)) obj <> ROk o).
    { intros He o. unfold serve. rewrite (handle_reads _ _ _ _ _ _ _ _ _ Hr), He. cbn. discriminate. }
    assert (Hplain : ~ looks_ok 500) by (unfold looks_ok; lia). assert (H400 : ~ looks_ok 400) by (unfold looks_ok; lia).
    unfold api_request in Hfail, Hpanic. destruct (ReadFrom j) as [d1|] eqn:Hrf.
    2: { split; [|discriminate]. intros H. exfalso. eapply (Hfail _ eq_refl Hplain). exact H. }
    destruct (Recv f2i f2u ser d1 None) as [sobj| |] eqn:Er.
    2: { split; [|discriminate]. intros H. exfalso. eapply (Hfail _ eq_refl H400). exact H. }
    2: { split; [|discriminate]. intros H. exfalso. eapply (Hpanic eq_refl). exact H. }
    unfold outcome_of. destruct (do sobj) as [sobj'|e|] eqn:Edo.
    2: { split; [|discriminate]. intros H. exfalso. eapply (Hfail _ eq_refl); [eapply Hdo; eauto|exact H]. }
    2: { split; [|discriminate]. intros H. exfalso. eapply (Hpanic eq_refl). exact H. }
    destruct (Send ser sobj') as [d2|] eqn:Es.
    2: { split; [|discriminate]. intros H. exfalso. eapply (Hpanic eq_refl). exact H. }
    rewrite Hby.
    destruct (Encode short false (NMap d2)) as [j2|] eqn:Ej2.
    2: { split; [|discriminate]. intros H. exfalso. eapply (Hpanic eq_refl). exact H. }
    clear Hfail Hpanic. destruct (Hne _ _ Ej2) as (y & r2 & Ey).
    assert (E : fst (serve None (handle_request uh um st short gz tid (api_request f2i f2u short m1 m2 ser do)) q) = Reply [] 200 [(B "Content-Type", B "application/json")] j2).
    { unfold serve. rewrite (handle_reads _ _ _ _ _ _ _ _ _ Hr). unfold api_request. rewrite Hrf, Er, Edo, Es, Ej2. unfold done. rewrite Ey.
      cbn [q q_accept]. change (containsb (B "gzip") []) with false. rewrite andb_false_r. reflexivity. }
    rewrite E. unfold client_reply. change (200 =? 204)%Z with false. change (200 =? 200)%Z with true. cbv iota.
    destruct (ReadFrom j2); tauto.
  Qed.
  (* With C41: what the client's object becomes. *)
  Theorem C80_values_partial : forall fs cinit init cli ser do path cobj sobj sobj' cobj', (forall o e, do o = DErr e -> ~ looks_ok (ErrorCode uh (Some e) 500)) ->
    api_type fs -> typed fs cinit -> typed fs init -> NewHandler fs (Some cinit) = Some cli -> NewHandler fs (Some init) = Some ser ->
    typed fs cobj -> init_ok fs init -> auth_ok fs None -> in_ok fs cobj -> serves f2i f2u fs init cobj None sobj ->
    do sobj = DOk sobj' -> typed fs sobj' -> merged fs cobj sobj' cobj' -> texts fs is_in cobj -> texts fs is_out sobj' ->
    (http_call f2i f2u short m1 m2 uh um st gz tid cli ser do path cobj = ROk cobj' <-> out_ok fs sobj' cobj).
  Proof.
    intros fs cinit init cli ser do path cobj sobj sobj' cobj' Hl. intros H1 H2 H3 H4 H5 H6 H7 H8 H9 H10 Hs. intros. rewrite C80_call_partial by auto.
    eapply (C41_json_partial f2i f2u short fs cinit init cli ser None (outcome_of do) cobj sobj sobj'); eauto. unfold outcome_of. now rewrite Hs.
  Qed.
  (* An operation that fails with http.Error{204, err} (or 200, or 1xx with nothing to unmarshal): the client is told that it worked. *)
  Theorem C80_status_refuted : forall path e, let fs := [AFld (B "X") true [] [] (B "out") None TStr] in let do c := fun _ : list val => DErr (EHttp c (Some e)) in
    exists h, NewHandler fs None = Some h /\
      http_call f2i f2u short m1 m2 uh um st gz tid h h (do 204%Z) path [VStr (B "old")] = ROk [VStr (B "old")] /\
      api_call f2i f2u h h (by_json short) None (outcome_of (do 204%Z)) [VStr (B "old")] = RErr.
  Proof.
    intros path e fs do. eexists. split; [reflexivity|]. split; destruct short; reflexivity.
  Qed.
End Api.
Print Assumptions C79_data_partial.
Print Assumptions C79_body_partial.
Print Assumptions C79_json_refuted.
Print Assumptions C82_no_identity.
Print Assumptions C80_call_partial.
Print Assumptions C80_values_partial.
Print Assumptions C80_status_refuted.
(* a body that is not JSON; not an object; an object without a required field *)
Example C79_ex : forall f2i f2u, let h := made inc_r (inc_obj [] [] 0 0 state0) in let q b := HReq (B "POST") (B "/inc") [] None (Some (inl b)) in
  let run b := status_of (fst (serve None (handle_request (fun _ => None) (fun _ => []) (fun _ => []) true (fun o => [o]) (B "id") (api_request f2i f2u true (fun b => b) (fun _ => B "bad") h DOk)) (q b))) in
  (forall m, Decode (B "{") <> Good (Some (NMap m))) /\ (forall m, Decode (B "[1]") <> Good (Some (NMap m))) /\
  Decode (B "{""amount"":1}") = Good (Some (NMap [(B "amount", NDigits (B "1"))])) /\ Recv f2i f2u h [(B "amount", NDigits (B "1"))] None = RErr /\
  run (B "{") = Some 500%Z /\ run (B "[1]") = Some 500%Z /\ run (B "{""amount"":1}") = Some 400%Z.
Proof. intros f2i f2u. cbn zeta. split; [intros m; vm_compute; discriminate|]. split; [intros m; vm_compute; discriminate|]. repeat split. Qed.
Example C82_ex : forall f2i f2u, let init := inc_obj [] [] 0 0 state0 in
  NewHandler inc_r (Some init) = Some (made inc_r init) /\ (exists f, In f inc_r /\ is_auth f /\ is_required f) /\
  status_of (fst (serve None (handle_request (fun _ => None) (fun _ => []) (fun _ => []) true (fun o => [o]) (B "id") (api_request f2i f2u true (fun b => b) (fun _ => B "bad") (made inc_r init) DOk))
    (HReq (B "POST") (B "/inc") [] None (Some (inl (B "{""name"":""foo"",""UID"":""root""}")))))) = Some 400%Z.
Proof.
  intros f2i f2u. cbn zeta. split; [reflexivity|]. split; [|reflexivity]. exists (AFld (B "UID") true [] [] (B "auth,required") None TStr).
  split; [right; now left|]. split; [apply bauth_iff; reflexivity|apply breq_iff; reflexivity].
Qed.
Example C80_ex : forall f2i f2u, let fs := [AFld (B "X") true [] (B "x") (B "in,required") None TStr; AFld (B "Y") true [] (B "y") (B "out") None TStr] in
  let do o := match o with [VStr x; _] => if beqb x (B "bad") then DErr (EHttp 404 None) else DOk [VStr x; VStr (B "hello " ++ x)] | _ => DPanic end in
  exists h, NewHandler fs None = Some h /\ (forall o e, do o = DErr e -> ~ looks_ok (ErrorCode (fun _ => None) (Some e) 500)) /\
  let call x := http_call f2i f2u true (fun b => b) (fun _ => []) (fun _ => None) (fun _ => []) (fun _ => []) (fun o => [o]) (B "id") h h do (B "/x") [VStr x; VStr (B "old")] in
  call (B "bob") = ROk [VStr (B "bob"); VStr (B "hello bob")] /\ call (B "bad") = RErr /\ call [] = RErr.
Proof.
  intros f2i f2u. cbn zeta. eexists. split; [reflexivity|]. split; [|split; [vm_compute; reflexivity|split; vm_compute; reflexivity]].
  intros o e H. destruct o as [|[] [|y [|z o]]]; try discriminate H. destruct (beqb _ _) in H; [|discriminate H]. injection H as <-. unfold looks_ok. cbn. lia.
Qed.

(* ---- C81 ---- *)
(* Full statement: for all handlers, once.  Here for handlers registered on the mux itself, and replies that are complete. *)
Theorem C81_counted_partial : forall h q, fst (serve None h q) <> Broken -> exists c, snd (serve None h q) = [(q_method q, q_path q, c)].
Proof.
  intros h q. unfold serve. destruct (h q) as [l died]. destruct (resp 0 l) as [c l']. destruct (net_run (net0 q) l') as [n p]. destruct (p || died); cbn [fst snd]; [congruence|]. eauto.
Qed.
Print Assumptions C81_counted_partial.
(* Handle and HandleFunc: twice, with two paths *)
Theorem C81_twice_refuted : forall path h q, fst (serve (Some path) h q) <> Broken -> exists c c', snd (serve (Some path) h q) = [(q_method q, path, c); (q_method q, q_path q, c')].
Proof.
  intros path h q. unfold serve. destruct (h q) as [l died]. destruct (resp 0 l) as [c l']. destruct (resp 0 l') as [c2 l2]. destruct (net_run (net0 q) l2) as [n p].
  destruct (p || died); cbn [fst snd]; [congruence|]. eauto.
Qed.
Print Assumptions C81_twice_refuted.
(* a handler that panics: not at all *)
Theorem C81_panic_refuted : forall p h q, snd (h q) = true -> serve p h q = (Broken, []).
Proof.
  intros p h q H. unfold serve. destruct (h q) as [l died]. cbn [snd] in H. subst died. destruct (resp 0 l) as [c l']. destruct p; [destruct (resp 0 l') as [c2 l2]; destruct (net_run (net0 q) l2)|destruct (net_run (net0 q) l')]; rewrite orb_true_r; reflexivity.
Qed.
Print Assumptions C81_panic_refuted.
Example C81_ex : let q := HReq (B "GET") (B "/live") [] None None in
  serve None live q = (Reply [] 204 [] [], [(B "GET", B "/live", 204%Z)]) /\
  length (snd (serve (Some (B "/live")) live q)) = 2 /\ serve None (fun _ => ([WriteHeader 200], true)) q = (Broken, []).
Proof. repeat split. Qed.

(* ---- C83 ---- *)
(* Full statement: for all codes.  Here for those that end a response. *)
Theorem C83_ready_partial : forall code q, final code -> exists r, serve None (ready (SetReady code)) q = (r, [(q_method q, q_path q, code)]) /\ status_of r = Some code.
Proof.
  intros c q Hc. assert (E : SetReady c = c). { unfold SetReady. apply swrap_id. unfold final in Hc. unfold int_range. cbn [bits]. change (2 ^ (32 - 1))%Z with 2147483648%Z. lia. }
  rewrite E. apply (serve_settles None (ready c) q [WriteHeader c] true c); auto. constructor.
Qed.
Print Assumptions C83_ready_partial.
(* /live is always 204 *)
Theorem C83_live : forall q, serve None live q = (Reply [] 204 [] [], [(q_method q, q_path q, 204%Z)]).
Proof. reflexivity. Qed.
Print Assumptions C83_live.
(* Of a larger code only 32 bits count. *)
Theorem C83_wrap_refuted : forall code k q, final code -> exists r, serve None (ready (SetReady (code + k * 4294967296))) q = (r, [(q_method q, q_path q, code)]) /\ status_of r = Some code.
Proof.
  intros c k q Hc. assert (E : SetReady (c + k * 4294967296) = SetReady c).
  { unfold SetReady, swrap. cbn [bits]. change (2 ^ 32)%Z with 4294967296%Z. change (2 ^ (32 - 1))%Z with 2147483648%Z. replace (c + k * 4294967296 + 2147483648)%Z with (c + 2147483648 + k * 4294967296)%Z by lia. now rewrite Z_mod_plus_full. }
  rewrite E. now apply C83_ready_partial.
Qed.
Print Assumptions C83_wrap_refuted.
(* With others there is no reply. *)
Theorem C83_broken_refuted : forall code q, (-2147483648 <= code < 100 \/ 1000 <= code < 2147483648)%Z -> serve None (ready (SetReady code)) q = (Broken, []).
Proof.
  intros c q Hc. assert (E : SetReady c = c). { unfold SetReady. apply swrap_id. unfold int_range. cbn [bits]. change (2 ^ (32 - 1))%Z with 2147483648%Z. lia. }
  rewrite E. unfold serve, ready. cbn [resp resp1 Z.eqb app net_run net_call]. unfold net_header. cbn [net0 n_sent]. replace ((c <? 100) || (999 <? c))%Z with true; [reflexivity|]. symmetry. apply orb_true_iff. lia.
Qed.
Print Assumptions C83_broken_refuted.
(* 4294967496 is 200; 503 - 2^32 is 503; -1 or 0: no reply; 199: 200 *)
Theorem C83_code_refuted : forall q,
  serve None (ready (SetReady 4294967496)) q = (Reply [] 200 [] [], [(q_method q, q_path q, 200%Z)]) /\
  serve None (ready (SetReady 0)) q = (Broken, []) /\ serve None (ready (SetReady (-1))) q = (Broken, []) /\
  serve None (ready (SetReady 199)) q = (Reply [199%Z] 200 [] [], [(q_method q, q_path q, 199%Z)]).
Proof. intros q. repeat split. Qed.
Print Assumptions C83_code_refuted.
Example C83_ex : let q := HReq (B "GET") (B "/ready") [] None None in final 503 /\ status_of (fst (serve None (ready (SetReady 503)) q)) = Some 503%Z.
Proof. split; [right; lia|reflexivity]. Qed.

(* ---- C84 ---- *)
(* A body of any length is accepted, whatever MaxLength is. *)
Theorem C84_length_refuted : forall uh maxlength l q b out, q_method q <> B "HEAD" -> q_body q = Some (inl b) -> (maxlength < Z.of_nat (length b))%Z -> leaves l out ->
  exists c, fst (serve None (call_handler uh maxlength (Some (l, None))) q) = Reply [] c [] out /\ (c = 200 \/ c = 204)%Z.
Proof.
  intros uh maxlength l q b out Hq Hb _ Hl. rewrite (C44_call uh maxlength q l out); auto; [|congruence]. cbn [fst]. eexists. split; [reflexivity|]. destruct out; auto.
Qed.
Print Assumptions C84_length_refuted.
Example C84_ex : let q := HReq (B "POST") (B "/c") [] None (Some (inl (B "longer than ten"))) in
  (10 < Z.of_nat (length (B "longer than ten")))%Z /\ fst (serve None (call_handler (fun _ => None) 10 (Some ([CWrite (B "a"); CWrite (B "b")], None))) q) = Reply [] 200 [] (B "ab").
Proof. split; [reflexivity|reflexivity]. Qed.
