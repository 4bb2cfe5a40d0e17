(* C159: the log lines of requests and websocket connections. *)
From Coq Require Import Bool Ascii String Arith NArith ZArith List Lia Permutation.
From Verif Require Import Prelude PreludeFacts Utf8Model Utf8Facts DurModel DurProofs KvProofs EncModel JsonModel JsonSpec JsonFacts RfcSpec RfcString RfcProofs RfcProps CtxModel CtxSpec CtxProofs
  ErrModel LogModel LgModel LgSpec LgProofs LgProps RqModel RqSpec RqProps RwModel RwSpec RwProps RlSpec.
Import ListNotations.

Lemma jstr_text short s : json_text (jstr short s) (TStr (cleaned s)).
Proof.
  destruct (pstring_jstr short s []) as (q & -> & H). rewrite app_nil_r in H. unfold pstring in H. destruct (pstr_sound _ _ _ _ H) as (q' & -> & Q).
  exists [], (B """" ++ q' ++ B """"), []. rewrite app_nil_r. split; [reflexivity|]. split; [constructor|]. split; [now constructor|constructor].
Qed.
Lemma shows_text short s x : tag_shows (jstr short s) x -> x = TStr (cleaned s).
Proof.
  pose proof (jstr_text short s) as T. intros [[H _]|[H _]].
  - destruct (C102_unambiguous _ _ _ T H) as (n & A & C); [cbn; lia|]. inversion A; subst. inversion C; subst. reflexivity.
  - specialize (H _ T). cbn in H. lia.
Qed.
Lemma cleaned_plain s : Forall (fun c => (code c < 128)%N) (cleaned s) -> cleaned s = s.
Proof.
  intros H. apply cleaned_valid. unfold valid_utf8. apply forallb_forall. intros i Hi. destruct i as [r|b]; [reflexivity|]. exfalso.
  rewrite Forall_forall in H. unfold cleaned in H. assert (Q : In (chr 239) (concat (map (fun i => match i with IRune r => encode_rune r | IBad _ => encode_rune 0xFFFD end) (runes s)))).
  { apply in_concat. exists (encode_rune 0xFFFD). split; [|vm_compute; auto]. apply in_map_iff. eexists. split; [|exact Hi]. reflexivity. }
  apply H in Q. vm_compute in Q. discriminate.
Qed.
Lemma forall2_left {A C} (P : A -> C -> Prop) l m x : Forall2 P l m -> In x l -> exists y, In y m /\ P x y.
Proof. induction 1 as [|a b l m H F IH]; [intros []|]. intros [<-|Q]; [exists b; split; [now left|exact H]|]. destruct (IH Q) as (y & Y & Z1). exists y. split; [now right|exact Z1]. Qed.
Lemma forall2_right {A C} (P : A -> C -> Prop) l m y : Forall2 P l m -> In y m -> exists x, In x l /\ P x y.
Proof. induction 1 as [|a b l m H F IH]; [intros []|]. intros [<-|Q]; [exists a; split; [now left|exact H]|]. destruct (IH Q) as (x & X & Z1). exists x. split; [now right|exact Z1]. Qed.
(* tags with texts as values *)
Lemma line_tells now err short uc um st sp (order : list (bytes * bytes) -> list (bytes * bytes)) min lvl src c f args :
  clock_text now -> (min <= lvl)%Z -> (forall l, Permutation l (order l)) -> Forall leaves_tags args -> plain c ->
  exists line tl, Log now err short uc um st sp order min lvl src c f args = Ok (Some line) /\ is_line line now lvl (sp f (map shown args)) src tl /\
    forall k v, k <> B "error" -> Forall (fun x => (code x < 128)%N) k -> cleaned k = k -> closest_tag c k = Some (jstr false v) -> tells tl k (cleaned v).
Proof.
  intros Hn Hm Ho Ha [P1 P2]. destruct (C127_call_partial now err short uc um st sp order min lvl src c f args Hn Hm Ho Ha P1 P2) as (line & tags & E & (s & lv & tl & L1 & L2 & L3 & L4 & L5) & ND & T).
  exists line, tl. split; [exact E|]. split; [exists s, lv; auto|]. intros k v Hk Hc Ck Hv. split.
  - apply (T k _ (or_introl Hk)) in Hv. destruct (forall2_left _ _ _ _ L5 Hv) as ([k' x] & I1 & K1 & K2). cbn [fst snd] in K1, K2. rewrite Ck in K1. subst k'. apply shows_text in K2. now subst x.
  - intros x Hx. destruct (forall2_right _ _ _ _ L5 Hx) as ([k' t] & I1 & K1 & K2). cbn [fst snd] in K1, K2.
    assert (k' = k) by (rewrite K1; symmetry; apply cleaned_plain; now rewrite <- K1). subst k'. apply (T k _ (or_introl Hk)) in I1. rewrite Hv in I1. injection I1 as <-. now apply shows_text in K2.
Qed.

(* C159, what holds: whatever a client sends, a line logged with the context of its request is one line of JSON, and says the address, the remote address, the user agent
   and the path of this request, bytes that are no UTF-8 aside; provided that the context given to Listen has no tag "level" or "msg", *)
Theorem C159_partial : forall (l : list event) (r : req) (b c : context), let w := history l in
  In r (reqs w) -> is_ctx w (base r) b -> is_ctx w (r_ctx r) c -> plain b ->
  forall now err short uc um st sp (order : list (bytes * bytes) -> list (bytes * bytes)) min lvl src f args,
  clock_text now -> (min <= lvl)%Z -> (forall l, Permutation l (order l)) -> Forall leaves_tags args ->
  exists line tl, Log now err short uc um st sp order min lvl src c f args = Ok (Some line) /\ is_line line now lvl (sp f (map shown args)) src tl /\
    tells tl (B "http.addr") (cleaned (l_addr (c_lis (r_con r)))) /\ tells tl (B "http.remote") (cleaned (c_remote (r_con r))) /\
    tells tl (B "ua") (cleaned (r_ua r)) /\ tells tl (B "path") (cleaned (r_path r)).
Proof.
  intros l r b c w Hr Hb Hc Pb now err short uc um st sp order min lvl src f args Hn Hm Ho Ha.
  destruct (ok_history l) as (_ & _ & D & _). destruct (D r Hr) as (b0 & f0 & g & i & j & A & _ & _ & E). apply env_ctx in A, E. fold w in A, E. unfold is_ctx in *.
  assert (b0 = b) by congruence. subst b0. assert (c = rctx b r i j) by congruence. subst c.
  assert (Pc : plain (rctx b r i j)) by (destruct Pb as [P1 P2]; unfold plain, rctx, tagd; destruct (r_handle r); split; [exact P1|exact P2|exact P1|exact P2]).
  destruct (line_tells now err short uc um st sp order min lvl src _ f args Hn Hm Ho Ha Pc) as (line & tl & L1 & L2 & L3). exists line, tl. split; [exact L1|]. split; [exact L2|].
  repeat split; try (apply L3; [discriminate|repeat constructor|reflexivity|unfold rctx, tagd; destruct (r_handle r); reflexivity]).
Qed.
Print Assumptions C159_partial.

(* C159: the same for a websocket connection, with its tracking id and (not with an RpcHandler) its session id. *)
Theorem C159_ws_partial : forall (l : list wevent) (x : wsc) (b c : context), let w := whistory l in
  In x (wss w) -> is_ctx (web w) (root x) b -> is_ctx (web w) (w_ctx x) c -> plain b ->
  forall now err short uc um st sp (order : list (bytes * bytes) -> list (bytes * bytes)) min lvl src f args,
  clock_text now -> (min <= lvl)%Z -> (forall l, Permutation l (order l)) -> Forall leaves_tags args ->
  exists line tl, Log now err short uc um st sp order min lvl src c f args = Ok (Some line) /\ is_line line now lvl (sp f (map shown args)) src tl /\
    tells tl (B "http.remote") (cleaned (c_remote (r_con (w_req x)))) /\ tells tl (B "path") (cleaned (r_path (w_req x))) /\
    tells tl (B "tracking-id") (cleaned (track_of b x)) /\ (w_rpc x = false -> tells tl (B "ws.sid") (cleaned (w_sid x))).
Proof.
  intros l x b c w Hx Hb Hc Pb now err short uc um st sp order min lvl src f args Hn Hm Ho Ha.
  destruct (shapes l x Hx) as (b0 & f0 & i & j & g & m & h & P1 & _ & _ & _ & _ & P6). apply env_ctx in P1, P6. fold w in P1, P6. unfold is_ctx in *.
  assert (b0 = b) by congruence. subst b0. set (cc := wctx (rctx b (w_req x) i j) m (track_of b x) x) in *. assert (c = cc) by congruence. subst c.
  assert (Pc : plain cc) by (destruct Pb as [Q1 Q2]; unfold plain, cc, wctx, span_ctx, rctx, tagd; destruct (w_rpc x); destruct (r_handle (w_req x)); split; first [exact Q1|exact Q2]).
  destruct (line_tells now err short uc um st sp order min lvl src _ f args Hn Hm Ho Ha Pc) as (line & tl & L1 & L2 & L3). exists line, tl. split; [exact L1|]. split; [exact L2|].
  repeat split; try (apply L3; [discriminate|repeat constructor|reflexivity|unfold cc, wctx, span_ctx, rctx, tagd; destruct (w_rpc x); destruct (r_handle (w_req x)); reflexivity]).
  - apply L3; [discriminate|repeat constructor|reflexivity|]. unfold cc, wctx. rewrite H. reflexivity.
  - apply L3; [discriminate|repeat constructor|reflexivity|]. unfold cc, wctx. rewrite H. reflexivity.
Qed.
Print Assumptions C159_ws_partial.

(* C159, false as stated: requests for different paths may have the same lines, whatever is logged: bytes that are no UTF-8 look all the same; *)
Theorem C159_refuted : exists (l : list event) (r r' : req) (c c' : context), let w := history l in
  In r (reqs w) /\ In r' (reqs w) /\ r_path r <> r_path r' /\ is_ctx w (r_ctx r) c /\ is_ctx w (r_ctx r') c' /\
  forall now err short uc um st sp order min lvl src f args,
    Log now err short uc um st sp order min lvl src c f args = Log now err short uc um st sp order min lvl src c' f args.
Proof.
  set (l := [EOp OBackground; EListen 0 (B "[::]:80"); EAccept 0 (B "10.0.0.1:99"); ERequest 0 (B "curl") ("/"%char :: [chr 255]) true; ERequest 0 (B "curl") ("/"%char :: [chr 254]) true]).
  set (q := fun n => nth n (reqs (history l)) (Req 0 0 (Con 0 (Lis 0 0 []) []) [] [] false)). set (cx := fun n => nth n (contexts (ops (history l))) Root).
  exists l, (q 0), (q 1), (cx (r_ctx (q 0))), (cx (r_ctx (q 1))). cbv zeta.
  assert (L : length (reqs (history l)) = 2) by (vm_compute; reflexivity).
  assert (V : r_path (q 0) <> r_path (q 1) /\ is_ctx (history l) (r_ctx (q 0)) (cx (r_ctx (q 0))) /\ is_ctx (history l) (r_ctx (q 1)) (cx (r_ctx (q 1)))).
  { vm_compute. split; [discriminate|]. repeat split. }
  assert (X : ExtractTags (cx (r_ctx (q 0))) = ExtractTags (cx (r_ctx (q 1)))) by (vm_compute; reflexivity).
  split; [unfold q; apply nth_In; rewrite L; auto|]. split; [unfold q; apply nth_In; rewrite L; auto|]. destruct V as (V1 & V2 & V3). split; [exact V1|]. split; [exact V2|]. split; [exact V3|].
  intros. unfold Log, slog_call. now rewrite X.
Qed.
Print Assumptions C159_refuted.
(* paths that are UTF-8 are told as they are. *)
Theorem C159_utf8 : forall (tl : list (bytes * jtree)) (k s s' : bytes), tells tl k (cleaned s) -> tells tl k (cleaned s') -> valid_utf8 s = true -> valid_utf8 s' = true -> s = s'.
Proof. intros tl k s s' [A _] [_ C] V V'. rewrite cleaned_valid in A by exact V. rewrite cleaned_valid in C by exact V'. apply C in A. now injection A. Qed.
Print Assumptions C159_utf8.

(* a client that tries to write a line of its own *)
Definition C159_evil : bytes := B "x"",""level"":""error""}" ++ chr 10 :: B "{""level"":""info".
Example C159_ex :
  let w := history [EOp OBackground; EListen 0 (B "[::]:80"); EAccept 0 (B "10.0.0.1:99"); ERequest 0 C159_evil (B "/a") false] in
  option_map (fun c => Log lg_now (fun _ => B "eof") true (fun _ => None) (fun _ => []) (fun _ => []) (fun f _ => f) (fun l => l) 0 4 (B "x.go:1") c (B "hi") []) (nth_error (contexts (ops w)) 8) =
  Some (Ok (Some (B "{""time"":""2024-01-02T03:04:05.006+01:00"",""level"":""warn"",""message"":""hi"",""src"":""x.go:1"",""tags"":{""http.addr"":""[::]:80"",""http.remote"":""10.0.0.1:99"",""ua"":""x\"",\""level\"":\""error\""}\n{\""level\"":\""info"",""path"":""/a""}}" ++ [chr 10]))) /\
  map r_ctx (reqs w) = [8] /\ option_map (fun c => closest_tag c (B "level")) (nth_error (contexts (ops w)) 0) = Some None.
Proof. vm_compute. repeat split. Qed.
