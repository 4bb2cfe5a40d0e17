(* What becomes of the messages of a client, from their text to the frames: C104. *)
From Coq Require Import Bool Ascii String Arith NArith ZArith Lia List.
From Verif Require Import Prelude PreludeFacts Utf8Model DecModel DurModel DurProofs EncModel JsonModel JsonParse CtxModel ErrModel MarModel WsModel WsSpec WsProofs WsProps.
Import ListNotations.

(* ---- specification ---- *)
(* the text of a member of a frame: a missing or null one is empty, a number is taken by its digits; nothing else is a text *)
Inductive frame_text : option node -> bytes -> Prop :=
| ft_missing : frame_text None []
| ft_null : frame_text (Some NNil) []
| ft_text s : frame_text (Some (NStr s)) s
| ft_number s : frame_text (Some (NDigits s)) s.
(* the frame that a message is: an object with texts for channel, path and type, and whatever else; null and an empty message are an empty frame *)
Inductive is_frame : option node -> frame -> Prop :=
| if_empty : is_frame None (Frame [] [] [] None)
| if_null : is_frame (Some NNil) (Frame [] [] [] None)
| if_object l c p t : frame_text (mget beqb l (B "channel")) c -> frame_text (mget beqb l (B "path")) p -> frame_text (mget beqb l (B "type")) t ->
    is_frame (Some (NMap l)) (Frame c p t (mget beqb l (B "data"))).

Section Bad.
  Context {V A H : Type} (um : N -> bytes) (stx : Z -> bytes) (un : N -> res node) (f2i f2u : floatv -> Z).
  Notation handle reg := (rpc_handle (V:=V) (A:=A) (H:=H) um stx un reg f2i f2u).
  (* a message that the connection does not take in this state: no frame, an unknown channel, path or method *)
  Definition bad (reg : @registry V A H) (s : @rpc V A H) (n : option node) : Prop :=
    (forall f, ~ is_frame n f) \/ exists f, is_frame n f /\
      ((request f = true /\ (owner (r_log s) (f_chan f) = None \/
          exists p o b, owner (r_log s) (f_chan f) = Some (p, o) /\ mget beqb reg p = Some b /\ byPath (b_methods b) (f_path f) = None)) \/
       (opening f = true /\ mget beqb reg (f_path f) = None)).

  (* what JSON can be *)
  Definition of_json (n : option node) : Prop := exists j, Decode j = Good n.
  Inductive jnode : node -> Prop :=
  | jn_nil : jnode NNil | jn_bool b : jnode (NBool b) | jn_num s : jnode (NDigits s) | jn_str s : jnode (NStr s)
  | jn_list l : Forall jnode l -> jnode (NList l) | jn_map l : Forall (fun e => jnode (snd e)) l -> jnode (NMap l).
  Lemma native_jnode v : jnode (fromNative v).
  Proof.
    induction v as [| | | |l Hl|l Hl] using jval_ind2; cbn [fromNative]; constructor; rewrite Forall_map; auto.
  Qed.
  Lemma json_jnode n : of_json (Some n) -> jnode n.
  Proof.
    intros (j & Hj). unfold Decode in Hj. destruct j as [|c j]; [discriminate|]. destruct (pvalue _ 0 (c :: j)) as [[v r]|]; [|discriminate].
    injection Hj as <-. apply native_jnode.
  Qed.

  Lemma frame_is n f : of_json n -> (frame_of f2i f2u n = Some f <-> is_frame n f).
  Proof.
    intros Hj. destruct n as [n|].
    2:{ unfold frame_of. cbn. split; [intros E; injection E as <-; constructor|]. intros E; inversion E; reflexivity. }
    apply json_jnode in Hj. inversion Hj as [|b|s|s|l Hl|l Hl]; subst; try (unfold frame_of; cbn; split; [discriminate|intros E; inversion E; fail]).
    - unfold frame_of. cbn. split; [intros E; injection E as <-; constructor|]. intros E; inversion E; reflexivity.
    - assert (K : forall k x, mget beqb l k = Some x -> jnode x).
      { intros k x Hx. assert (Hi : In (k, x) l).
        { clear -Hx. induction l as [|[k' v] l IH]; cbn in Hx; [discriminate|]. destruct (beqb k k') eqn:E; [apply beqb_eq in E; subst; injection Hx as ->; now left|right; auto]. }
        rewrite Forall_forall in Hl. apply (Hl (k, x) Hi). }
      unfold frame_of, Unmarshal. cbn [unm frame_ty zero map fst snd unm_fields f_exported f_name].
      change (parseTag (Fld (B "Channel") true (B "channel,omitempty"))) with (Ok (Tag (B "channel") true false)).
      change (parseTag (Fld (B "Path") true (B "path,omitempty"))) with (Ok (Tag (B "path") true false)).
      change (parseTag (Fld (B "Type") true (B "type"))) with (Ok (Tag (B "type") false false)).
      cbn [g_json].
      assert (F : forall k v, mget beqb l k = v -> match v with None | Some NNil | Some (NStr _) | Some (NDigits _) => True | Some _ => forall s, ~ frame_text v s end).
      { intros k v Hv. destruct v as [x|]; auto. pose proof (K k x Hv) as J. inversion J; subst; auto; intros s Hs; inversion Hs. }
      pose proof (F (B "channel") _ eq_refl) as F1. pose proof (F (B "path") _ eq_refl) as F2. pose proof (F (B "type") _ eq_refl) as F3.
      pose proof (K (B "channel")) as K1. pose proof (K (B "path")) as K2. pose proof (K (B "type")) as K3.
      split.
      + destruct (mget beqb l (B "channel")) as [x1|] eqn:E1; [specialize (K1 _ eq_refl); inversion K1; subst; cbn [unm unm_num zero]; cbv beta iota zeta; try discriminate|];
        (destruct (mget beqb l (B "path")) as [x2|] eqn:E2; [specialize (K2 _ eq_refl); inversion K2; subst; cbn [unm unm_num zero]; cbv beta iota zeta; try discriminate|]);
        (destruct (mget beqb l (B "type")) as [x3|] eqn:E3; [specialize (K3 _ eq_refl); inversion K3; subst; cbn [unm unm_num zero]; cbv beta iota zeta; try discriminate|]);
        intros E; injection E as <-; constructor; rewrite ?E1, ?E2, ?E3; constructor.
      + intros E. inversion E as [| |? c p t H1 H2 H3]; subst. clear F F1 F2 F3 K K1 K2 K3.
        clear E. revert H1 H2 H3. generalize (mget beqb l (B "channel")) (mget beqb l (B "path")) (mget beqb l (B "type")). intros m1 m2 m3 H1 H2 H3. destruct H1, H2, H3; reflexivity.
  Qed.

  (* ---- Loop ends, and nothing happens after that ---- *)
  Lemma over_final {S} (hd : S -> option node -> S * hres) ls : forall s s', lp s = Over -> exec hd s ls = Ok s' ->
    lp s' = Over /\ hs s' = hs s /\ starts (log s') = starts (log s) /\ ends (log s') = ends (log s).
  Proof.
    induction ls as [|l ls IH]; intros s s' Ho E; cbn [exec] in E; [injection E as <-; auto|].
    destruct (step hd s l) as [s1|] eqn:E1; [|discriminate]. cbn [rbind] in E.
    assert (K : lp s1 = Over /\ hs s1 = hs s /\ starts (log s1) = starts (log s) /\ ends (log s1) = ends (log s)).
    { unfold step in E1. destruct l; rewrite ?Ho in E1.
      - destruct (rdr s); [destruct (input s) as [|w i]; [|destruct (wsRead (cancelled s) w)]| |]; try discriminate; injection E1 as <-; auto.
      - destruct (rdr s); injection E1 as <-; auto.
      - destruct (rdr s); injection E1 as <-; auto.
      - destruct (rdr s); try (injection E1 as <-; auto; fail). destruct (cancelled s); injection E1 as <-; auto.
      - injection E1 as <-; auto.
      - injection E1 as <-; auto.
      - injection E1 as <-; auto.
      - injection E1 as <-; auto.
      - injection E1 as <-; auto. }
    destruct K as (K1 & K2 & K3 & K4). destruct (IH s1 s' K1 E) as (J1 & J2 & J3 & J4). rewrite J2, J3, J4. auto.
  Qed.

  Lemma bad_handle reg s n : reach um stx un reg s -> of_json n -> bad reg s n -> handle reg s n = (s, HError).
  Proof.
    intros Hr Hj [Hb|(f & Hf & Hb)]; unfold rpc_handle.
    - destruct (frame_of f2i f2u n) as [f|] eqn:E; auto. apply frame_is in E; auto. now apply Hb in E.
    - apply frame_is in Hf; auto. rewrite Hf. now rewrite (C47_unknown um stx un reg s f Hr Hb).
  Qed.

  (* every state of the connection is reachable by frames *)
  Lemma called_reach reg l : forall s s' rs, reach um stx un reg s -> called (handle reg) s l = (s', rs) -> reach um stx un reg s'.
  Proof.
    induction l as [|n l IH]; intros s s' rs Hs E; cbn [called] in E; [injection E as <- _; exact Hs|].
    destruct (handle reg s n) as [s1 x] eqn:E1. destruct (called (handle reg) s1 l) as [s2 xs] eqn:E2. injection E as <- _. apply (IH s1 s2 xs); auto.
    unfold rpc_handle in E1. destruct (frame_of f2i f2u n) as [f|]; [|injection E1 as <- _; exact Hs].
    pose proof (reach_frame um stx un reg s f Hs) as Hf. destruct (onFrame um stx un reg s f); injection E1 as <- _; exact Hf.
  Qed.
  Lemma msgs_json i : Forall of_json (msgs i).
  Proof. induction i as [|w i IH]; cbn; [constructor|]. destruct w; try constructor. destruct (Decode j) eqn:Ej; constructor; auto. now exists j. Qed.

  (* C104: which messages are frames, and which. *)
  Theorem C104_frames : forall n f, of_json n -> (frame_of f2i f2u n = Some f <-> is_frame n f).
  Proof. exact frame_is. Qed.

  (* C104: as long as every message is taken, the connection is in the state after its frames, one after the other, in the order they were sent. *)
  Theorem C104_taken : forall reg i h ls s, exec (handle reg) (start i (Rpc [] [] h [])) ls = Ok s ->
    (forall m r, In (m, r) (ends (log s)) -> r = HNil) ->
    prefix (map fst (ends (log s))) (msgs i) /\
    exists fs, Forall2 is_frame (map fst (ends (log s))) fs /\ frames um stx un reg (Rpc [] [] h []) fs = Some (hs s).
  Proof.
    intros reg i h ls s E Hn. destruct (C46_state _ _ _ _ _ _ E) as [Hc [c1 Hp]]. destruct (C46_order _ _ _ _ _ _ E) as [c2 Ho].
    assert (Hpre : prefix (map fst (ends (log s))) (msgs i)). { exists (c1 ++ c2). rewrite Ho, Hp. now rewrite app_assoc. } split; auto.
    assert (Hm : Forall of_json (map fst (ends (log s)))).
    { destruct Hpre as [c Hpre]. pose proof (msgs_json i) as Hi. rewrite Hpre in Hi. now apply Forall_app in Hi as [Hi _]. }
    assert (Hr : Forall (fun r => r = HNil) (map snd (ends (log s)))).
    { rewrite Forall_map. apply Forall_forall. intros [m r] Hi. now apply (Hn m). }
    clear E Hn Ho Hp Hpre c1 c2. revert Hc Hr. generalize (map snd (ends (log s))) as rs. generalize (hs s) as h1. generalize (Rpc (V:=V) (A:=A) [] [] h []) as h0.
    revert Hm. generalize (map fst (ends (log s))) as l. clear s. induction l as [|n l IH]; intros Hm h0 h1 rs Hc Hr.
    - cbn in Hc. injection Hc as <- <-. exists []. split; constructor.
    - cbn [called] in Hc. destruct (handle reg h0 n) as [h2 x] eqn:E2. destruct (called (handle reg) h2 l) as [h3 xs] eqn:E3. injection Hc as <- <-.
      inversion Hr as [|? ? Hx Hxs]; subst. inversion Hm as [|? ? Hj Hm']; subst. destruct (IH Hm' h2 h3 xs E3 Hxs) as (fs & F1 & F2).
      unfold rpc_handle in E2. destruct (frame_of f2i f2u n) as [f|] eqn:Ef; [|discriminate]. apply frame_is in Ef; auto.
      exists (f :: fs). split; [constructor; auto|]. cbn [frames]. destruct (onFrame um stx un reg h0 f); try discriminate. injection E2 as ->. exact F2.
  Qed.

  (* C104: "a bad message leaves the other channels usable" is false: it ends the connection, whatever else is open; nothing is called for it,
     and no message is handled after it, however the rest of the program runs. *)
  Theorem C104_ends_refuted : forall reg i h ls s n sendable ls' s', exec (handle reg) (start i (Rpc [] [] h [])) ls = Ok s ->
    lp s = Handling n -> bad reg (hs s) n ->
    exec (handle reg) s (LFinish sendable :: ls') = Ok s' ->
    In EReturn (log s') /\ In EClose (log s') /\ hs s' = hs s /\ starts (log s') = starts (log s) /\ ends (log s') = ends (log s) ++ [(n, HError)].
  Proof.
    intros reg i h ls s n sendable ls' s' E Hl Hb E'.
    assert (Hr : reach um stx un reg (hs s)). { destruct (C46_state _ _ _ _ _ _ E) as [Hc _]. eapply called_reach; [|exact Hc]. constructor. }
    assert (Hj : of_json n).
    { destruct (linv_exec _ _ _ _ _ E) as ((rest & H1 & _) & H2 & _). pose proof (msgs_json i) as Hi. rewrite H1, H2, Hl in Hi. apply Forall_app in Hi as [Hi _].
      apply Forall_app in Hi as [_ Hi]. now inversion Hi. }
    cbn [exec step] in E'. rewrite Hl, (bad_handle reg (hs s) n Hr Hj Hb) in E'. cbn [rbind] in E'.
    match type of E' with exec _ ?x _ = _ => set (s1 := x) in E' end.
    assert (Ho : lp s1 = Over) by reflexivity. destruct (over_final (handle reg) ls' s1 s' Ho E') as (_ & H2 & H3 & H4).
    assert (Hin : forall e, In e (log s1) -> In e (log s')).
    { clear -E'. revert E'. generalize s1. induction ls' as [|l ls' IH]; intros s0 E' e He; cbn [exec] in E'; [injection E' as <-; auto|].
      destruct (step (handle reg) s0 l) as [s2|] eqn:E2; [|discriminate]. cbn [rbind] in E'. apply (IH s2 E'). clear -E2 He.
      unfold step in E2. destruct l.
      - destruct (rdr s0); [destruct (input s0) as [|w j]; [|destruct (wsRead (cancelled s0) w)]| |]; try discriminate; injection E2 as <-; auto.
      - destruct (rdr s0); injection E2 as <-; auto.
      - destruct (rdr s0); [| |]; try (injection E2 as <-; auto; fail). destruct (lp s0); injection E2 as <-; cbn; auto.
      - destruct (rdr s0); try (injection E2 as <-; auto; fail). destruct (cancelled s0); injection E2 as <-; auto.
      - destruct (lp s0) as [|m|]; try (injection E2 as <-; auto; fail). destruct (handle reg (hs s0) m) as [h2 []]; injection E2 as <-; cbn; auto.
        right. right. apply in_or_app. right. now right.
      - injection E2 as <-; auto.
      - destruct (lp s0); try (injection E2 as <-; auto; fail). destruct (cancelled s0); injection E2 as <-; cbn; auto.
      - destruct (lp s0), (rdr s0); injection E2 as <-; cbn; auto.
      - injection E2 as <-; cbn; auto. }
    split; [apply Hin; cbn; auto|]. split; [apply Hin; cbn; auto|]. split; [exact H2|].
    rewrite H3, H4. unfold s1. cbn [log]. destruct sendable; cbn [starts ends app]; auto.
  Qed.
End Bad.
Print Assumptions C104_frames.
Print Assumptions C104_taken.
Print Assumptions C104_ends_refuted.

(* two counters, a message for a channel that was never opened, and one for the second counter: that is not handled any more *)
Definition ex_i : list wframe := map (fun s => WText (B s))
  ["{""type"":""new"",""path"":""counter"",""channel"":""a""}"; "{""channel"":7,""path"":""counter"",""type"":""open"",""more"":[]}";
   "{""channel"":""c"",""path"":""get""}"; "{""channel"":""7"",""path"":""get""}"]%string.
Definition ex_round : list label := [LRead; LPass; LFinish true].
Definition ex_run (ls : list label) : option (st (@rpc nat nat nat)) :=
  match exec (rpc_handle um stx un creg (fun _ => 0%Z) (fun _ => 0%Z)) (start ex_i (Rpc [] [] 0 [])) ls with Ok s => Some s | Panic => None end.
Example C104_ex :
  option_map (fun s => (length (starts (log s)), map snd (ends (log s)), map fst (r_chans (hs s)), existsb (fun e => match e with EReturn => true | _ => false end) (log s)))
    (ex_run (ex_round ++ ex_round)) = Some (2, [HNil; HNil], [B "a"; B "7"], false) /\
  option_map (fun s => match lp s with Handling n => match frame_of (fun _ => 0%Z) (fun _ => 0%Z) n with Some f => (f_chan f, owner (r_log (hs s)) (f_chan f)) | None => ([], None) end | _ => ([], None) end)
    (ex_run (ex_round ++ ex_round ++ [LRead; LPass])) = Some (B "c", None) /\
  option_map (fun s => (length (starts (log s)), map snd (ends (log s)), existsb (fun e => match e with EReturn => true | _ => false end) (log s)))
    (ex_run (ex_round ++ ex_round ++ ex_round ++ ex_round)) = Some (3, [HNil; HNil; HError], true) /\
  (forall f, ~ is_frame (Some (NList [])) f) /\ is_frame (Some (NMap [(B "type", NStr (B "new"))])) (Frame [] [] (B "new") None).
Proof.
  split; [vm_compute; reflexivity|]. split; [vm_compute; reflexivity|]. split; [vm_compute; reflexivity|]. split; [intros f Hf; inversion Hf|].
  apply (if_object [(B "type", NStr (B "new"))]); constructor.
Qed.
