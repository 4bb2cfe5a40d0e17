(* Property C135: /repo/http/test.go, api/test.go, compared with a call over HTTP. *)
From Coq Require Import Bool Ascii String Arith NArith ZArith Lia List.
From Verif Require Import Prelude PreludeFacts Utf8Model Utf8Facts QuoteModel DecModel DecFacts DurModel DurProofs EncModel JsonModel KvSpec JsonSpec JsonFacts KvProofs JsonProofs CtxModel ErrModel MarModel MarSpec MarFacts MarProofs ConfModel ConfSpec ApiModel ApiSpec ApiProofs ApiRecv ApiCall ApiProps HttpModel HttpSpec HttpProofs HttpProps TaModel TaProofs.
Import ListNotations.

Section Test.
  Context (f2i f2u : floatv -> Z) (uh : N -> option Z) (um : N -> bytes) (st : Z -> bytes) (short : bool) (gz : bytes -> list bytes) (tid : bytes).
  Context (m1 : bytes -> bytes) (m2 : data -> bytes).
  Notation call := (http_call f2i f2u short m1 m2 uh um st gz tid).
  Lemma test_call fs do obj : Test f2i f2u fs do obj = match NewHandler fs (Some obj) with None => RErr | Some h => api_call f2i f2u h h Some None do obj end.
  Proof.
    unfold Test, api_call. destruct (NewHandler fs (Some obj)); reflexivity.
  Qed.
  Lemma testapi_call fs u do obj : TestAPI f2i f2u fs (Some u) do obj = match NewHandler fs (Some obj) with None => RErr | Some h => api_call f2i f2u h h Some (Some u) do obj end.
  Proof.
    unfold TestAPI, api_call. destruct (NewHandler fs (Some obj)); reflexivity.
  Qed.
  (* Full statement: Test and TestAPI succeed, with the same values, exactly if a call over HTTP does.  Here: if the object holds
     what the server was registered with in the fields that are not sent, all values sent have a JSON text, nobody is logged in,
     and no error of the operation looks like success. *)
  Theorem C135_http_partial : forall fs init cli ser do path obj obj' u, api_type fs -> typed fs obj -> typed fs init ->
    NewHandler fs (Some obj) = Some cli -> NewHandler fs (Some init) = Some ser -> agree fs kept obj init -> texts fs is_in obj -> nobody (Some u) ->
    (forall o o', do o = DOk o' -> typed fs o' /\ texts fs is_out o') -> (forall o e, do o = DErr e -> ~ looks_ok (ErrorCode uh (Some e) 500)) ->
    (call cli ser do path obj = ROk obj' <-> TestAPI f2i f2u fs (Some u) (outcome_of do) obj = ROk obj') /\
    (call cli ser do path obj = ROk obj' <-> Test f2i f2u fs (outcome_of do) obj = ROk obj').
  Proof.
    intros fs init cli ser do path obj obj' u Ha Ht Hi H1 H2 Hag Hx Hu Hdo Hst.
    assert (E : TestAPI f2i f2u fs (Some u) (outcome_of do) obj = Test f2i f2u fs (outcome_of do) obj).
    { rewrite testapi_call, test_call, H1. unfold api_call. destruct (ClientSend cli obj); auto. now rewrite recv_nobody. }
    rewrite E. rewrite test_call, H1. rewrite (C80_call_partial f2i f2u uh um st short gz tid m1 m2 cli ser do path obj obj' Hst). new H1. new H2.
    rewrite <- (made_agree fs obj init) by (auto using typed_length).
    rewrite (call_same f2i f2u fs short obj None (outcome_of do) obj Ha Ht Hx); [tauto|].
    intros o o' Ho. unfold outcome_of in Ho. destruct (do o) as [w| |] eqn:Ed; try discriminate. injection Ho as <-. eauto.
  Qed.
  (* The state of the server, type Hello struct { Name string; Out string `api:"out"` }: TestAPI and Test take it from the object
     that is sent, a server from the object that was registered, here an empty one. *)
  Theorem C135_state_refuted : forall path u mine, let fs := [AFld (B "Name") true [] [] [] None TStr; AFld (B "Out") true [] [] (B "out") None TStr] in
    let do o := match o with [n; _] => DOk [n; n] | _ => DPanic end in
    TestAPI f2i f2u fs (Some u) (outcome_of do) [VStr mine; VStr []] = ROk [VStr mine; VStr mine] /\
    Test f2i f2u fs (outcome_of do) [VStr mine; VStr []] = ROk [VStr mine; VStr mine] /\
    exists cli ser, NewHandler fs (Some [VStr mine; VStr []]) = Some cli /\ NewHandler fs (Some [VStr []; VStr []]) = Some ser /\
      call cli ser do path [VStr mine; VStr []] = ROk [VStr mine; VStr []].
  Proof.
    intros path u mine fs do. split; [destruct mine; reflexivity|]. split; [destruct mine; reflexivity|].
    exists (made fs [VStr mine; VStr []]), (made fs [VStr []; VStr []]). split; [destruct mine; reflexivity|]. split; [reflexivity|].
    destruct mine, short; reflexivity.
  Qed.
  (* An identity: TestAPI has one, a request over HTTP never (C82). *)
  Theorem C135_auth_refuted : forall path uid, uid <> [] -> let fs := [AFld (B "UID") true [] [] (B "auth,required") None TStr; AFld (B "Out") true [] [] (B "out") None TStr] in
    let do o := match o with [n; _] => DOk [n; n] | _ => DPanic end in
    TestAPI f2i f2u fs (Some (NStr uid)) (outcome_of do) [VStr []; VStr []] = ROk [VStr []; VStr uid] /\
    Test f2i f2u fs (outcome_of do) [VStr []; VStr []] = RErr /\
    exists h, NewHandler fs (Some [VStr []; VStr []]) = Some h /\ call h h do path [VStr []; VStr []] = RErr.
  Proof. intros path uid Hu fs do. split; [reflexivity|]. split; [reflexivity|]. eexists. split; [reflexivity|]. destruct short; reflexivity. Qed.
  (* A uint64 above MaxInt64: TestAPI and Test deliver it, over HTTP it is refused (C31, C32). *)
  Theorem C135_uint_refuted : forall path u z, (2 ^ 63 <= z < 2 ^ 64)%Z -> let fs := [AFld (B "N") true [] [] (B "in") None (TUint W64); AFld (B "Out") true [] [] (B "out") None TBool] in
    let do o := match o with [n; _] => DOk [n; VBool true] | _ => DPanic end in
    TestAPI f2i f2u fs (Some u) (outcome_of do) [VNum z; VBool false] = ROk [VNum z; VBool true] /\
    Test f2i f2u fs (outcome_of do) [VNum z; VBool false] = ROk [VNum z; VBool true] /\
    exists h, NewHandler fs (Some [VNum z; VBool false]) = Some h /\ forall obj', call h h do path [VNum z; VBool false] <> ROk obj'.
  Proof.
    intros path u z Hz fs do.
    assert (Hu : uint_range W64 z) by (unfold uint_range; cbn [bits]; lia).
    assert (E : forall uid, Recv f2i f2u (made fs [VNum z; VBool false]) [(B "N", NInt (swrap W64 z))] uid = ROk [VNum z; VBool false]).
    { intros uid. cbn. rewrite uwrap_swrap, uwrap_id by exact Hu. reflexivity. }
    assert (N1 : NewHandler fs (Some [VNum z; VBool false]) = Some (made fs [VNum z; VBool false])) by reflexivity.
    assert (S1 : ClientSend (made fs [VNum z; VBool false]) [VNum z; VBool false] = Ok [(B "N", NInt (swrap W64 z))]) by reflexivity.
    split; [unfold TestAPI; rewrite N1, S1, E; reflexivity|]. split; [unfold Test; rewrite N1, S1, E; reflexivity|].
    exists (made fs [VNum z; VBool false]). split; [exact N1|]. intros obj' H. apply C80_call_partial in H; [|intros [|? [|? [|? ?]]] ?; discriminate].
    unfold api_call in H. rewrite S1 in H.
    destruct (encode_decode short false (NMap [(B "N", NInt (swrap W64 z))])) as (j & m & E1 & E2 & E3).
    - cbn. repeat split; auto. repeat constructor. intros [].
    - cbn. lia.
    - unfold by_json at 1 in H. rewrite E1, E2 in H. inversion E3 as [| | | | | | | | |l mm l' Hp Hf|]; subst. apply Permutation.Permutation_length_1_inv in Hp. subst mm.
      inversion Hf as [|? [k v] ? ? [F1 F2] Hf2]; subst. inversion Hf2; subst. cbn [fst snd] in *. subst k. inversion F2; subst.
      assert (Er : Recv f2i f2u (made fs [VNum z; VBool false]) [(B "N", NDigits (decz (swrap W64 z)))] None = RErr).
      { cbn. rewrite trim_decz, parse_uint_neg; [reflexivity|]. apply swrap_big; [exact Hu|lia]. }
      match type of H with context [Recv ?a ?b ?c ?d ?e] => change (Recv a b c d e) with (Recv f2i f2u (made fs [VNum z; VBool false]) [(B "N", NDigits (decz (swrap W64 z)))] None) in H end.
      rewrite Er in H. discriminate.
  Qed.
  (* Text that is not UTF-8: over HTTP the bytes are replaced by U+FFFD. *)
  Theorem C135_text_refuted : forall path u, let fs := [AFld (B "X") true [] [] (B "in") None TStr; AFld (B "Out") true [] [] (B "out") None TStr] in
    let do o := match o with [x; _] => DOk [x; x] | _ => DPanic end in let bad := VStr [chr 255] in
    TestAPI f2i f2u fs (Some u) (outcome_of do) [bad; VStr []] = ROk [bad; bad] /\
    exists h, NewHandler fs (Some [bad; VStr []]) = Some h /\ call h h do path [bad; VStr []] = ROk [bad; VStr [chr 239; chr 191; chr 189]].
  Proof. intros path u fs do bad. split; [reflexivity|]. eexists. split; [reflexivity|]. destruct short; vm_compute; reflexivity. Qed.
  (* An error with a status that looks like success: TestAPI reports it, over HTTP it is lost (C80). *)
  Theorem C135_status_refuted : forall path u e, let fs := [AFld (B "X") true [] [] (B "out") None TStr] in let do := fun _ : list val => DErr (EHttp 204 (Some e)) in
    TestAPI f2i f2u fs (Some u) (outcome_of do) [VStr []] = RErr /\ Test f2i f2u fs (outcome_of do) [VStr []] = RErr /\
    exists h, NewHandler fs (Some [VStr []]) = Some h /\ call h h do path [VStr []] = ROk [VStr []].
  Proof. intros path u e fs do. split; [reflexivity|]. split; [reflexivity|]. eexists. split; [reflexivity|]. destruct short; reflexivity. Qed.
End Test.
Print Assumptions C135_http_partial.
Print Assumptions C135_state_refuted.
Print Assumptions C135_auth_refuted.
Print Assumptions C135_uint_refuted.
Print Assumptions C135_text_refuted.
Print Assumptions C135_status_refuted.
(* type Op struct { X string `api:"in,required" json:"x"`; Y bool `api:"out" json:"y"`; Known string }, known "bob"; "bad" is refused *)
Example C135_ex : forall f2i f2u, let fs := [AFld (B "X") true [] (B "x") (B "in,required") None TStr; AFld (B "Y") true [] (B "y") (B "out") None TBool; AFld (B "Known") true [] [] [] None TStr] in
  let do o := match o with [VStr x; _; VStr k] => if beqb x (B "bad") then DErr (EHttp 404 None) else DOk [VStr x; VBool (beqb x k); VStr k] | _ => DPanic end in
  let obj x := [VStr x; VBool false; VStr (B "bob")] in let init := [VStr []; VBool false; VStr (B "bob")] in
  api_type fs /\ typed fs init /\ nobody (Some NNil) /\
  (forall x, typed fs (obj x) /\ NewHandler fs (Some (obj x)) = Some (made fs (obj x)) /\ agree fs kept (obj x) init /\ (valid_utf8 x = true -> texts fs is_in (obj x))) /\
  (forall o o', do o = DOk o' -> typed fs o' /\ texts fs is_out o') /\ (forall o e, do o = DErr e -> ~ looks_ok (ErrorCode (fun _ => None) (Some e) 500)) /\
  TestAPI f2i f2u fs (Some NNil) (outcome_of do) (obj (B "bob")) = ROk [VStr (B "bob"); VBool true; VStr (B "bob")] /\
  TestAPI f2i f2u fs (Some NNil) (outcome_of do) (obj (B "eve")) = ROk [VStr (B "eve"); VBool false; VStr (B "bob")] /\
  TestAPI f2i f2u fs (Some NNil) (outcome_of do) (obj (B "bad")) = RErr /\ Test f2i f2u fs (outcome_of do) (obj []) = RErr.
Proof.
  intros f2i f2u fs do obj init.
  assert (Hc : forall i f, nth_error fs i = Some f -> i = 0 /\ f = nth 0 fs f \/ i = 1 /\ f = nth 1 fs f \/ i = 2 /\ f = nth 2 fs f).
  { intros [|[|[|i]]] f E; cbn in E; [injection E as <-; auto|injection E as <-; auto|injection E as <-; auto|destruct i; discriminate]. }
  split; [split|split; [repeat constructor|split; [now right|split; [|split; [|split]]]]].
  - intros f [<-|[<-|[<-|[]]]] _; reflexivity.
  - intros i j f g name Hf Hg If Ig _ _. destruct (Hc i f Hf) as [[-> E]|[[-> E]|[-> E]]], (Hc j g Hg) as [[-> E']|[[-> E']|[-> E']]]; auto; cbn in E, E'; subst; exfalso;
      apply bin_iff in If; apply bin_iff in Ig; discriminate.
  - intros i j f g name Hf Hg If Ig _ _. destruct (Hc i f Hf) as [[-> E]|[[-> E]|[-> E]]], (Hc j g Hg) as [[-> E']|[[-> E']|[-> E']]]; auto; cbn in E, E'; subst; exfalso;
      apply bout_iff in If; apply bout_iff in Ig; discriminate.
  - intros f [<-|[<-|[<-|[]]]]; exact Logic.I.
  - intros f [<-|[<-|[<-|[]]]] X; apply bauth_iff in X; discriminate.
  - intros x. split; [repeat constructor|]. split; [reflexivity|]. split.
    + split; [reflexivity|]. intros i f Hf Hk. destruct (Hc i f Hf) as [[-> E]|[[-> E]|[-> E]]]; try reflexivity; cbn in E; subst f; apply bkept_iff in Hk; discriminate.
    + intros Hx i f v Hf Hv Hi. destruct (Hc i f Hf) as [[-> E]|[[-> E]|[-> E]]]; cbn in E; subst f; try (apply bin_iff in Hi; discriminate).
      injection Hv as <-. split; [exact Hx|]. split; [reflexivity|]. intros name Hw. apply wire_iff in Hw. subst name. reflexivity.
  - intros o o' H. unfold do in H. destruct o as [|[] [|b [|[] [|d o]]]]; try discriminate H. destruct (beqb _ _) in H; [discriminate H|]. injection H as <-. split; [repeat constructor|].
    intros i f v Hf Hv Ho. destruct (Hc i f Hf) as [[-> E]|[[-> E]|[-> E]]]; cbn in E; subst f; try (apply bout_iff in Ho; discriminate).
    injection Hv as <-. split; [exact Logic.I|]. split; [reflexivity|]. intros name Hw. apply wire_iff in Hw. subst name. reflexivity.
  - intros o e H. unfold do in H. destruct o as [|[] [|b [|[] [|d o]]]]; try discriminate H. destruct (beqb _ _) in H; [|discriminate H]. injection H as <-. unfold looks_ok. cbn. lia.
  - repeat split; vm_compute; reflexivity.
Qed.
