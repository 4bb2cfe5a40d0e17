(* C100 with Close: the bytes of a websocket, /repo/http/ws/ws.go. *)
From Coq Require Import Bool Ascii String Arith NArith ZArith Lia List.
From Verif Require Import Prelude Utf8Model Utf8Facts ReqModel EncModel JsonModel WsModel FrModel FrSpec FrProofs FrRun FrProps.
Import ListNotations.

(* C100 is false when Close is called during a Write: the client gets a message that nobody wrote, and not the one for which Write
   returned nil. *)
Definition torn : list flabel := [FWrite 0 (B "hi"); FStep 0; FStep 0; FClose 1 1000; FStep 1; FStep 1; FStep 1; FStep 1; FStep 0; FStep 0].
Theorem C100_close_refuted : exists m, let s := fexec 4096 finit torn in
  sized torn /\ In (ERet 0 (B "hi") true) (flog s) /\ reads false (wire (net_of (out s))) [text m] /\
  (forall g, ~ In m (called_by g (flog s))) /\ forall fs, reads false (wire (net_of (out s))) fs -> ~ In (text (B "hi")) fs.
Proof.
  exists [chr 136; chr 2]. set (s := fexec 4096 finit torn).
  assert (Ew : wire (net_of (out s)) = [chr 129; chr 2; chr 136; chr 2; chr 3; chr 232; "h"; "i"]%char) by (vm_compute; reflexivity).
  assert (El : flog s = [ERet 0 (B "hi") true; ECloseSent 1 1000; ECloseHold 1 1000; ECloseCall 1; EHold 0 (B "hi"); ECall 0 (B "hi")]) by (vm_compute; reflexivity).
  assert (Hr : reads false (wire (net_of (out s))) [text [chr 136; chr 2]]).
  { rewrite Ew. exists [chr 129; chr 2; chr 136; chr 2], [chr 3; chr 232; "h"; "i"]%char. split; [reflexivity|]. split.
    - apply stream_one. apply (frame_plain true 1 [chr 136; chr 2] 2 []); [reflexivity|]. apply len_7. discriminate.
    - intros f x y E Hf. inversion Hf as [fin op p l e Ho Hl|]; subst. apply len_field_small in Hl. cbn [app] in E.
      pose proof (f_equal (fun l => code (hd zero (tl l))) E) as E2. cbn [hd tl] in E2. rewrite !code_chr in E2 by lia. lia. }
  split; [|split; [|split; [exact Hr|split]]].
  - intros g m H. unfold torn in H. cbn [In] in H. repeat (destruct H as [E|H]; [try discriminate E; injection E as _ <-; vm_compute; reflexivity|]). destruct H.
  - rewrite El. now left.
  - intros g. rewrite El. cbn [called_by]. destruct (0 =? g); cbn; [intros [E|[]]; discriminate|intros []].
  - intros fs H Hi. rewrite <- (C100_unambiguous _ _ _ _ Hr H) in Hi. destruct Hi as [E|[]]. discriminate.
Qed.
Print Assumptions C100_close_refuted.

(* two goroutines write, the connection breaks in the second frame, and Close is called later *)
Definition broken : list flabel :=
  [FWrite 0 (B "a"); FWrite 1 (B "bc"); FStep 1; FStep 0; FStep 1; FStep 1; FStep 1; FBreak 2; FStep 0; FStep 0; FStep 0; FStep 0; FClose 0 1000; FStep 0; FStep 0; FStep 0; FStep 0].
Example C100_ex : sized broken /\ apart 4096 broken /\ let s := fexec 4096 finit broken in
  accepted (flog s) = [B "bc"] /\ wire (net_of (out s)) = [chr 129; chr 2; "b"; "c"; chr 129; chr 1]%char /\ In (ERet 0 (B "a") false) (flog s) /\
  reads false (wire (net_of (out s))) [text (B "bc")].
Proof.
  split; [|split; [|split; [|split; [|split]]]].
  - intros g m H. unfold broken in H. cbn [In] in H. repeat (destruct H as [E|H]; [try discriminate E; injection E as _ <-; vm_compute; reflexivity|]). destruct H.
  - assert (G : forall n, n <= 17 -> let s := fexec 4096 finit (firstn n broken) in hold_m s = None \/ hold_wio s = None).
    { intros n Hn. do 18 (destruct n as [|n]; [vm_compute; auto|]). lia. }
    intros n. destruct (le_lt_dec n 17) as [Hn|Hn]; [now apply G|]. rewrite firstn_all2 by (cbn; lia). rewrite <- (firstn_all broken). now apply G.
  - vm_compute. reflexivity.
  - vm_compute. reflexivity.
  - vm_compute. auto.
  - assert (Ew : wire (net_of (out (fexec 4096 finit broken))) = [chr 129; chr 2; "b"; "c"; chr 129; chr 1]%char) by (vm_compute; reflexivity). rewrite Ew.
    exists [chr 129; chr 2; "b"; "c"]%char, [chr 129; chr 1]. split; [reflexivity|]. split.
    + apply stream_one. apply (frame_plain true 1 (B "bc") 2 []); [reflexivity|]. apply len_7. discriminate.
    + eapply (part_no_frame false (text (B "a")) [chr 129; chr 1; "a"%char] _ ["a"%char]); [|reflexivity|discriminate].
      apply (frame_plain true 1 (B "a") 1 []); [reflexivity|]. apply len_7. discriminate.
Qed.
Example C100_ex_closed : let s := fexec 4096 finit [FClose 0 1000; FStep 0; FStep 0; FStep 0; FStep 0; FStep 0] in
  In (ECloseRet 0 true) (flog s) /\ (forall m, ~ writing s 1 m) /\
  flog (fexec 4096 s [FWrite 1 (B "a"); FStep 1; FStep 1; FStep 1; FStep 1]) = [ERet 1 (B "a") false; EHold 1 (B "a"); ECall 1 (B "a")] ++ flog s.
Proof.
  split; [vm_compute; auto|]. split; [intros m [E|[E|[E|E]]]; vm_compute in E; discriminate|]. vm_compute. reflexivity.
Qed.
