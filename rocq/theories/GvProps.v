(* C108: EqualsGo. *)
From Coq Require Import Bool Ascii String Arith NArith ZArith Lia List Permutation.
From Verif Require Import Prelude PreludeFacts Utf8Model Utf8Facts QuoteModel QuoteFacts DecModel DecFacts DurModel DurProofs EncModel TqModel AstModel GvModel
  AsModel AsSpec AstProofs AsProofs GvProofs AsProps.
Import ListNotations.

Section V.
  (* floats, NaN being one float, with texts that determine them: digits, signs, letters, dots *)
  Context {F : Type} (isprint : N -> bool) (ftext : F -> bytes).
  Definition float_texts : Prop :=
    (forall f, ftext f <> [] /\ forall c, In c (ftext f) -> c <> ","%char /\ c <> "}"%char /\ c <> ":"%char) /\
    (forall f g, ftext f = ftext g -> f = g).
  Notation EqualsGo := (EqualsGo isprint ftext).
  Notation NotEqualsGo := (NotEqualsGo isprint ftext).
  Lemma equalGo_says (e g : any F) P : (gosyntax isprint ftext e = gosyntax isprint ftext g <-> P) -> says (equalGo isprint ftext e g) P.
  Proof. intros H. unfold equalGo, says. rewrite <- H. apply equal_says. Qed.
  Lemma go_decides s (e g : any F) P : usable s 2 -> (gosyntax isprint ftext e = gosyntax isprint ftext g <-> P) ->
    decides (EqualsGo s e g) P /\ decides (NotEqualsGo s e g) (~ P).
  Proof.
    intros Hu H. apply equalGo_says in H. unfold AsModel.EqualsGo, AsModel.NotEqualsGo. split.
    - destruct (named2_ok (B "EqualsGo") s (equalGo isprint ftext e g) Hu) as (r & -> & Er). cbn [rbind]. apply says_true. eapply says_fst; eauto.
    - destruct (named2_ok (B "NotEqualsGo") s (equalGo isprint ftext e g) Hu) as (r & -> & Er). cbn [rbind]. apply says_false. eapply says_fst; eauto.
  Qed.
  Lemma go_plain t v : plain t -> gosyntax isprint ftext (Some (t, v)) = show isprint ftext t v.
  Proof. destruct t; try contradiction; reflexivity. Qed.
  Lemma shows t v w : float_texts -> plain t -> has t v -> has t w -> (show isprint ftext t v = show isprint ftext t w <-> same v w).
  Proof.
    intros (H1 & H2). apply show_same; [|exact H2]. intros f. destruct (H1 f) as (Hn & Ht). split; [exact Hn|].
    unfold token. apply Forall_forall. intros c Hc. destruct (Ht c Hc) as (A1 & A2 & A3). intros [H|[H|H]]; contradiction.
  Qed.
  (* EqualsGo of two values of a type without pointers and interfaces: the same value *)
  Theorem C108_values s t v w : float_texts -> usable s 2 -> plain t -> has t v -> has t w ->
    decides (EqualsGo s (Some (t, v)) (Some (t, w))) (same v w) /\ decides (NotEqualsGo s (Some (t, v)) (Some (t, w))) (~ same v w).
  Proof.
    intros Hf Hu Hp Hv Hw. apply go_decides; [exact Hu|]. rewrite !go_plain by assumption. now apply shows.
  Qed.
  (* pointers to structs, maps, slices and arrays: what they point to *)
  Theorem C108_pointers s n t a b v w : float_texts -> usable s 2 -> plain t -> has t v -> has t w ->
    match t with GStruct _ _ | GMap _ _ _ | GSlice _ _ | GArr _ _ _ => True | _ => False end ->
    let x := Some (GPtr n t, VPtr (Some (a, v))) in let y := Some (GPtr n t, VPtr (Some (b, w))) in
    decides (EqualsGo s x y) (same v w) /\ decides (NotEqualsGo s x y) (~ same v w).
  Proof.
    intros Hf Hu Hp Hv Hw Hk. apply go_decides; [exact Hu|]. cbn [gosyntax].
    assert (E : followed t = true) by (destruct t; try contradiction; reflexivity). rewrite E.
    rewrite <- (shows t v w) by assumption. split; [apply app_inv_head|congruence].
  Qed.
  (* what a deeper pointer points to is not compared *)
  Theorem C108_nested_refuted s n m f t a b v : usable s 2 -> a <> b ->
    let ty := GStruct n [(f, GPtr m t)] in
    exists r, EqualsGo s (Some (ty, VStruct [VPtr (Some (a, v))])) (Some (ty, VStruct [VPtr (Some (b, v))])) = Ok r /\ failed r.
  Proof.
    intros Hu Hab ty.
    destruct (go_decides s (Some (ty, VStruct [VPtr (Some (a, v))])) (Some (ty, VStruct [VPtr (Some (b, v))])) False Hu) as [(r & E & [[[] _]|[_ Hr]]) _];
      [|eauto].
    split; [|contradiction]. subst ty. cbn [gosyntax show commas join option_map fst pointer]. intros H. apply Hab.
    do 2 apply app_inv_head in H. apply app_inv_tail in H. do 2 apply app_inv_head in H. unfold pointer in H. do 3 apply app_inv_head in H.
    apply app_inv_tail in H. now apply hex0x_inj.
  Qed.
  (* types are compared only where %#v shows them: not those of numbers, booleans and texts, also inside interfaces *)
  Theorem C108_types_refuted s z n n' m : usable s 2 ->
    (exists r, EqualsGo s (Some (GInt n, VInt z)) (Some (GInt n', VInt z)) = Ok r /\ passed r) /\
    (exists r, EqualsGo s (Some (GSlice m (GIface (B "interface {}")), VSlice (Some [VIface (Some (GInt n, VInt z))])))
                 (Some (GSlice m (GIface (B "interface {}")), VSlice (Some [VIface (Some (GInt n', VInt z))]))) = Ok r /\ passed r).
  Proof.
    intros Hu. split.
    - destruct (go_decides s (Some (GInt n, VInt z)) (Some (GInt n', VInt z)) True Hu) as [(r & E & [[_ Hr]|[H _]]) _]; [|eauto|contradiction].
      split; auto.
    - destruct (go_decides s (Some (GSlice m (GIface (B "interface {}")), VSlice (Some [VIface (Some (GInt n, VInt z))])))
                 (Some (GSlice m (GIface (B "interface {}")), VSlice (Some [VIface (Some (GInt n', VInt z))]))) True Hu) as [(r & E & [[_ Hr]|[H _]]) _]; [|eauto|contradiction].
      split; auto.
  Qed.
  (* a nil and an empty slice, or map, differ *)
  Theorem C108_empty s n e : usable s 2 ->
    (exists r, EqualsGo s (Some (GSlice n e, VSlice None)) (Some (GSlice n e, VSlice (Some []))) = Ok r /\ failed r).
  Proof.
    intros Hu. destruct (go_decides s (Some (GSlice n e, VSlice None)) (Some (GSlice n e, VSlice (Some []))) False Hu) as [(r & E & [[[] _]|[_ Hr]]) _]; [|eauto].
    split; [|contradiction]. cbn [gosyntax show]. intros H. apply app_inv_head in H. discriminate H.
  Qed.
End V.

(* EqualsGo(t, x, y) of map[string][]int *)
Definition ex_go : tree := TOther [TBlock [TOther [ex_call 9 "EqualsGo" ["t"%string; "x"%string; "y"%string] []]]].
Definition ex_mt : gty := GMap (B "map[string][]int") (GString (B "string")) (GSlice (B "[]int") (GInt (B "int"))).
Example C108_ex :
  let x := VMap (Some [(VStr (B "a"), VSlice (Some [VInt 1; VInt (-2)])); (VStr (B "b"), VSlice None)]) in
  let y := VMap (Some [(VStr (B "b"), VSlice None); (VStr (B "a"), VSlice (Some [VInt 1; VInt (-2)]))]) in
  decides (EqualsGo (F := N) (fun n => (n <? 127)%N) dec (ex_site ex_go 9 "EqualsGo") (Some (ex_mt, x)) (Some (ex_mt, y))) (same x y) /\ same x y.
Proof.
  intros x y. split.
  - apply C108_values.
    + split.
      * intros f. split; [apply dec_nonnil|]. intros c Hc. pose proof (dec_digits f) as D. rewrite Forall_forall in D. apply D in Hc.
        split; [|split]; intros ->; discriminate Hc.
      * apply dec_inj.
    + intros t Ht. injection Ht as <-. regulars.
    + cbn. repeat split; eexists _, _; (split; [reflexivity|discriminate]).
    + cbn. repeat split; auto. constructor; [intros [H|[]]; discriminate H|]. constructor; [intros []|constructor].
    + cbn. repeat split; auto. constructor; [intros [H|[]]; discriminate H|]. constructor; [intros []|constructor].
  - eapply same_map; [apply perm_swap|]. repeat constructor.
Qed.

Print Assumptions C108_values. Print Assumptions C108_pointers. Print Assumptions C108_nested_refuted. Print Assumptions C108_types_refuted. Print Assumptions C108_empty.
