From Coq Require Import Bool Ascii String Arith NArith ZArith Lia List.
From Verif Require Import Prelude CtxModel ErrModel ErrSpec.
Import ListNotations.

Section GInd.
  Context (P : gerr -> Prop)
    (Hb : forall p m, P (EBase p m))
    (Hw : forall p m e, P e -> P (EWrap p m e))
    (Hws : forall p m l, Forall P l -> P (EWraps p m l))
    (Hc : forall i e, P e -> P (ECtx i e))
    (Hcp : forall p i e, P e -> P (ECtxP p i e))
    (Hh0 : forall c, P (EHttp c None))
    (Hh : forall c e, P e -> P (EHttp c (Some e)))
    (Hp0 : forall p c, P (EHttpP p c None))
    (Hp : forall p c e, P e -> P (EHttpP p c (Some e)))
    (He : P EEOD) (Hg : forall g, P (EGate g))
    (Hu0 : forall p, P (EUser p None))
    (Hu : forall p e, P e -> P (EUser p (Some e))).
  Fixpoint gerr_rect' (e : gerr) : P e :=
    match e with
    | EBase p m => Hb p m
    | EWrap p m x => Hw p m x (gerr_rect' x)
    | EWraps p m l => Hws p m l ((fix go l : Forall P l :=
        match l with [] => Forall_nil _ | x :: r => Forall_cons x (gerr_rect' x) (go r) end) l)
    | ECtx i x => Hc i x (gerr_rect' x)
    | ECtxP p i x => Hcp p i x (gerr_rect' x)
    | EHttp c None => Hh0 c
    | EHttp c (Some x) => Hh c x (gerr_rect' x)
    | EHttpP p c None => Hp0 p c
    | EHttpP p c (Some x) => Hp p c x (gerr_rect' x)
    | EEOD => He
    | EGate g => Hg g
    | EUser p None => Hu0 p
    | EUser p (Some x) => Hu p x (gerr_rect' x)
    end.
End GInd.

Lemma ror_ok b c : ror (Ok b) c = if b then Ok true else c.
Proof. reflexivity. Qed.

Section Proofs.
  Context (ui : N -> gerr -> bool).

  Lemma geq_ctxp e p i x : exists b, geq e (ECtxP p i x) = Ok b /\ (b = true -> is_ctx e).
  Proof. destruct e; cbn; eexists; split; try reflexivity; try discriminate; cbn; auto. Qed.

  (* Is against a ctx.Error or *ctx.Error target never panics and finds exactly the ctx.Errors *)
  Lemma is_ctx_target t : is_ctx t -> honest ui ->
    forall e, exists b, is ui e t = Ok b /\ (b = true <-> has_ctx e).
  Proof.
    intros Ht Hui.
    assert (Hcmp : forall e, exists b, (if comparable t then geq e t else Ok false) = Ok b /\ (b = true -> is_ctx e)).
    { intros e. destruct t; try contradiction; cbn.
      - exists false. split; [reflexivity|discriminate].
      - apply geq_ctxp. }
    assert (Hroot : forall e, is_ctx e -> has_ctx e).
    { intros e He. exists e. split; [destruct e; left; reflexivity|exact He]. }
    assert (Hleaf : forall e, nodes e = [e] -> has_ctx e -> is_ctx e).
    { intros e He [x [Hx Hc]]. rewrite He in Hx. destruct Hx as [->|[]]. exact Hc. }
    assert (Hstep : forall e x, nodes e = e :: nodes x -> ~ is_ctx e -> (has_ctx e <-> has_ctx x)).
    { intros e x He Hn. split; intros [y [Hy Hc]].
      - rewrite He in Hy. destruct Hy as [->|Hy]; [contradiction|]. exists y. auto.
      - exists y. rewrite He. split; [right; exact Hy|exact Hc]. }
    assert (Hctx : forall (e : gerr), is_ctx e -> forall r, (if comparable t then geq e t else Ok false) = Ok r ->
       match t with ECtx _ _ | ECtxP _ _ _ => Ok true | _ => is ui e t end = Ok true).
    { intros. destruct t; try contradiction; reflexivity. }
    induction e using gerr_rect'.
    all: match goal with |- context [is _ ?e _] =>
           let b := fresh "b" in let Hb := fresh "Hb" in let Hbc := fresh "Hbc" in
           destruct (Hcmp e) as (b & Hb & Hbc); cbn [is]; rewrite Hb; rewrite ror_ok; destruct b end.
    all: try (exists true; split; [reflexivity|]; split; [intros _; apply Hroot; auto|reflexivity]).
    all: try (rewrite ror_ok).
    all: try (exists false; split; [reflexivity|]; split; [discriminate|];
              intros Hh; apply Hleaf in Hh; [destruct Hh|reflexivity]).
    - destruct IHe as (b & Hb' & Hiff). exists b. split; [exact Hb'|].
      rewrite Hiff. rewrite (Hstep (EWrap p m e) e eq_refl ltac:(cbn; auto)). tauto.
    - (* EWraps *) clear Hb Hbc.
      assert (Hl : exists b, (fix any (l : list gerr) : res bool :=
                match l with [] => Ok false | x :: r => ror (is ui x t) (any r) end) l = Ok b /\
              (b = true <-> exists x, In x l /\ has_ctx x)).
      { induction H as [|x l (b & Hb & Hiff) _ IH].
        - exists false. split; [reflexivity|]. split; [discriminate|]. intros [x [[] _]].
        - destruct IH as (b2 & Hb2 & Hiff2). rewrite Hb, ror_ok. destruct b.
          + exists true. split; [reflexivity|]. split; [|reflexivity]. intros _. exists x.
            split; [left; reflexivity|apply Hiff; reflexivity].
          + exists b2. split; [exact Hb2|]. rewrite Hiff2. split.
            * intros [y [Hy Hh]]. exists y. split; [right; exact Hy|exact Hh].
            * intros [y [[->|Hy] Hh]]; [apply Hiff in Hh; discriminate|]. exists y. auto. }
      destruct Hl as (b & Hb & Hiff). exists b. split; [exact Hb|]. rewrite Hiff. split.
      + intros [x [Hx [y [Hy Hc]]]]. exists y. split; [|exact Hc]. cbn. right. apply in_flat_map. exists x. auto.
      + intros [y [Hy Hc]]. cbn in Hy. destruct Hy as [<-|Hy]; [destruct Hc|].
        apply in_flat_map in Hy as [x [Hx Hy]]. exists x. split; [exact Hx|]. exists y. auto.
    - (* ECtx *) exists true. destruct t; try contradiction; cbn;
        (split; [reflexivity|]; split; [intros _; apply Hroot; exact I|reflexivity]).
    - exists true. destruct t; try contradiction; cbn;
        (split; [reflexivity|]; split; [intros _; apply Hroot; exact I|reflexivity]).
    - destruct IHe as (b & Hb' & Hiff). exists b. split; [exact Hb'|].
      rewrite Hiff. rewrite (Hstep (EHttp c (Some e)) e eq_refl ltac:(cbn; auto)). tauto.
    - destruct IHe as (b & Hb' & Hiff). exists b. split; [exact Hb'|].
      rewrite Hiff. rewrite (Hstep (EHttpP p c (Some e)) e eq_refl ltac:(cbn; auto)). tauto.
    - rewrite (Hui p t Ht). exists false. split; [reflexivity|]. split; [discriminate|].
      intros Hh. apply Hleaf in Hh; [destruct Hh|reflexivity].
    - rewrite (Hui p t Ht). destruct IHe as (b & Hb' & Hiff). exists b. split; [exact Hb'|].
      rewrite Hiff. rewrite (Hstep (EUser p (Some e)) e eq_refl ltac:(cbn; auto)). tauto.
  Qed.

  Lemma maybeWrap_spec (Hui : honest ui) f i e :
    (has_ctx e /\ maybeWrap ui f i e = Ok e) \/ (~ has_ctx e /\ maybeWrap ui f i e = Ok (ECtx i e)).
  Proof.
    unfold maybeWrap.
    destruct (is_ctx_target ctx_target I Hui e) as (b & Hb & Hiff).
    destruct (is_ctx_target (ctx_target_p f) I Hui e) as (b2 & Hb2 & Hiff2).
    rewrite Hb. cbn. destruct b.
    - left. split; [apply Hiff; reflexivity|reflexivity].
    - rewrite Hb2. cbn. destruct b2.
      + left. split; [apply Hiff2; reflexivity|reflexivity].
      + right. split; [|reflexivity]. intros H. apply Hiff in H. discriminate.
  Qed.

  Lemma ror_dup a : ror a a = a.
  Proof. destruct a as [[]|]; reflexivity. Qed.

  Lemma is_wrapped i e t : ~ is_ctx t -> is ui (ECtx i e) t = is ui e t.
  Proof.
    intros Ht. cbn [is].
    replace (if comparable t then geq (ECtx i e) t else Ok false) with (Ok false) by (destruct t; cbn in *; tauto || reflexivity).
    rewrite ror_ok. destruct t; cbn in Ht; try tauto; apply ror_dup.
  Qed.

  Lemma wrap_nil f i : WrapError ui f i None = Ok None.
  Proof. reflexivity. Qed.

  Lemma wrap_identity uh (Hui : honest ui) um st f i e :
    exists w, WrapError ui f i (Some e) = Ok (Some w) /\
      emsg um st w = emsg um st e /\
      (forall t, ~ is_ctx t -> errors_is ui (Some w) (Some t) = errors_is ui (Some e) (Some t)) /\
      as_http uh w = as_http uh e /\
      has_ctx w /\
      (forall f' i', WrapError ui f' i' (Some w) = Ok (Some w)).
  Proof.
    assert (Hagain : forall w, has_ctx w -> forall f' i', WrapError ui f' i' (Some w) = Ok (Some w)).
    { intros w Hw f' i'. cbn. destruct (maybeWrap_spec Hui f' i' w) as [[_ ->]|[Hn _]]; [reflexivity|tauto]. }
    destruct (maybeWrap_spec Hui f i e) as [[Hc Hw]|[Hc Hw]]; unfold WrapError at 1; rewrite Hw; eexists; (split; [reflexivity|]).
    - repeat split; auto.
    - assert (has_ctx (ECtx i e)) by (exists (ECtx i e); split; [left; reflexivity|exact I]).
      repeat split; auto. intros t Ht. apply (is_wrapped i e t Ht).
  Qed.

  (* a wrapped error keeps the stack and context of the first wrap *)
  Lemma wrap_keeps (Hui : honest ui) uc f i e w : WrapError ui f i (Some e) = Ok (Some w) ->
    has_ctx e -> w = e /\ as_ctx uc w = as_ctx uc e.
  Proof.
    intros H Hc. cbn in H. destruct (maybeWrap_spec Hui f i e) as [[_ Hw]|[Hn _]]; [|tauto].
    rewrite Hw in H. cbn in H. inversion H; subst. auto.
  Qed.

  Lemma wrap_new (Hui : honest ui) f i e w : WrapError ui f i (Some e) = Ok (Some w) ->
    ~ has_ctx e -> w = ECtx i e.
  Proof.
    intros H Hc. cbn in H. destruct (maybeWrap_spec Hui f i e) as [[Hn _]|[_ Hw]]; [tauto|].
    rewrite Hw in H. cbn in H. inversion H; subst. auto.
  Qed.

End Proofs.
Section Code.
  Context (uh : N -> option Z).
  (* ---- ErrorCode ---- *)
  Definition first_http (l : list gerr) : option Z :=
    fold_right (fun x r => match http_code uh x with Some c => Some c | None => r end) None l.

  Lemma first_http_app a b :
    first_http (a ++ b) = match first_http a with Some c => Some c | None => first_http b end.
  Proof.
    induction a as [|x a IH]; cbn; [reflexivity|]. destruct (http_code uh x); [reflexivity|exact IH].
  Qed.

  Lemma as_http_first e : as_http uh e = first_http (nodes e).
  Proof.
    induction e using gerr_rect'; cbn; try reflexivity; try assumption.
    - fold nodes. induction H as [|x l Hx _ IH]; [reflexivity|].
      cbn [flat_map]. rewrite first_http_app, <- Hx. destruct (as_http uh x); [reflexivity|]. exact IH.
    - destruct (uh p); [reflexivity|assumption].
  Qed.

  Lemma first_http_spec l :
    (exists pre x post c, l = pre ++ x :: post /\ Forall (fun y => http_code uh y = None) pre /\
       http_code uh x = Some c /\ first_http l = Some c) \/
    (Forall (fun y => http_code uh y = None) l /\ first_http l = None).
  Proof.
    induction l as [|x l IH]; [right; split; [constructor|reflexivity]|].
    cbn. destruct (http_code uh x) as [c|] eqn:Hx.
    - left. exists [], x, l, c. repeat split; auto.
    - destruct IH as [(pre & y & post & c & -> & Hpre & Hy & Hf)|[Hall Hf]].
      + left. exists (x :: pre), y, post, c. repeat split; auto.
      + right. split; auto.
  Qed.

  Lemma error_code e def :
    (exists pre x post c, nodes e = pre ++ x :: post /\ Forall (fun y => http_code uh y = None) pre /\
       http_code uh x = Some c /\ ErrorCode uh (Some e) def = c) \/
    (Forall (fun y => http_code uh y = None) (nodes e) /\ ErrorCode uh (Some e) def = def).
  Proof.
    cbn. rewrite as_http_first.
    destruct (first_http_spec (nodes e)) as [(pre & y & post & c & ? & ? & ? & Hf)|[Hall Hf]]; rewrite Hf.
    - left. exists pre, y, post, c. auto.
    - right. auto.
  Qed.

End Code.
Section Proofs2.
  Context (ui : N -> gerr -> bool).
  (* ---- panics of errors.Is ---- *)
  Lemma geq_total a : forall b, ~ holds_ctx_value b -> exists r, geq a b = Ok r.
  Proof.
    induction a using gerr_rect'; intros b Hb; destruct b; cbn in *; try tauto; eauto.
    - destruct (c =? code)%Z; eauto. destruct e; eauto.
    - destruct (c =? code)%Z; eauto. match goal with |- context [match ?o with _ => _ end] => destruct o end; eauto.
  Qed.

  Lemma is_total t : is_ctx t \/ ~ holds_ctx_value t -> forall e, exists b, is ui e t = Ok b.
  Proof.
    intros Ht.
    assert (Hc : forall e, exists b, (if comparable t then geq e t else Ok false) = Ok b).
    { intros e. destruct (comparable t) eqn:E; [|eauto]. apply geq_total.
      destruct Ht as [Ht|Ht]; [destruct t; cbn in *; try tauto; discriminate|exact Ht]. }
    induction e using gerr_rect'.
    all: match goal with |- context [is _ ?e _] =>
           let b := fresh "b" in let Hb := fresh "Hb" in
           destruct (Hc e) as (b & Hb); cbn [is]; rewrite Hb, ror_ok; destruct b; [eauto|] end.
    all: try rewrite ror_ok; eauto.
    - clear Hb. induction H as [|x l [b Hb] _ IH]; [eauto|]. rewrite Hb, ror_ok. destruct b; eauto.
    - destruct IHe as [b Hb']. rewrite Hb'. destruct t, b; cbn; eauto.
    - destruct IHe as [b Hb']. rewrite Hb'. destruct t, b; cbn; eauto.
    - destruct (ui p t); eauto.
    - destruct (ui p t); eauto.
  Qed.

  Lemma is_total' e t : is_ctx t \/ ~ holds_ctx_value t -> is ui e t <> Panic.
  Proof. intros Ht. destruct (is_total t Ht e) as [b ->]. discriminate. Qed.

  (* ---- ErrorGate ---- *)
  Lemma is_gate g : forall e, exists b, is ui e (EGate g) = Ok b /\
    (b = true <-> exists x, In x (nodes e) /\ gate_like ui g x).
  Proof.
    set (R := fun e => exists x, In x (nodes e) /\ gate_like ui g x).
    assert (Hstep : forall e x, nodes e = e :: nodes x -> ~ gate_like ui g e -> (R e <-> R x)).
    { intros e x He Hn. split; intros [y [Hy Hc]].
      - rewrite He in Hy. destruct Hy as [->|Hy]; [contradiction|]. exists y. auto.
      - exists y. rewrite He. split; [right; exact Hy|exact Hc]. }
    assert (Hroot : forall e, gate_like ui g e -> R e).
    { intros e He. exists e. split; [destruct e; left; reflexivity|exact He]. }
    assert (Hleaf : forall e, nodes e = [e] -> R e -> gate_like ui g e).
    { intros e He [x [Hx Hc]]. rewrite He in Hx. destruct Hx as [->|[]]. exact Hc. }
    fold (R). induction e using gerr_rect'; cbn [is comparable geq]; rewrite ror_ok; try rewrite ror_ok.
    all: try (exists false; split; [reflexivity|]; split; [discriminate|];
              intros Hh; apply Hleaf in Hh; [destruct Hh|reflexivity]).
    - destruct IHe as (b & Hb & Hiff). exists b. split; [exact Hb|]. rewrite Hiff.
      symmetry. apply Hstep; [reflexivity|cbn; auto].
    - assert (Hl : exists b, (fix any (l : list gerr) : res bool :=
                match l with [] => Ok false | x :: r => ror (is ui x (EGate g)) (any r) end) l = Ok b /\
              (b = true <-> exists x, In x l /\ R x)).
      { induction H as [|x l (b & Hb & Hiff) _ IH].
        - exists false. split; [reflexivity|]. split; [discriminate|]. intros [x [[] _]].
        - destruct IH as (b2 & Hb2 & Hiff2). rewrite Hb, ror_ok. destruct b.
          + exists true. split; [reflexivity|]. split; [|reflexivity]. intros _. exists x.
            split; [left; reflexivity|apply Hiff; reflexivity].
          + exists b2. split; [exact Hb2|]. rewrite Hiff2. split.
            * intros [y [Hy Hh]]. exists y. split; [right; exact Hy|exact Hh].
            * intros [y [[->|Hy] Hh]]; [apply Hiff in Hh; discriminate|]. exists y. auto. }
      destruct Hl as (b & Hb & Hiff). exists b. split; [exact Hb|]. rewrite Hiff. split.
      + intros [x [Hx [y [Hy Hc]]]]. exists y. split; [|exact Hc]. cbn. right. apply in_flat_map. exists x. auto.
      + intros [y [Hy Hc]]. cbn in Hy. destruct Hy as [<-|Hy]; [destruct Hc|].
        apply in_flat_map in Hy as [x [Hx Hy]]. exists x. split; [exact Hx|]. exists y. auto.
    - rewrite ror_dup. destruct IHe as (b & Hb & Hiff). exists b. split; [exact Hb|]. rewrite Hiff.
      symmetry. apply Hstep; [reflexivity|cbn; auto].
    - rewrite ror_dup. destruct IHe as (b & Hb & Hiff). exists b. split; [exact Hb|]. rewrite Hiff.
      symmetry. apply Hstep; [reflexivity|cbn; auto].
    - destruct IHe as (b & Hb & Hiff). exists b. split; [exact Hb|]. rewrite Hiff.
      symmetry. apply Hstep; [reflexivity|cbn; auto].
    - destruct IHe as (b & Hb & Hiff). exists b. split; [exact Hb|]. rewrite Hiff.
      symmetry. apply Hstep; [reflexivity|cbn; auto].
    - exists true. split; [reflexivity|]. split; [intros _; apply Hroot; exact I|reflexivity].
    - destruct (ui p (EGate g)) eqn:E.
      + exists true. split; [reflexivity|]. split; [intros _; apply Hroot; exact E|reflexivity].
      + exists false. split; [reflexivity|]. split; [discriminate|]. intros Hh.
        apply Hleaf in Hh; [cbn in Hh; congruence|reflexivity].
    - destruct (ui p (EGate g)) eqn:E.
      + exists true. split; [reflexivity|]. split; [intros _; apply Hroot; exact E|reflexivity].
      + destruct IHe as (b & Hb & Hiff). exists b. split; [exact Hb|]. rewrite Hiff.
        symmetry. apply Hstep; [reflexivity|cbn; congruence].
  Qed.

  Lemma gate_spec g f :
    (f (EGate g) = None /\ ErrorGate ui g f = Ok None) \/
    (exists e, f (EGate g) = Some e /\ (exists x, In x (nodes e) /\ gate_like ui g x) /\ ErrorGate ui g f = Ok None) \/
    (exists e, f (EGate g) = Some e /\ (forall x, In x (nodes e) -> ~ gate_like ui g x) /\ ErrorGate ui g f = Ok (Some e)).
  Proof.
    unfold ErrorGate. destruct (f (EGate g)) as [e|] eqn:E; [|left; auto].
    right. cbn. destruct (is_gate g e) as (b & -> & Hiff). cbn. destruct b.
    - left. exists e. repeat split; auto. apply Hiff. reflexivity.
    - right. exists e. repeat split; auto. intros x Hx Hg. assert (false = true); [|discriminate].
      apply Hiff. exists x. auto.
  Qed.

  (* ---- one ctx.Error per path ---- *)
  Lemma path_nodes e l : path e l -> forall x, In x l -> In x (nodes e).
  Proof.
    induction 1; intros y Hy; cbn in Hy |- *; destruct Hy as [->|Hy]; auto.
    - destruct y; left; reflexivity.
    - destruct Hy.
    - right. apply in_flat_map. exists x. auto.
  Qed.

  Lemma no_ctx_path e l : ~ has_ctx e -> path e l -> filter is_ctxb l = [].
  Proof.
    intros Hn Hp. pose proof (path_nodes e l Hp) as Hin.
    induction l as [|x l IH]; [reflexivity|]. cbn.
    destruct (is_ctxb x) eqn:E.
    - exfalso. apply Hn. exists x. split; [apply Hin; left; reflexivity|]. destruct x; cbn in *; congruence || exact I.
    - assert (forall y, In y l -> In y (nodes e)) by (intros; apply Hin; right; assumption). clear IH Hp Hin.
      induction l as [|y l IH]; [reflexivity|]. cbn. destruct (is_ctxb y) eqn:Ey.
      + exfalso. apply Hn. exists y. split; [apply H; left; reflexivity|]. destruct y; cbn in *; congruence || exact I.
      + apply IH. intros z Hz. apply H. right. exact Hz.
  Qed.

  Definition shallow (e : gerr) : Prop := forall l, path e l -> length (filter is_ctxb l) <= 1.

  Lemma shallow_wraps p m l : Forall shallow l -> shallow (EWraps p m l).
  Proof.
    intros H k Hp. inversion Hp; subst; cbn; auto. rewrite Forall_forall in H. eapply H; eauto.
  Qed.
  Lemma shallow_errorf p m l : Forall shallow l -> shallow (errorf p m l).
  Proof.
    intros H. destruct l as [|x [|y r]]; cbn.
    - intros k Hp. inversion Hp; subst; cbn; auto.
    - inversion H; subst. intros k Hp. inversion Hp; subst; cbn; auto.
    - apply shallow_wraps. exact H.
  Qed.

  Lemma shallow_maybe (Hui : honest ui) f i e w : shallow e -> maybeWrap ui f i e = Ok w -> shallow w.
  Proof.
    intros Hs H. destruct (maybeWrap_spec ui Hui f i e) as [[_ Hw]|[Hn Hw]]; rewrite Hw in H; inversion H; subst; auto.
    intros k Hp. inversion Hp; subst; cbn; auto. rewrite (no_ctx_path e l Hn); auto.
  Qed.

  Section BuiltInd.
    Context (P : gerr -> Prop).
    Lemma Forall_built_ind : forall l, Forall (fun e => built ui e /\ P e) l -> Forall P l.
    Proof. intros l H. eapply Forall_impl; [|exact H]. cbn. tauto. Qed.
  End BuiltInd.

  Lemma built_shallow (Hui : honest ui) : forall e, built ui e -> shallow e.
  Proof.
    fix IH 2. intros e H. destruct H.
    - intros k Hp. inversion Hp; subst; cbn; auto.
    - intros k Hp. inversion Hp; subst; cbn; auto.
    - intros k Hp. inversion Hp; subst; cbn; auto.
    - intros k Hp. inversion Hp; subst; cbn; auto.
    - intros k Hp. inversion Hp; subst; cbn; auto. apply (IH e H); assumption.
    - apply shallow_errorf. revert l H. fix IHl 2. intros l H. destruct H; constructor; auto.
    - apply shallow_wraps. revert l H. fix IHl 2. intros l H. destruct H; constructor; auto.
    - intros k Hp. inversion Hp; subst; cbn; auto.
    - intros k Hp. inversion Hp; subst; cbn; auto. apply (IH e H); assumption.
    - intros k Hp. inversion Hp; subst; cbn; auto.
    - intros k Hp. inversion Hp; subst; cbn; auto. apply (IH e H); assumption.
    - cbn in H0. destruct (maybeWrap ui f i e) as [w'|] eqn:E; cbn in H0; [|discriminate]. inversion H0; subst.
      eapply shallow_maybe; [exact Hui| |exact E]. apply (IH e H).
    - unfold NewErrorf in H0. eapply shallow_maybe; [exact Hui| |exact H0]. apply shallow_errorf.
      clear H0. revert l H. fix IHl 2. intros l H. destruct H; constructor; auto.
    - unfold HttpErrorf in H0. destruct (NewErrorf ui f i p m l) as [x|] eqn:E; cbn in H0; [|discriminate].
      inversion H0; subst. assert (Hx : shallow x).
      { eapply shallow_maybe; [exact Hui| |exact E]. apply shallow_errorf.
        clear E H0. revert l H. fix IHl 2. intros l H. destruct H; constructor; auto. }
      intros k Hp. inversion Hp; subst; cbn; auto.
  Qed.
End Proofs2.
