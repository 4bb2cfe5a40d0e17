(* Theorems about RequestCache: C12, C13, C61. *)
From Coq Require Import Bool Arith ZArith Lia List.
From Verif Require Import Prelude LruModel ReqModel ReqSpec ReqProofs.
Import ListNotations.

(* C12: no schedule panics. *)
Theorem C12_no_panic : forall (K V E : Type) (eqb : K -> K -> bool), eqb_ok eqb ->
  forall (zero : V), (forall x y : K, {x = y} + {x <> y}) ->
  forall max (ls : list (label K V E)), (0 <= max)%Z -> Forall clock_ok ls ->
  exists s, rexec eqb (NewRequestLRU zero max) ls = Ok s.
Proof. exact @no_panic. Qed.
Print Assumptions C12_no_panic.

(* C12: in every schedule, a HIT returns the value and error of the last fetch completed for
   the entry, a fetch of the same key, and that fetch's time to live has not passed. *)
Theorem C12_hit : forall (K V E : Type) (eqb : K -> K -> bool), eqb_ok eqb ->
  forall (zero : V), (forall x y : K, {x = y} + {x <> y}) ->
  forall max (ls : list (label K V E)) s, (0 <= max)%Z -> Forall clock_ok ls ->
  rexec eqb (NewRequestLRU zero max) ls = Ok s ->
  forall post r k e v err now pre, log s = post ++ EHit r k e v err now :: pre ->
  exists exp, last_result e pre = Some (k, v, err, exp) /\ (now <= exp)%Z.
Proof. exact @hit_unexpired. Qed.
Print Assumptions C12_hit.

(* C12: when a fetch starts for an entry, every earlier fetch for that entry has returned. *)
Theorem C12_one_fetch_at_a_time : forall (K V E : Type) (eqb : K -> K -> bool), eqb_ok eqb ->
  forall (zero : V), (forall x y : K, {x = y} + {x <> y}) ->
  forall max (ls : list (label K V E)) s, (0 <= max)%Z -> Forall clock_ok ls ->
  rexec eqb (NewRequestLRU zero max) ls = Ok s ->
  forall post r k e now pre r' k' now', log s = post ++ EFetch r k e now :: pre ->
  In (EFetch r' k' e now') pre -> exists v ttl err n, In (EFetched r' k' e v ttl err n) pre.
Proof. exact @one_fetch. Qed.
Print Assumptions C12_one_fetch_at_a_time.

(* C12: an entry serves one key only. *)
Theorem C12_entry_key : forall (K V E : Type) (eqb : K -> K -> bool), eqb_ok eqb ->
  forall (zero : V), (forall x y : K, {x = y} + {x <> y}) ->
  forall max (ls : list (label K V E)) s, (0 <= max)%Z -> Forall clock_ok ls ->
  rexec eqb (NewRequestLRU zero max) ls = Ok s ->
  forall r k e m r' k' m', In (EStart r k e m) (log s) -> In (EStart r' k' e m') (log s) -> k = k'.
Proof. exact @entry_key. Qed.
Print Assumptions C12_entry_key.

Example C12_ex :
  let ls := [LStart 0 7 1; LStart 1 7 2; LLock 0; LLock 1; LCheck 0 3; LFetched 0 55 10 None 4;
             LLock 1; LCheck 1 14; LStart 2 7 5; LLock 2; LCheck 2 15] in
  Forall clock_ok ls /\
  exists s, rexec Nat.eqb (NewRequestLRU 0 3) ls = Ok s /\
    log s = [EFetch 2 7 0 15; EStart 2 7 0 false; EHit 1 7 0 55 None 14; EFetched 0 7 0 55 10 (@None nat) 4;
             EFetch 0 7 0 3; EStart 1 7 0 false; EStart 0 7 0 true].
Proof. split; [repeat constructor|]. eexists. split; vm_compute; reflexivity. Qed.

(* C13 is false of the code: the call that finds the entry just made by another call may
   lock it first and fetch, and then the maker of the entry fetches again although the
   result it could serve has not expired.  Stated here for one key, no invalidation, a cache
   with room, and a single long-lived result. *)
Theorem C13_single_fetch_refuted :
  ~ (forall max (ls : list (label nat nat nat)) s, (1 <= max)%Z -> Forall clock_ok ls ->
     rexec Nat.eqb (NewRequestLRU 0 max) ls = Ok s ->
     (forall l, In l ls -> match l with LInval _ => False | LStart _ k _ => k = 0 | _ => True end) ->
     forall e, long_lived e (log s) -> length (fetchers e (log s)) <= 1).
Proof.
  intros H.
  set (ls := [LStart 0 0 1; LStart 1 0 1; LLock 1; LCheck 1 1; LFetched 1 5 100 None 2; LLock 0; LCheck 0 3] : list (label nat nat nat)).
  destruct (rexec Nat.eqb (NewRequestLRU 0 1) ls) as [s|] eqn:Hs; [|vm_compute in Hs; discriminate].
  specialize (H 1%Z ls s ltac:(lia)).
  assert (Hc : Forall clock_ok ls) by (repeat constructor).
  specialize (H Hc Hs).
  assert (Hk : forall l, In l ls -> match l with LInval _ => False | LStart _ k _ => k = 0 | _ => True end).
  { intros l Hl. cbn in Hl. intuition; subst; auto. }
  specialize (H Hk 0). vm_compute in Hs. inversion Hs; subst s; clear Hs.
  cbn in H. assert (Hl : 2 <= 1); [|lia]. apply H.
  intros r k v ttl err now Hin. cbn in Hin.
  destruct Hin as [?|[Hin|[?|[?|[?|[]]]]]]; try discriminate. inversion Hin; subst. split; [lia|].
  intros r' k' now' Hf. cbn in Hf.
  destruct Hf as [Hf|[Hf|[Hf|[Hf|[Hf|[]]]]]]; inversion Hf; subst; lia.
Qed.
Print Assumptions C13_single_fetch_refuted.

(* What holds instead: as long as results live long enough, an entry is fetched at most
   twice, however many calls share it. *)
Theorem C13_at_most_two_fetches_partial : forall (K V E : Type) (eqb : K -> K -> bool), eqb_ok eqb ->
  forall (zero : V), (forall x y : K, {x = y} + {x <> y}) ->
  forall max (ls : list (label K V E)) s, (0 <= max)%Z -> Forall clock_ok ls ->
  rexec eqb (NewRequestLRU zero max) ls = Ok s ->
  forall e, long_lived e (log s) -> length (fetchers e (log s)) <= 2.
Proof. exact @at_most_two. Qed.
Print Assumptions C13_at_most_two_fetches_partial.

(* And only once if the call that made the entry is the first to fetch. *)
Theorem C13_single_fetch_if_maker_first_partial : forall (K V E : Type) (eqb : K -> K -> bool), eqb_ok eqb ->
  forall (zero : V), (forall x y : K, {x = y} + {x <> y}) ->
  forall max (ls : list (label K V E)) s, (0 <= max)%Z -> Forall clock_ok ls ->
  rexec eqb (NewRequestLRU zero max) ls = Ok s ->
  forall e r k l, long_lived e (log s) -> In (EStart r k e true) (log s) ->
  fetchers e (log s) = l ++ [r] -> l = [].
Proof. exact @one_if_creator_first. Qed.
Print Assumptions C13_single_fetch_if_maker_first_partial.

(* A call fetches only when it made the entry or nothing servable is stored. *)
Theorem C13_fetch_only_if_needed_partial : forall (K V E : Type) (eqb : K -> K -> bool), eqb_ok eqb ->
  forall (zero : V), (forall x y : K, {x = y} + {x <> y}) ->
  forall max (ls : list (label K V E)) s, (0 <= max)%Z -> Forall clock_ok ls ->
  rexec eqb (NewRequestLRU zero max) ls = Ok s ->
  forall post r k e now pre, log s = post ++ EFetch r k e now :: pre ->
  In (EStart r k e true) pre \/
  match last_result e pre with Some (_, _, _, exp) => (exp < now)%Z | None => True end.
Proof. exact @refetch_reason. Qed.
Print Assumptions C13_fetch_only_if_needed_partial.

(* C61: a call that starts after Invalidate(k) never gets a HIT from a fetch that started
   before it. *)
Theorem C61_invalidate_barrier : forall (K V E : Type) (eqb : K -> K -> bool), eqb_ok eqb ->
  forall (zero : V), (forall x y : K, {x = y} + {x <> y}) ->
  forall max (ls : list (label K V E)) s, (0 <= max)%Z -> Forall clock_ok ls ->
  rexec eqb (NewRequestLRU zero max) ls = Ok s ->
  forall post k pre r e m v err now, log s = post ++ EInval k :: pre ->
  In (EStart r k e m) post -> In (EHit r k e v err now) post ->
  exists r' n ttl n', In (EFetch r' k e n) post /\ In (EFetched r' k e v ttl err n') post.
Proof. exact @invalidate_barrier. Qed.
Print Assumptions C61_invalidate_barrier.

(* The fetch for 7 is in flight when 7 is invalidated; the two later calls share a new one. *)
Example C61_ex :
  let ls := [LStart 0 7 1; LLock 0; LCheck 0 3; LInval 7; LStart 1 7 4; LStart 2 7 4; LFetched 0 55 10 None 4;
             LLock 1; LCheck 1 5; LFetched 1 66 10 None 6; LLock 2; LCheck 2 7] in
  exists s post pre, rexec Nat.eqb (NewRequestLRU 0 3) ls = Ok s /\ Forall clock_ok ls /\
    log s = post ++ EInval 7 :: pre /\ In (EStart 2 7 1 false) post /\ In (EHit 2 7 1 66 (@None nat) 7) post.
Proof.
  eexists _, [_; _; _; _; _; _], _. split; [vm_compute; reflexivity|]. split; [repeat constructor|].
  split; [reflexivity|]. cbn. auto 10.
Qed.
