(* Theorems about metrics: C49, C50, C51, C52. *)
From Coq Require Import Bool Ascii String Arith NArith ZArith Lia List.
From Verif Require Import Prelude Utf8Model QuoteModel DurModel PromModel PromSpec PromProofs.
Import ListNotations.

(* C49: two lists of label values with the same series key are equal, and a key exists exactly when
   the number of values is right. *)
Theorem C49_labels : forall (isprint : N -> bool) (keys v1 v2 : list bytes) s,
  stringify isprint keys v1 = Ok s -> stringify isprint keys v2 = Ok s -> v1 = v2.
Proof. exact @stringify_inj. Qed.
Print Assumptions C49_labels.

Theorem C49_panics_only_on_count : forall (isprint : N -> bool) (keys vals : list bytes),
  stringify isprint keys vals = Panic <-> length keys <> length vals.
Proof. exact @stringify_panic. Qed.
Print Assumptions C49_panics_only_on_count.

Example C49_ex : let p := fun n => (n <? 127)%N && (31 <? n)%N in
  stringify p [B "a"; B "b"] [B "x,b="; B "y"] <> stringify p [B "a"; B "b"] [B "x"; B "b=y"] /\
  stringify p [B "a"; B "b"] [[dquote]; [chr 10]] =
    Ok (B "a=" ++ [dquote; backslash; dquote; dquote] ++ B ",b=" ++ [dquote] ++ B "\n" ++ [dquote]).
Proof. split; [vm_compute; discriminate|vm_compute; reflexivity]. Qed.

(* C50: under every interleaving each series counts exactly the finished observations of its label
   values: their number, their sum in the order of the updates, and for each bound those not above it. *)
Theorem C50_histogram : forall (isprint : N -> bool) (V : Type) (leb : V -> V -> bool) (add : V -> V -> V) (zero : V)
    (keys : list bytes) (le : list V) (ls : list (mlabel V)) (vals : list bytes) k h,
  stringify isprint keys vals = Ok k ->
  mget beqb (tbl (mrun isprint leb add zero keys le ls)) k = Some h ->
  let os := values_of vals (finished (length keys) ls) in
  scount h = length os /\ ssum h = fold_left add os zero /\
  (os = [] -> buckets h = []) /\
  (os <> [] -> length (buckets h) = length le /\
    forall i b, nth_error le i = Some b -> nth_error (buckets h) i = Some (count_le leb b os)).
Proof. exact @hist_final. Qed.
Print Assumptions C50_histogram.

(* a series that does not exist has no finished observation *)
Theorem C50_no_series : forall (isprint : N -> bool) (V : Type) (leb : V -> V -> bool) (add : V -> V -> V) (zero : V)
    (keys : list bytes) (le : list V) (ls : list (mlabel V)) (vals : list bytes) k,
  stringify isprint keys vals = Ok k ->
  mget beqb (tbl (mrun isprint leb add zero keys le ls)) k = None ->
  values_of vals (finished (length keys) ls) = [].
Proof. exact @hist_absent. Qed.
Print Assumptions C50_no_series.

(* the number of observations not above a bound grows with the bound *)
Theorem C50_monotone : forall (V : Type) (leb : V -> V -> bool) a b (os : list V),
  (forall x, leb x a = true -> leb x b = true) -> count_le leb a os <= count_le leb b os.
Proof. exact @count_mono. Qed.
Print Assumptions C50_monotone.

Definition ex_sched : list (mlabel nat) :=
  [LFind 0 3 [B "a"]; LFind 1 7 [B "a"]; LFind 2 1 [B "b"]; LFind 3 9 []; LUpdate 1; LPrint (B "x=a");
   LUpdate 0; LUpdate 2; LFind 0 12 [B "a"]].
Definition ex_print (n : N) := (n <? 127)%N && (31 <? n)%N.
Definition ex_key (s : string) : bytes := B "l=" ++ quote ex_print (B s).
Example C50_ex :
  mget beqb (tbl (mrun ex_print Nat.leb Nat.add 0 [B "l"] [2; 5; 10] ex_sched)) (ex_key "a")
    = Some (Series [0; 1; 2] 10 2) /\
  mget beqb (tbl (mrun ex_print Nat.leb Nat.add 0 [B "l"] [2; 5; 10] ex_sched)) (ex_key "b")
    = Some (Series [1; 1; 1] 1 1) /\
  values_of [B "a"] (finished 1 ex_sched) = [7; 3].
Proof. vm_compute. auto. Qed.

(* C51 is false: a printer that visits a series between its creation and its first update reads
   buckets that are not there yet. *)
Theorem C51_print_never_panics_refuted :
  exists (ls : list (mlabel nat)) (keys : list bytes) (le : list nat) k,
    mprint le (mrun ex_print Nat.leb Nat.add 0 keys le ls) k = Some Panic.
Proof.
  exists [LFind 0 3 [B "a"]], [B "l"], [1; 2], (ex_key "a"). vm_compute. reflexivity.
Qed.
Print Assumptions C51_print_never_panics_refuted.

(* what remains true: once a series has a finished observation, printing it at any moment of any
   interleaving shows exactly the finished observations *)
Theorem C51_print_snapshot_partial : forall (isprint : N -> bool) (V : Type) (leb : V -> V -> bool)
    (add : V -> V -> V) (zero : V) (keys : list bytes) (le : list V) (ls : list (mlabel V)) (vals : list bytes) k,
  stringify isprint keys vals = Ok k ->
  let os := values_of vals (finished (length keys) ls) in
  os <> [] ->
  mprint le (mrun isprint leb add zero keys le ls) k =
    Some (Ok (map (fun b => (b, count_le leb b os)) le, length os, fold_left add os zero, length os)).
Proof. exact @hist_print. Qed.
Print Assumptions C51_print_snapshot_partial.

Example C51_ex :
  mprint [2; 5] (mrun ex_print Nat.leb Nat.add 0 [B "l"] [2; 5] ex_sched) (ex_key "a")
    = Some (Ok ([(2, 0); (5, 1)], 2, 10, 2)).
Proof. vm_compute. reflexivity. Qed.

(* C52: a counter shows the sum of the finished observations of its labels (C50 without bounds). *)
Theorem C52_counter : forall (isprint : N -> bool) (V : Type) (leb : V -> V -> bool) (add : V -> V -> V) (zero : V)
    (keys : list bytes) (ls : list (mlabel V)) (vals : list bytes) k h,
  stringify isprint keys vals = Ok k ->
  mget beqb (tbl (mrun isprint leb add zero keys [] ls)) k = Some h ->
  ssum h = fold_left add (values_of vals (finished (length keys) ls)) zero.
Proof.
  intros isprint V leb add zero keys ls vals k h Hk Hh.
  exact (proj1 (proj2 (hist_final isprint leb add zero keys [] ls vals k h Hk Hh))).
Qed.
Print Assumptions C52_counter.

(* C52: from the moment Counter(k) returns handle id and as long as SetFunc is not called for k, the
   series shows the value it had (0 if it was new) plus all Inc and minus all Dec on id, as an int64,
   and Counter(k) keeps returning id. *)
Theorem C52_gauge : forall (pre suf : list gop) k id,
  (forall o, In o suf -> ~ sets_func k o) ->
  snd (gstep (gstate pre) (GCounter k)) = GHandle id ->
  gshow (gstate (pre ++ GCounter k :: suf)) k =
    ShownCount (wrap64 (match gshow (gstate pre) k with ShownCount z => z | _ => 0 end + total id suf)) /\
  snd (gstep (gstate (pre ++ GCounter k :: suf)) (GCounter k)) = GHandle id.
Proof. exact @gauge_sum. Qed.
Print Assumptions C52_gauge.

(* two series never share a handle, so updates of one do not show in the other *)
Theorem C52_gauge_distinct : forall (ops : list gop) k1 k2 id,
  snd (gstep (gstate (ops ++ [GCounter k1])) (GCounter k2)) = GHandle id ->
  snd (gstep (gstate ops) (GCounter k1)) = GHandle id -> k1 = k2.
Proof. exact @gauge_distinct. Qed.
Print Assumptions C52_gauge_distinct.

(* int64 values that fit are not changed by the wrap-around *)
Theorem C52_in_range : forall a, int64 a -> wrap64 a = a.
Proof. exact @wrap64_small. Qed.
Print Assumptions C52_in_range.

Example C52_ex :
  gshow (gstate [GCounter (B "a"); GInc 0 5; GCounter (B "b"); GInc 1 7; GCounter (B "a"); GDec 0 2; GInc 0 10]) (B "a")
    = ShownCount 13 /\
  gshow (gstate [GCounter (B "a"); GInc 0 5; GSetFunc (B "a") None; GCounter (B "a"); GInc 0 1]) (B "a") = ShownCount 0 /\
  snd (gstep (gstate [GSetFunc (B "a") (Some 0)]) (GCounter (B "a"))) = GPanic.
Proof. vm_compute. auto. Qed.
