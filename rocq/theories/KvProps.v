(* Theorems about the KeyValue store and node lookups: C14, C15, C16, C60. *)
From Coq Require Import Bool Ascii String Arith NArith ZArith Lia List Permutation.
From Verif Require Import Prelude Utf8Model QuoteModel DurModel EncModel KvModel KvSpec KvProofs.
Import ListNotations.

(* C14: Get returns the value of the last write to the key. *)
Theorem C14_store : forall (ops : list kvop) k, kvGet (kvrun ops) k = last_write ops k.
Proof. exact @kvrun_get. Qed.
Print Assumptions C14_store.

Example C14_ex :
  map (kvGet (kvrun [KUpsert (B "a") (Some [(B "x", NInt 1)]); KUpsert (B "b") None; KUpsert (B "c") (Some []);
                     KDelete (B "c"); KUpsert (B "a") (Some [(B "x", NInt 2)])])) [B "a"; B "b"; B "c"]
  = [Some [(B "x", NInt 2)]; None; None].
Proof. vm_compute. reflexivity. Qed.

(* C15: for every history, iteration order, listing of maps and callback, Range calls the callback once for each
   entry all filters accept, in the state left by the previous call, up to the first result that is
   not nil. *)
Theorem C15_range : forall (isprint : N -> bool) (sh : nat -> node -> node), (forall i n, reorder n (sh i n)) ->
  forall (St E : Type) (cb : St -> bytes -> kval -> St * cbres E) (ops : list kvop) order fs s s' tr res,
  Permutation (kvrun ops) order ->
  (forall k v, In (k, v) (kvrun ops) -> Forall (fun f => accepts isprint f v \/ refuses isprint f v) fs) ->
  kvRange isprint sh cb s order fs = (s', tr, res) ->
  exists l, NoDup (map fst l) /\
    (forall e, In e l <-> In e (kvrun ops) /\ Forall (fun f => accepts isprint f (snd e)) fs) /\
    calls cb s tr s' /\ visits l tr res.
Proof.
  intros isprint sh Hsh St E cb ops order fs s s' tr res.
  exact (range_spec isprint sh Hsh cb (kvrun ops) order fs s s' tr res (kvrun_nodup ops)).
Qed.
Print Assumptions C15_range.

(* C15: with an unsupported comparison no callback runs; the error is returned exactly when some
   entry gets as far as that filter. *)
Theorem C15_unsupported : forall (isprint : N -> bool) (sh : nat -> node -> node), (forall i n, reorder n (sh i n)) ->
  forall (St E : Type) (cb : St -> bytes -> kval -> St * cbres E) store order pre f post s s' tr res,
  Permutation store order -> supported f = false ->
  (forall k v, In (k, v) store -> Forall (fun f => accepts isprint f v \/ refuses isprint f v) pre) ->
  kvRange isprint sh cb s order (pre ++ f :: post) = (s', tr, res) ->
  tr = [] /\ s' = s /\ (res = RNil \/ res = RUnsupported) /\
  (res = RUnsupported <-> exists e, In e store /\ Forall (fun f => accepts isprint f (snd e)) pre).
Proof. exact @range_unsupported. Qed.
Print Assumptions C15_unsupported.

(* filters on scalar values always accept or refuse *)
Theorem C15_scalar_filters : forall (isprint : N -> bool) f v w,
  fval f = Some w -> scalar w -> go_node (field_of v (ffield f)) -> supported f = true ->
  accepts isprint f v \/ refuses isprint f v.
Proof. exact @scalar_definite. Qed.
Print Assumptions C15_scalar_filters.

Definition ex_store : list kvop :=
  [KUpsert (B "a") (Some [(B "x", NInt 1)]); KUpsert (B "b") (Some [(B "x", NInt 2)]);
   KUpsert (B "c") (Some [(B "x", NInt 1); (B "y", NStr (B "q"))]); KUpsert (B "d") None].
Definition ex_isprint (n : N) := (n <? 127)%N && (31 <? n)%N.
(* the callback stops with EOD at c *)
Definition ex_cb (s : list bytes) (k : bytes) (v : kval) : list bytes * cbres nat :=
  (s ++ [k], if beqb k (B "c") then CEod else CNil).
Example C15_ex :
  kvRange ex_isprint (fun _ n => n) ex_cb [] (kvrun ex_store) [Filt (B "x") (B "EQ") (Some (NInt 1))]
    = ([B "a"; B "c"],
       [(B "a", Some [(B "x", NInt 1)], CNil); (B "c", Some [(B "x", NInt 1); (B "y", NStr (B "q"))], CEod)], RNil) /\
  kvRange ex_isprint (fun _ n => n) ex_cb [] (rev (kvrun ex_store)) [Filt (B "x") (B "NEQ") (Some (NInt 1))]
    = ([B "d"; B "b"], [(B "d", None, CNil); (B "b", Some [(B "x", NInt 2)], CNil)], RNil) /\
  kvRange ex_isprint (fun _ n => n) ex_cb [] (kvrun ex_store)
    [Filt (B "x") (B "EQ") (Some (NInt 1)); Filt (B "x") (B "G") (Some (NInt 1))] = ([], [], RUnsupported).
Proof. vm_compute. auto. Qed.

(* C16 is false for containers: the text of a list drops the kind of its numbers, and the text of a map
   with two entries depends on the listing, so an entry may fail to equal itself. *)
Theorem C16_equality_refuted :
  (exists f v w, fval f = Some w /\ fcmp f = B "EQ" /\ ~ same_value (field_of v (ffield f)) w /\
     forall sh, (forall i n, reorder n (sh i n)) -> fCheck ex_isprint sh 0 f v = Good true) /\
  (exists f v w sh, fval f = Some w /\ fcmp f = B "EQ" /\ field_of v (ffield f) = w /\
     (forall i n, reorder n (sh i n)) /\ fCheck ex_isprint sh 0 f v = Good false).
Proof. exact eq_refuted. Qed.
Print Assumptions C16_equality_refuted.

(* what remains true: compared with a scalar, EQ keeps exactly the equal values and NEQ the others *)
Theorem C16_scalar_partial : forall (isprint : N -> bool) (sh : nat -> node -> node) i f v w,
  (forall i n, reorder n (sh i n)) ->
  fval f = Some w -> scalar w -> go_node (field_of v (ffield f)) ->
  exists b, (b = true <-> same_value (field_of v (ffield f)) w) /\
    (fcmp f = B "EQ" -> fCheck isprint sh i f v = Good b) /\
    (fcmp f = B "NEQ" -> fCheck isprint sh i f v = Good (negb b)).
Proof. exact @check_scalar. Qed.
Print Assumptions C16_scalar_partial.

(* and a container whose maps have at most one entry equals itself *)
Theorem C16_equal_containers_partial : forall (isprint : N -> bool) (sh : nat -> node -> node) i f v w,
  (forall i n, reorder n (sh i n)) ->
  fval f = Some w -> field_of v (ffield f) = w -> one_listing w -> fcmp f = B "EQ" ->
  fCheck isprint sh i f v = Good true.
Proof. exact @check_equal. Qed.
Print Assumptions C16_equal_containers_partial.

Example C16_ex :
  let v := Some [(B "x", NStr (B "1")); (B "y", NList [NMap [(B "k", NBool true)]])] in
  fCheck ex_isprint (fun _ n => n) 0 (Filt (B "x") (B "EQ") (Some (NStr (B "1")))) v = Good true /\
  fCheck ex_isprint (fun _ n => n) 0 (Filt (B "x") (B "EQ") (Some (NDigits (B "1")))) v = Good false /\
  fCheck ex_isprint (fun _ n => n) 0 (Filt (B "z") (B "EQ") (Some NNil)) v = Good true /\
  fCheck ex_isprint (fun _ n => n) 0 (Filt (B "y") (B "EQ") (Some (NList [NMap [(B "k", NBool true)]]))) v = Good true.
Proof. vm_compute. auto. Qed.

(* C60 is false when a JSON name occurs twice: Find takes the first, AsMap the last. *)
Theorem C60_find_agrees_refuted : exists l k, Find l k <> mget beqb (AsMap l) k.
Proof. exists [(B "A", B "a", NInt 1); (B "B", B "a", NInt 2)], (B "a"). vm_compute. discriminate. Qed.
Print Assumptions C60_find_agrees_refuted.

(* what each returns, for every list *)
Theorem C60_find_first_partial : forall l k, Find l k =
  match find (fun p => beqb (snd (fst p)) k) l with Some p => Some (snd p) | None => None end.
Proof. exact @Find_first. Qed.
Print Assumptions C60_find_first_partial.
Theorem C60_asmap_last_partial : forall l k, mget beqb (AsMap l) k =
  match find (fun p => beqb (snd (fst p)) k) (rev l) with Some p => Some (snd p) | None => None end.
Proof. exact @AsMap_last. Qed.
Print Assumptions C60_asmap_last_partial.
(* and they agree when JSON names are distinct *)
Theorem C60_distinct_names_partial : forall l k, NoDup (map (fun p => snd (fst p)) l) -> mget beqb (AsMap l) k = Find l k.
Proof. exact @Find_AsMap. Qed.
Print Assumptions C60_distinct_names_partial.

Example C60_ex : let l := [(B "A", B "a", NInt 1); (B "B", B "b", NInt 2)] in
  mget beqb (AsMap l) (B "b") = Some (NInt 2) /\ Find l (B "b") = Some (NInt 2) /\ Find l (B "B") = None.
Proof. vm_compute. auto. Qed.
