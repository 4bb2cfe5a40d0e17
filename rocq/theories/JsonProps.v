(* Theorems about JSON encoding and decoding: C29, C30, C36, C62, C63. *)
From Coq Require Import Bool Ascii String Arith NArith ZArith Lia List Permutation.
From Verif Require Import Prelude PreludeFacts Utf8Model DecModel DurModel DurSpec DurProofs EncModel KvSpec KvProofs JsonModel JsonSpec JsonFacts JsonProofs JsonParse.
Import ListNotations.
Local Open Scope N_scope.

(* C29: writing a node and reading it back, with or without indentation. *)
Theorem C29_round_trip : forall (short indent : bool) (n : node), good_node n -> N.of_nat (ndepth n) <= 10000 ->
  exists j m, Encode short indent n = Ok j /\ Decode j = Good (Some m) /\ reads_as n m.
Proof. exact encode_decode. Qed.
Print Assumptions C29_round_trip.

(* C29: any byte string; undecodable bytes come back as U+FFFD, the others unchanged. *)
Theorem C29_any_string : forall (short indent : bool) (s : bytes),
  exists j, Encode short indent (NStr s) = Ok j /\ Decode j = Good (Some (NStr (cleaned s))).
Proof. exact string_decode. Qed.
Print Assumptions C29_any_string.

(* C29: Encode panics exactly when the node holds a number that has no JSON form. *)
Theorem C29_panics : forall (short indent : bool) (n : node), Encode short indent n = Panic <-> holds_bad_number n.
Proof. exact encode_panics. Qed.
Print Assumptions C29_panics.

Example C29_panics_ex : Encode true false (NMap [(B "a", NList [NDigits (B "01")])]) = Panic.
Proof. reflexivity. Qed.

Definition C29_node : node :=
  NMap [(B "z<", NPairs [((B "F", B "b"), NInt (-7)); ((B "G", B "a"), NStr [chr 34; chr 10; chr 0xC3; chr 0xA9]); ((B "H", B "b"), NNil)]);
        (B "a", NList [NDur 1500000000; NBool true; NMap []; NDigits (B "1.50e+3")])].
Example C29_ex : good_node C29_node /\ N.of_nat (ndepth C29_node) <= 10000 /\
  Encode true false C29_node = Ok (B "{""a"":[""1.5s"",true,{},1.50e+3],""z\u003c"":{""b"":-7,""a"":""\""\n" ++ [chr 0xC3; chr 0xA9] ++ B """,""b"":null}}") /\
  match Encode true true C29_node with Ok j => Decode j | Panic => Fail tt end =
    Good (Some (NMap [(B "a", NList [NStr (B "1.5s"); NBool true; NMap []; NDigits (B "1.50e+3")]);
                      (B "z<", NMap [(B "b", NNil); (B "a", NStr [chr 34; chr 10; chr 0xC3; chr 0xA9])])])).
Proof.
  split; [|split; [|split]].
  - cbn. repeat split; try (repeat constructor; cbn; intuition discriminate).
    apply is_number_spec. reflexivity.
  - vm_compute. discriminate.
  - vm_compute. reflexivity.
  - vm_compute. reflexivity.
Qed.

(* C30: the order in which Go happens to list the maps of a node, at any depth, does not matter. *)
Theorem C30_deterministic : forall (short indent : bool) (n n' : node), distinct_keys n -> reorder n n' ->
  Encode short indent n = Encode short indent n'.
Proof. exact encode_reorder. Qed.
Print Assumptions C30_deterministic.

(* C30: two map nodes that answer every lookup alike have the same encoding. *)
Theorem C30_same_entries : forall (short indent : bool) (l m : list (bytes * node)),
  NoDup (map fst l) -> NoDup (map fst m) -> (forall k, mget beqb l k = mget beqb m k) ->
  Encode short indent (NMap l) = Encode short indent (NMap m).
Proof. exact encode_same_entries. Qed.
Print Assumptions C30_same_entries.

Example C30_ex :
  let n := NMap [(B "b", NNil); (B "a", NInt 1); (B "ab", NMap [(B "y", NNil); (B "x", NNil)])] in
  let n' := NMap [(B "ab", NMap [(B "x", NNil); (B "y", NNil)]); (B "a", NInt 1); (B "b", NNil)] in
  distinct_keys n /\ reorder n n' /\ n <> n' /\ Encode true false n = Ok (B "{""a"":1,""ab"":{""x"":null,""y"":null},""b"":null}").
Proof.
  cbn. split; [|split; [|split]].
  - repeat split; repeat constructor; cbn; intuition discriminate.
  - apply (ro_map _ [(B "ab", NMap [(B "y", NNil); (B "x", NNil)]); (B "a", NInt 1); (B "b", NNil)]).
    + symmetry. apply (perm_trans (l' := [(B "b", NNil); (B "ab", NMap [(B "y", NNil); (B "x", NNil)]); (B "a", NInt 1)])).
      * symmetry. apply (Permutation_cons_append [(B "ab", NMap [(B "y", NNil); (B "x", NNil)]); (B "a", NInt 1)] (B "b", NNil)).
      * repeat constructor.
    + repeat constructor. apply (ro_map _ [(B "x", NNil); (B "y", NNil)]); repeat constructor.
  - discriminate.
  - vm_compute. reflexivity.
Qed.

(* C36: every duration survives MarshalJSON and UnmarshalJSON, provided the floating point product
   used for fractions is exact whenever IEEE 754 makes it exact. *)
Theorem C36_duration : forall (fracval : N -> N -> nat -> N) (short : bool) (d : Z), float_exact fracval -> int64 d ->
  dur_unmarshal fracval (dur_marshal short d) = Some d.
Proof. exact dur_json. Qed.
Print Assumptions C36_duration.

(* C36: a null leaves the zero duration. *)
Theorem C36_null : forall (fracval : N -> N -> nat -> N) (a b : bytes),
  Forall (fun c => is_space c = true) a -> Forall (fun c => is_space c = true) b ->
  dur_unmarshal fracval (a ++ B "null" ++ b) = Some 0%Z.
Proof. exact dur_null. Qed.
Print Assumptions C36_null.

Example C36_ex : float_exact frac_floor /\ int64 (-9223372036854775808) /\
  dur_marshal true (-9223372036854775808) = B """-2562047h47m16.854775808s""" /\
  dur_unmarshal frac_floor (B """-2562047h47m16.854775808s""") = Some (-9223372036854775808)%Z /\
  dur_unmarshal frac_floor (B """1h1s"" ,") = None.
Proof. split; [exact frac_floor_exact|]. split; [unfold int64; lia|]. vm_compute. auto. Qed.

(* C62: whatever text was read, the node can be written again, the text written reads as the same
   tree, and writing that one gives the same text. *)
Theorem C62_stable : forall (short indent : bool) (j : bytes) (n : node), Decode j = Good (Some n) ->
  exists j' m, Encode short indent n = Ok j' /\ Decode j' = Good (Some m) /\ reorder n m /\ Encode short indent m = Ok j'.
Proof. exact decode_stable. Qed.
Print Assumptions C62_stable.

Example C62_ex : exists n,
  Decode (B " {""b"" : [ 1e2 , ""\ud83d\ude00\ud800"" ] , ""a"":null, ""b"":-0 } ") = Good (Some n) /\
  Encode true false n = Ok (B "{""a"":null,""b"":-0}") /\
  Decode (B "[ 1e2 , ""\ud83d\ude00\ud800"" ]") = Good (Some (NList [NDigits (B "1e2"); NStr (map chr [0xF0; 0x9F; 0x98; 0x80; 0xEF; 0xBF; 0xBD])])).
Proof. eexists. split; [vm_compute; reflexivity|]. split; vm_compute; reflexivity. Qed.

(* C63 is false: text after the document is accepted. *)
Theorem C63_trailing_refuted : exists (j rest : bytes) (n : node), Exists (fun c => is_space c = false) rest /\
  Decode j = Good (Some n) /\ Decode (j ++ rest) = Good (Some n).
Proof.
  exists (B "{""a"":1}"), (B "}{"), (NMap [(B "a", NDigits (B "1"))]). split; [now constructor|]. split; vm_compute; reflexivity.
Qed.
Print Assumptions C63_trailing_refuted.

(* C63: whatever follows the text of a node, other than bytes that continue a number, is ignored. *)
Theorem C63_trailing_partial : forall (short indent : bool) (n : node) (rest : bytes),
  good_node n -> N.of_nat (ndepth n) <= 10000 ->
  match rest with [] => True | c :: _ => is_digit c = false /\ ~ In (code c) [46; 69; 101] end ->
  exists j m, Encode short indent n = Ok j /\ Decode (j ++ rest) = Good (Some m) /\ reads_as n m.
Proof. exact decode_trailing. Qed.
Print Assumptions C63_trailing_partial.

Example C63_ex : let rest := B "]garbage" in
  match rest with [] => True | c :: _ => is_digit c = false /\ ~ In (code c) [46; 69; 101] end /\
  Decode (B "12" ++ rest) = Good (Some (NDigits (B "12"))).
Proof. cbn. split; [split; [reflexivity|intuition discriminate]|]. vm_compute. reflexivity. Qed.
