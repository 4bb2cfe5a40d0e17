(* Properties C31-C34, C74, C75: Marshal and Unmarshal of /repo/enc. *)
From Coq Require Import Bool Ascii String Arith NArith ZArith Lia List Sorted Permutation.
From Verif Require Import Prelude PreludeFacts Utf8Model DecModel DurModel EncModel JsonModel KvSpec JsonSpec MarModel MarSpec MarFacts MarProofs MarNum MarStruct MarOrder.
Import ListNotations.

(* ---- C31 ---- *)
(* Full statement: for every type and value, Unmarshal of Marshal's node gives the value back, directly and through JSON.
   It fails for the values that [keeps] excludes, and these only: it is an equivalence.  Struct types must have good tags and
   distinct JSON names (wfty).  n' is n with its maps listed in another order. *)
Theorem C31_direct_partial : forall f2i f2u uf t v, wfty t -> hasty t v ->
  exists n, mar t v = Ok n /\ forall n', reorder n n' -> (Unmarshal f2i f2u uf t n' (zero t) = (UOk v, []) <-> keeps t v).
Proof. exact round_trip. Qed.
Print Assumptions C31_direct_partial.

(* Through JSON text: the same equivalence, for what JSON text can carry (textual), up to a nesting of 10000. *)
Theorem C31_json_partial : forall f2i f2u uf short ind t v, wfty t -> hasty t v -> textual t v -> (N.of_nat (tdepth t) <= 10000)%N ->
  exists n j m, mar t v = Ok n /\ Encode short ind n = Ok j /\ Decode j = Good (Some m) /\
    (Unmarshal f2i f2u uf t m (zero t) = (UOk v, []) <-> keeps t v).
Proof. exact round_trip_json. Qed.
Print Assumptions C31_json_partial.

(* a field *)
Definition field (name tag : string) (t : ty) : fld * ty := (Fld (B name) true (B tag), t).
(* What comes back, directly and through JSON.  No float occurs below. *)
Definition back (t : ty) (v : val) : option ures :=
  match mar t v with Ok n => Some (fst (Unmarshal (fun _ => 0%Z) (fun _ => 0%Z) None t n (zero t))) | Panic => None end.
Definition back_json (t : ty) (v : val) : option ures :=
  match mar t v with
  | Ok n => match Encode true false n with
            | Ok j => match Decode j with Good (Some m) => Some (fst (Unmarshal (fun _ => 0%Z) (fun _ => 0%Z) None t m (zero t))) | _ => None end
            | Panic => None
            end
  | Panic => None
  end.

(* struct { Name string; Tags []string `json:"tags,omitempty"`; Next *struct{ N int8 }; ByID map[uint16]bool `json:"by_id"`; pw string } *)
Definition T1 : ty := TStruct
  [field "Name" "" TStr; field "Tags" "tags,omitempty" (TSlice TStr); field "Next" "" (TPtr (TStruct [field "N" "" (TInt W8)]));
   field "ByID" "by_id" (TMap (KTUint W16) TBool); (Fld (B "pw") false [], TStr)].
Definition v1 : val := VStruct
  [VStr (B "a""b"); VNil; VPtr (VStruct [VNum (-128)]); VMap [(KNum 7, VBool true); (KNum 65535, VBool false)]; VStr []].
Example C31_ex : wfty T1 /\ hasty T1 v1 /\ textual T1 v1 /\ keeps T1 v1 /\ (N.of_nat (tdepth T1) <= 10000)%N /\
  back T1 v1 = Some (UOk v1) /\ back_json T1 v1 = Some (UOk v1).
Proof.
  assert (Hnm : forall f name o, tagged f name o -> vis f = Some (name, o)) by (intros; now apply tagged_vis).
  split; [|split; [|split; [|split; [|split; [|split]]]]].
  - split.
    + intros i j f g t u name o o' Hi Hj Hf Hg. apply Hnm in Hf, Hg.
      destruct i as [|[|[|[|[|i]]]]]; cbn in Hi; try discriminate; try (destruct i; discriminate); injection Hi as <- <-;
      destruct j as [|[|[|[|[|j]]]]]; cbn in Hj; try discriminate; try (destruct j; discriminate); injection Hj as <- <-; auto;
      vm_compute in Hf, Hg; try discriminate; congruence.
    + cbn [T1 fold_right fst snd field wfty f_name].
      split; [split; [discriminate|right; exists (B "Name"), false; apply tagged_vis; reflexivity]|]. split; [exact I|].
      split; [split; [discriminate|right; exists (B "tags"), true; apply tagged_vis; reflexivity]|]. split; [exact I|].
      split; [split; [discriminate|right; exists (B "Next"), false; apply tagged_vis; reflexivity]|].
      split. { split; [|split; [split; [discriminate|right; exists (B "N"), false; apply tagged_vis; reflexivity]|split; exact I]].
        intros i j f g t u name o o' Hi Hj _ _. destruct i as [|[|i]], j as [|[|j]]; cbn in Hi, Hj; congruence. }
      split; [split; [discriminate|right; exists (B "by_id"), false; apply tagged_vis; reflexivity]|]. split; [exact I|].
      split; [split; [discriminate|left; now left]|]. split; exact I.
  - assert (R8 : int_range W8 (-128)) by (unfold int_range; cbn; lia).
    assert (R1 : uint_range W16 7) by (unfold uint_range; cbn; lia). assert (R2 : uint_range W16 65535) by (unfold uint_range; cbn; lia).
    cbn. split; [exact I|]. split; [exact I|]. split; [exact (conj R8 I)|]. split; [|exact (conj I I)].
    split; [repeat constructor|]. constructor; [exact (conj R1 I)|]. constructor; [exact (conj R2 I)|constructor].
  - cbn [textual T1 v1 fieldwise field].
    repeat match goal with
    | |- _ /\ _ => split
    | |- forall name o, tagged _ name o -> _ => let H := fresh in intros ? ? H; apply Hnm in H; vm_compute in H; (discriminate H || injection H as <- <-)
    | |- _ = _ => reflexivity
    | |- True => exact I
    | |- Forall _ _ => constructor
    | |- match fst _ with _ => _ end => exact I
    end.
  - cbn [keeps T1 v1 fieldwise field].
    repeat match goal with
    | |- _ /\ _ => split
    | |- forall name o, tagged _ name o -> _ => let H := fresh in intros ? ? H; apply Hnm in H; vm_compute in H; (discriminate H || injection H as <- <-)
    | |- hidden _ -> _ => let H := fresh in intros [H|H]; vm_compute in H; try discriminate H
    | |- true = true -> _ => intros _
    | |- _ = true -> _ => let H := fresh in intros H; vm_compute in H; try discriminate H
    | |- _ = _ => reflexivity
    | |- True => exact I
    | |- Forall _ _ => constructor
    | |- match fst _ with _ => _ end => vm_compute; reflexivity
    | |- (_ < _)%Z => vm_compute; reflexivity
    end.
  - vm_compute. discriminate.
  - vm_compute. reflexivity.
  - vm_compute. reflexivity.
Qed.

(* As stated it is false.  What comes back instead: *)
(* a pointer to a nil pointer: nil *)
Theorem C31_pointer_refuted : let t := TPtr (TPtr TBool) in let v := VPtr VNil in
  wfty t /\ hasty t v /\ back t v = Some (UOk VNil) /\ back_json t v = Some (UOk VNil).
Proof. vm_compute. repeat split. Qed.
Print Assumptions C31_pointer_refuted.
(* struct{ N *int `json:"n,omitempty"` } with a pointer to 0: nil *)
Theorem C31_omitempty_refuted : let t := TStruct [field "N" "n,omitempty" (TPtr (TInt W64))] in
  hasty t (VStruct [VPtr (VNum 0)]) /\ back t (VStruct [VPtr (VNum 0)]) = Some (UOk (VStruct [VNil])) /\
  back_json t (VStruct [VPtr (VNum 0)]) = Some (UOk (VStruct [VNil])).
Proof. vm_compute. repeat split; discriminate. Qed.
Print Assumptions C31_omitempty_refuted.
(* a field that is not exported: its zero value *)
Theorem C31_hidden_refuted : let t := TStruct [(Fld (B "pw") false [], TStr)] in
  hasty t (VStruct [VStr (B "x")]) /\ back t (VStruct [VStr (B "x")]) = Some (UOk (VStruct [VStr []])).
Proof. vm_compute. repeat split. Qed.
Print Assumptions C31_hidden_refuted.
(* two fields with the same JSON name: both get the last one *)
Theorem C31_names_refuted : let t := TStruct [field "A" "x" TBool; field "B" "x" TBool] in
  hasty t (VStruct [VBool true; VBool false]) /\ back t (VStruct [VBool true; VBool false]) = Some (UOk (VStruct [VBool false; VBool false])).
Proof. vm_compute. repeat split. Qed.
Print Assumptions C31_names_refuted.
(* a uint64 above MaxInt64 survives directly, but not through JSON *)
Theorem C31_uint_refuted : let v := VNum (2 ^ 64 - 1)%Z in
  hasty (TUint W64) v /\ back (TUint W64) v = Some (UOk v) /\ back_json (TUint W64) v = Some (UErr (VNum 0)).
Proof. vm_compute. repeat split; discriminate. Qed.
Print Assumptions C31_uint_refuted.
(* and as a key of a map not even directly *)
Theorem C31_key_refuted : let v := VMap [(KNum (2 ^ 63)%Z, VBool true)] in
  hasty (TMap (KTUint W64) TBool) v /\ back (TMap (KTUint W64) TBool) v = Some (UErr VNil).
Proof. split; [|vm_compute; reflexivity]. cbn. split; [repeat constructor|]. constructor; [|constructor]. split; [|exact I]. unfold uint_range. cbn. lia. Qed.
Print Assumptions C31_key_refuted.
(* a string that is not UTF-8, through JSON *)
Theorem C31_utf8_refuted : let v := VStr [chr 0xFF] in
  hasty TStr v /\ back TStr v = Some (UOk v) /\ back_json TStr v = Some (UOk (VStr [chr 0xEF; chr 0xBF; chr 0xBD])).
Proof. vm_compute. repeat split. Qed.
Print Assumptions C31_utf8_refuted.

(* ---- C32 ---- *)
(* Full statement: a number is stored exactly or there is an error.  A number that does not use the point is stored modulo
   2^w, if it fits 64 bits, and otherwise there is an error and the variable keeps its value.  For w = 64 this is the full
   statement. *)
Theorem C32_int_partial : forall f2i f2u uf w p s old, json_number s -> ~ In (chr 46) s ->
  (exists z z', unm f2i f2u uf (TInt w) p (NDigits s) old = (UOk (VNum z'), []) /\ number_is s z /\ int_range W64 z /\
     int_range w z' /\ (z' mod 2 ^ bits w = z mod 2 ^ bits w)%Z) \/
  unm f2i f2u uf (TInt w) p (NDigits s) old = (UErr old, []).
Proof. exact int_mod. Qed.
Print Assumptions C32_int_partial.
Theorem C32_uint_partial : forall f2i f2u uf w p s old, json_number s -> ~ In (chr 46) s ->
  (exists z z', unm f2i f2u uf (TUint w) p (NDigits s) old = (UOk (VNum z'), []) /\ number_is s z /\ uint_range W64 z /\
     uint_range w z' /\ (z' mod 2 ^ bits w = z mod 2 ^ bits w)%Z) \/
  unm f2i f2u uf (TUint w) p (NDigits s) old = (UErr old, []).
Proof. exact uint_mod. Qed.
Print Assumptions C32_uint_partial.
Theorem C32_64_partial : forall f2i f2u uf p s old, json_number s -> ~ In (chr 46) s ->
  (forall z, unm f2i f2u uf (TInt W64) p (NDigits s) old = (UOk (VNum z), []) -> number_is s z) /\
  (forall z, unm f2i f2u uf (TUint W64) p (NDigits s) old = (UOk (VNum z), []) -> number_is s z).
Proof. exact exact64. Qed.
Print Assumptions C32_64_partial.

(* Nothing that fits is rejected, if written without point and exponent. *)
Theorem C32_stored : forall f2i f2u uf w p s neg ip old, number_text s neg ip [] None ->
  (int_range w (signed neg (value10 ip)) -> unm f2i f2u uf (TInt w) p (NDigits s) old = (UOk (VNum (signed neg (value10 ip))), [])) /\
  (neg = false -> uint_range w (value10 ip) -> unm f2i f2u uf (TUint w) p (NDigits s) old = (UOk (VNum (value10 ip)), [])).
Proof. intros f2i f2u uf w p s neg ip old H. split; [exact (int_stored f2i f2u uf w p s neg ip old H)|]. intros ->. exact (uint_stored f2i f2u uf w p s ip old H). Qed.
Print Assumptions C32_stored.

(* An Integer node: stored exactly if and only if it fits. *)
Theorem C32_integer_partial : forall f2i f2u uf w p z old,
  (unm f2i f2u uf (TInt w) p (NInt z) old = (UOk (VNum z), []) <-> int_range w z) /\
  (int_range W64 z -> (unm f2i f2u uf (TUint w) p (NInt z) old = (UOk (VNum z), []) <-> uint_range w z)).
Proof. exact integer_iff. Qed.
Print Assumptions C32_integer_partial.

(* With a point, the digits after it and the exponent are dropped. *)
Theorem C32_point_refuted : forall f2i f2u uf w p s neg ip fr ex old, number_text s neg ip fr ex -> fr <> [] ->
  int_range w (signed neg (value10 ip)) -> unm f2i f2u uf (TInt w) p (NDigits s) old = (UOk (VNum (signed neg (value10 ip))), []).
Proof. exact int_trunc_range. Qed.
Print Assumptions C32_point_refuted.
(* "1.5e3" becomes 1, though it is 1500; "1.9" becomes 1; 300 as int8 becomes 44; Integer(-1) as uint8 becomes 255 *)
Theorem C32_refuted : forall f2i f2u uf old,
  Unmarshal f2i f2u uf (TInt W64) (NDigits (B "1.5e3")) old = (UOk (VNum 1), []) /\ number_is (B "1.5e3") 1500 /\
  Unmarshal f2i f2u uf (TUint W64) (NDigits (B "1.9")) old = (UOk (VNum 1), []) /\
  Unmarshal f2i f2u uf (TInt W8) (NDigits (B "300")) old = (UOk (VNum 44), []) /\
  Unmarshal f2i f2u uf (TUint W8) (NInt (-1)) old = (UOk (VNum 255), []).
Proof.
  intros. repeat split; try reflexivity. exists false, (B "1"), (B "5"), (Some 3%Z). split; [|vm_compute; reflexivity].
  exists (B ".5"), (B "e3"). split; [reflexivity|]. split; [right; split; [split; [discriminate|repeat constructor]|discriminate]|].
  split; [right; split; [reflexivity|split; [discriminate|repeat constructor]]|]. apply (pos_exponent (B "e") [] (B "3")); auto. split; [discriminate|repeat constructor].
Qed.
Print Assumptions C32_refuted.
Example C32_ex : json_number (B "-128") /\ ~ In (chr 46) (B "-128") /\ number_text (B "-128") true (B "128") [] None /\
  int_range W8 (signed true (value10 (B "128"))) /\
  Unmarshal (fun _ => 0%Z) (fun _ => 0%Z) None (TInt W8) (NDigits (B "-128")) (VNum 5) = (UOk (VNum (-128)), []) /\
  Unmarshal (fun _ => 0%Z) (fun _ => 0%Z) None (TUint W64) (NDigits (B "18446744073709551616")) (VNum 5) = (UErr (VNum 5), []) /\
  Unmarshal (fun _ => 0%Z) (fun _ => 0%Z) None (TInt W64) (NDigits (B "1e3")) (VNum 5) = (UErr (VNum 5), []).
Proof.
  assert (Hd : all_digits (B "128")) by (split; [discriminate|repeat constructor]).
  split; [now apply JsonFacts.is_number_spec|]. split; [intros H; vm_compute in H; repeat destruct H as [H|H]; discriminate || exact H|].
  split; [|split; [|repeat split]]. 2:{ unfold int_range. vm_compute. split; [discriminate|reflexivity]. }
  exists [], []. split; [reflexivity|]. split; [right; split; [exact Hd|discriminate]|]. split; [left; auto|constructor].
Qed.

(* ---- C33 ---- *)
(* Marshal does not look at hidden fields, at any depth, and every key it writes is the JSON name of a field that is not
   hidden. *)
Theorem C33_marshal : forall t v w, same_visible t v w -> mar t v = mar t w.
Proof. exact mar_visible. Qed.
Print Assumptions C33_marshal.
Theorem C33_names : forall fs vs ps name key x, mar (TStruct fs) (VStruct vs) = Ok (NPairs ps) -> In ((name, key), x) ps ->
  exists f t o, In (f, t) fs /\ tagged f key o /\ f_name f = name.
Proof. exact mar_names. Qed.
Print Assumptions C33_names.
(* Full statement for Unmarshal: no input changes a hidden field.  Proved for inputs without null and without the key "". *)
Theorem C33_unmarshal_partial : forall f2i f2u uf t p n v w c, hasty t v -> plain n ->
  (unm f2i f2u uf t p n v = (UOk w, c) \/ unm f2i f2u uf t p n v = (UErr w, c)) -> same_hidden t v w.
Proof. exact hidden_kept. Qed.
Print Assumptions C33_unmarshal_partial.
(* {"": "evil"} sets the field tagged json:"-" *)
Theorem C33_refuted : forall f2i f2u uf old s,
  Unmarshal f2i f2u uf (TStruct [field "Secret" "-" TStr]) (NMap [([], NStr s)]) (VStruct [VStr old]) = (UOk (VStruct [VStr s]), []).
Proof. intros f2i f2u [uf|] old s; reflexivity. Qed.
Print Assumptions C33_refuted.
(* null wipes them, and fields that are not exported too *)
Theorem C33_null_refuted : forall f2i f2u uf old,
  Unmarshal f2i f2u uf (TStruct [field "Secret" "-" TStr; (Fld (B "pw") false [], TStr)]) NNil (VStruct [VStr old; VStr old]) = (UOk (VStruct [VStr []; VStr []]), []).
Proof. reflexivity. Qed.
Print Assumptions C33_null_refuted.
Definition T2 : ty := TStruct [field "User" "user" TStr; field "Secret" "-" TStr; field "In" "in" (TStruct [field "S" "-" TBool; field "N" "" (TInt W8)])].
Example C33_ex : let v := VStruct [VStr (B "u"); VStr (B "s"); VStruct [VBool true; VNum 3]] in
  let w := VStruct [VStr (B "u"); VStr (B "other"); VStruct [VBool false; VNum 3]] in
  let n := NMap [(B "-", NStr (B "x")); (B "Secret", NStr (B "x")); (B "in", NMap [(B "S", NBool false); (B "N", NInt 5)])] in
  same_visible T2 v w /\ hasty T2 v /\ plain n /\
  mar T2 v = Ok (NPairs [((B "User", B "user"), NStr (B "u")); ((B "In", B "in"), NPairs [((B "N", B "N"), NInt 3)])]) /\
  Unmarshal (fun _ => 0%Z) (fun _ => 0%Z) None T2 n v = (UOk (VStruct [VStr (B "u"); VStr (B "s"); VStruct [VBool true; VNum 5]]), []).
Proof.
  split; [|split; [|split; [|split; reflexivity]]].
  - cbn [same_visible T2 fieldwise2 field]. split; [now right|]. split; [left; now right|]. split; [|exact I]. right. split; [left; now right|]. split; [now right|exact I].
  - cbn. unfold int_range. cbn. repeat split; lia.
  - cbn. repeat split; discriminate.
Qed.

(* ---- C34 ---- *)
(* Success: each hidden field is as before, each other field is as before if its JSON name is not in the map, and else is what
   Unmarshal of the node under this name makes of it.  UnhandledFields (uf) is called for exactly the keys that are no
   field's JSON name, once each, after whatever the fields called it for.  Full statement: for every map; proved for maps
   without the key "".  NoDup: m is a Go map. *)
Theorem C34_success_partial : forall f2i f2u uf fs p n m vs r calls,
  (forall f t, In (f, t) fs -> hidden f \/ exists name o, tagged f name o) -> is_map n m -> NoDup (map fst m) -> ~ In [] (map fst m) ->
  length vs = length fs -> unm f2i f2u uf (TStruct fs) p n (VStruct vs) = (UOk r, calls) ->
  exists vs' cs us, r = VStruct vs' /\ length vs' = length fs /\ length cs = length fs /\
    (forall i f t v v' c, nth_error fs i = Some (f, t) -> nth_error vs i = Some v -> nth_error vs' i = Some v' -> nth_error cs i = Some c ->
       (hidden f -> v' = v /\ c = []) /\
       (forall name o, tagged f name o -> match mget beqb m name with
          | None => v' = v /\ c = []
          | Some x => unm f2i f2u uf t (p ++ [PName (f_name f)]) x v = (UOk v', c)
          end)) /\
    calls = concat cs ++ map (fun e => (p ++ [PKey (fst e)], snd e)) us /\
    match uf with
    | None => us = []
    | Some h => NoDup us /\ (forall k x, In (k, x) us <-> In (k, x) m /\ ~ exists f t o, In (f, t) fs /\ tagged f k o) /\
                (forall k x, In (k, x) us -> h (p ++ [PKey k]) x = false)
    end.
Proof. exact struct_ok. Qed.
Print Assumptions C34_success_partial.
(* Error: still no field changes but from its own key. *)
Theorem C34_error_partial : forall f2i f2u uf fs p n m vs r calls,
  (forall f t, In (f, t) fs -> hidden f \/ exists name o, tagged f name o) -> is_map n m -> ~ In [] (map fst m) ->
  length vs = length fs -> unm f2i f2u uf (TStruct fs) p n (VStruct vs) = (UErr r, calls) ->
  exists vs', r = VStruct vs' /\ length vs' = length fs /\
  forall i f t v v', nth_error fs i = Some (f, t) -> nth_error vs i = Some v -> nth_error vs' i = Some v' ->
    v' = v \/ exists name o x c, tagged f name o /\ mget beqb m name = Some x /\
      (unm f2i f2u uf t (p ++ [PName (f_name f)]) x v = (UOk v', c) \/ unm f2i f2u uf t (p ++ [PName (f_name f)]) x v = (UErr v', c)).
Proof. exact struct_err. Qed.
Print Assumptions C34_error_partial.
(* With a field tagged "-", the key "" sets that field and is not reported. *)
Theorem C34_refuted : forall f2i f2u h x,
  Unmarshal f2i f2u (Some h) (TStruct [field "A" "-" TBool]) (NMap [([], NBool x)]) (VStruct [VBool (negb x)]) = (UOk (VStruct [VBool x]), []).
Proof. reflexivity. Qed.
Print Assumptions C34_refuted.
(* {"user": "v", "zz": 1, "in": {"N": 7, "S": false}}: both unknown keys are reported, with their paths *)
Example C34_ex : let n := NMap [(B "user", NStr (B "v")); (B "zz", NInt 1); (B "in", NMap [(B "N", NInt 7); (B "S", NBool false)])] in
  let vs := [VStr (B "u"); VStr (B "s"); VStruct [VBool true; VNum 3]] in
  (forall f t, In (f, t) (match T2 with TStruct fs => fs | _ => [] end) -> hidden f \/ exists name o, tagged f name o) /\
  Unmarshal (fun _ => 0%Z) (fun _ => 0%Z) (Some (fun _ _ => false)) T2 n (VStruct vs) =
    (UOk (VStruct [VStr (B "v"); VStr (B "s"); VStruct [VBool true; VNum 7]]),
     [([PRoot; PName (B "In"); PKey (B "S")], NBool false); ([PRoot; PKey (B "zz")], NInt 1)]) /\
  Unmarshal (fun _ => 0%Z) (fun _ => 0%Z) None T2 (NMap [(B "user", NStr (B "v")); (B "in", NBool true)]) (VStruct vs) =
    (UErr (VStruct [VStr (B "v"); VStr (B "s"); VStruct [VBool true; VNum 3]]), []).
Proof.
  split; [|split; reflexivity]. cbn. intros f t [H|[H|[H|[]]]]; injection H as <- <-.
  - right. exists (B "user"), false. apply tagged_vis. reflexivity.
  - left. now right.
  - right. exists (B "in"), false. apply tagged_vis. reflexivity.
Qed.

(* ---- C74 ---- *)
(* The order in which Go ranges over the maps of a node does not matter to the outcome, for map keys as Marshal writes them;
   Pairs read like the map they turn into. *)
Theorem C74_order_partial : forall f2i f2u t p n n' old, tags_ok t -> no_dur n -> distinct_keys n -> fits t n -> reorder n n' ->
  fst (unm f2i f2u None t p n old) = fst (unm f2i f2u None t p n' old).
Proof. intros f2i f2u t p n n' old Ht Hn Hd Hf Hr. exact (order f2i f2u t p n n' old Ht Hn (no_dur_reorder n n' Hr Hn) Hd Hf Hr). Qed.
Print Assumptions C74_order_partial.
Theorem C74_pairs : forall f2i f2u t p ps old, unm f2i f2u None t p (NPairs ps) old = unm f2i f2u None t p (NMap (AsMap ps)) old.
Proof. exact pairs_map. Qed.
Print Assumptions C74_pairs.
(* {"1": true, "01": false} into map[int]bool *)
Theorem C74_refuted : forall f2i f2u,
  let n := NMap [(B "1", NBool true); (B "01", NBool false)] in let n' := NMap [(B "01", NBool false); (B "1", NBool true)] in
  reorder n n' /\ distinct_keys n /\
  fst (Unmarshal f2i f2u None (TMap (KTInt W64) TBool) n VNil) <> fst (Unmarshal f2i f2u None (TMap (KTInt W64) TBool) n' VNil).
Proof.
  intros. split; [|split].
  - apply (ro_map _ [(B "01", NBool false); (B "1", NBool true)]); [apply perm_swap|]. repeat constructor.
  - cbn. repeat split; auto. repeat constructor; cbn; try tauto. intros [H|[]]; discriminate.
  - vm_compute. discriminate.
Qed.
Print Assumptions C74_refuted.
Example C74_ex : let t := TStruct [field "M" "m" (TMap (KTInt W8) TBool); field "A" "a" TStr] in
  let n := NMap [(B "m", NMap [(B "-3", NBool true); (B "12", NBool false)]); (B "a", NStr (B "x"))] in
  let n' := NMap [(B "a", NStr (B "x")); (B "m", NMap [(B "12", NBool false); (B "-3", NBool true)])] in
  tags_ok t /\ no_dur n /\ distinct_keys n /\ fits t n /\ reorder n n' /\ n <> n' /\
  fst (Unmarshal (fun _ => 0%Z) (fun _ => 0%Z) None t n' (zero t)) = UOk (VStruct [VMap [(KNum (-3), VBool true); (KNum 12, VBool false)]; VStr (B "x")]).
Proof.
  split; [|split; [|split; [|split; [|split; [|split]]]]].
  - cbn [tags_ok fold_right fst snd field]. split; [right; exists (B "m"), false; apply tagged_vis; reflexivity|]. split; [exact I|].
    split; [right; exists (B "a"), false; apply tagged_vis; reflexivity|]. split; exact I.
  - cbn. repeat split.
  - cbn. repeat split; auto; repeat constructor; cbn; try tauto; intros [H|[]]; discriminate.
  - intros m s x [H|(ps & H & _)] Hi; [|discriminate]. injection H as <-. cbn [fold_right field fst snd].
    split; [|split; [intros _; exact I|exact I]]. intros [->|(o & Ho)]; [destruct Hi as [Hi|[Hi|[]]]; discriminate|].
    apply tagged_vis in Ho. vm_compute in Ho. injection Ho as <- <-. destruct Hi as [Hi|[Hi|[]]]; [|discriminate]. injection Hi as <-.
    intros m' s' x' [H|(ps & H & _)] Hi'; [|discriminate]. injection H as <-. split; [|exact I].
    destruct Hi' as [H|[H|[]]]; injection H as <- <-; [exists (-3)%Z|exists 12%Z]; (split; [unfold int_range; cbn; lia|reflexivity]).
  - eapply ro_map; [apply perm_swap|]. constructor; [split; [reflexivity|apply ro_same]|]. constructor; [|constructor]. split; [reflexivity|].
    eapply ro_map; [apply perm_swap|]. repeat constructor.
  - discriminate.
  - reflexivity.
Qed.

(* ---- C75 ---- *)
(* Full statement: Unmarshal never panics.  Proved for struct types with good tags and nodes without Duration (so for
   everything that came out of Decode). *)
Theorem C75_no_panic_partial : forall f2i f2u uf t p n v, tags_ok t -> no_dur n -> fst (unm f2i f2u uf t p n v) <> UPanic.
Proof. exact no_panic. Qed.
Print Assumptions C75_no_panic_partial.
Theorem C75_decoded_partial : forall f2i f2u uf t p j n v, tags_ok t -> Decode j = Good (Some n) -> fst (unm f2i f2u uf t p n v) <> UPanic.
Proof. intros f2i f2u uf t p j n v Ht Hj. exact (no_panic f2i f2u uf t p n v Ht (decode_no_dur j n Hj)). Qed.
Print Assumptions C75_decoded_partial.
(* a Duration into an int64; a tag with another option *)
Theorem C75_refuted : forall f2i f2u uf d old x,
  Unmarshal f2i f2u uf (TInt W64) (NDur d) old = (UPanic, []) /\
  Unmarshal f2i f2u uf (TStruct [field "N" "n,string" (TInt W64)]) (NMap []) (VStruct [x]) = (UPanic, []).
Proof. split; reflexivity. Qed.
Print Assumptions C75_refuted.
Example C75_ex : tags_ok T2 /\ Decode (B "{""in"":[1]}") = Good (Some (NMap [(B "in", NList [NDigits (B "1")])])) /\
  fst (Unmarshal (fun _ => 0%Z) (fun _ => 0%Z) None T2 (NMap [(B "in", NList [NDigits (B "1")])]) (zero T2)) = UErr (zero T2).
Proof.
  split; [|split; vm_compute; reflexivity]. cbn [tags_ok T2 fold_right fst snd field].
  split; [right; exists (B "user"), false; apply tagged_vis; reflexivity|]. split; [exact I|].
  split; [left; now right|]. split; [exact I|]. split; [right; exists (B "in"), false; apply tagged_vis; reflexivity|].
  split; [|exact I]. split; [left; now right|]. split; [exact I|]. split; [right; exists (B "N"), false; apply tagged_vis; reflexivity|]. split; exact I.
Qed.
