(* Properties C37, C38, C76: /repo/config/config.go. *)
From Coq Require Import Bool Ascii String Arith NArith ZArith Lia List.
From Verif Require Import Prelude Utf8Model DecModel DurModel EncModel JsonModel JsonSpec MarModel MarSpec ConfModel ConfSpec ConfProofs.
Import ListNotations.

(* ---- C37 ---- *)
(* Full statement: the variable if set (even empty), else the default, else an error.  An empty variable counts as not set
   (chosen); with this reading: success exactly if every field with a tag can be filled in this way from its own key, and then
   the result is that; the keys asked for are those of these fields, once each, in order. *)
Theorem C37_success_partial : forall env fs vs, Forall2 good_field fs vs -> forall ws asked,
  From env (Some fs) vs = (FOk ws, asked) <-> fill_all env fs vs ws asked.
Proof. exact From_ok. Qed.
Print Assumptions C37_success_partial.
(* Otherwise there is an error, which the first field that cannot be filled determines; the fields before it are filled, and the
   fields after it keep their value.  So does the field itself, unless a method of its own type failed. *)
Theorem C37_error : forall env fs vs, Forall2 good_field fs vs -> forall ws e asked, From env (Some fs) vs = (FErr ws e, asked) ->
  exists fs1 f fs2 vs1 v vs2 ws1 w a1 a2, fs = fs1 ++ f :: fs2 /\ vs = vs1 ++ v :: vs2 /\ ws = ws1 ++ w :: vs2 /\ asked = a1 ++ a2 /\
    fill_all env fs1 vs1 ws1 a1 /\ failed env f v w e a2.
Proof. exact From_err. Qed.
Print Assumptions C37_error.
Theorem C37_no_panic : forall env fs vs, Forall2 good_field fs vs -> fst (From env (Some fs) vs) <> FPanic.
Proof. exact From_no_panic. Qed.
Print Assumptions C37_no_panic.
(* Must returns exactly what From returns without an error, and panics otherwise. *)
Theorem C37_must : forall env fs vs ws, Must env fs vs = Ok ws <-> exists asked, From env fs vs = (FOk ws, asked).
Proof.
  intros env fs vs ws. unfold Must. destruct (From env fs vs) as [r a]. cbn [fst]. split.
  - destruct r as [ws'|ws' e|]; try discriminate. intros H. injection H as ->. eauto.
  - intros (a' & H). injection H as -> _. reflexivity.
Qed.
Print Assumptions C37_must.
(* Listen string `config:"listen,default=:8080"`: an empty variable does not give "" *)
Theorem C37_empty_refuted : forall old,
  From (fun _ => []) (Some [CFld true (B "listen,default=:8080") CStr]) [CVStr old] = (FOk [CVStr (B ":8080")], [B "listen"]) /\
  From (fun _ => []) (Some [CFld true (B "listen") CStr]) [CVStr old] = (FErr [CVStr old] (EMissing (B "listen")), [B "listen"]).
Proof. split; reflexivity. Qed.
Print Assumptions C37_empty_refuted.
(* what good_field excludes panics: a field that is not exported; type Level int; map[Name]string *)
Theorem C37_panic_refuted : forall v, let env := fun _ : bytes => B "1" in
  fst (From env (Some [CFld false (B "k") CStr]) [v]) = FPanic /\
  fst (From env (Some [CFld true (B "k") (CInt true)]) [v]) = FPanic /\
  fst (From env (Some [CFld true (B "k") (CMap false CStr)]) [v]) = FPanic.
Proof. repeat split. Qed.
Print Assumptions C37_panic_refuted.

(* Listen from the environment, Debug from its default, Other has no tag, N cannot be read, Last keeps its value *)
Definition fs1 : list cfld :=
  [CFld true (B "listen,default=:8080") CStr; CFld true (B "debug,default=Yes") (CBool false); CFld false [] CStr; CFld true (B "n") (CInt false); CFld true (B "last") CStr].
Definition env1 (n : bytes) : bytes -> bytes := fun k => if beqb k (B "listen") then B ":9" else if beqb k (B "n") then n else if beqb k (B "last") then B "x" else [].
Example C37_ex : let vs := [CVStr []; CVBool false; CVStr (B "o"); CVInt 3; CVStr (B "l")] in
  Forall2 good_field fs1 vs /\
  From (env1 (B "-12")) (Some fs1) vs = (FOk [CVStr (B ":9"); CVBool true; CVStr (B "o"); CVInt (-12); CVStr (B "x")], [B "listen"; B "debug"; B "n"; B "last"]) /\
  From (env1 (B "0x1")) (Some fs1) vs = (FErr [CVStr (B ":9"); CVBool true; CVStr (B "o"); CVInt 3; CVStr (B "l")] (EInt (B "n") (B "0x1")), [B "listen"; B "debug"; B "n"]).
Proof. split; [|split; vm_compute; reflexivity]. repeat constructor; try exact I; cbn in *; congruence. Qed.

(* ---- C38 ---- *)
(* Full statement: as given by [parses], but that a list replaces the previous value.  It is appended to it.  s is accepted
   exactly if it can be read as [parses] says, and then gives that value. *)
Theorem C38_parse_partial : forall t, supported t -> forall name s old v, typed t old ->
  (unmarshalText t name s old = COk v <-> parses t old s v).
Proof. exact text_ok. Qed.
Print Assumptions C38_parse_partial.
(* Otherwise there is an error, and the value is kept, unless a method of its own type failed. *)
Theorem C38_error : forall t, supported t -> forall name s old,
  unmarshalText t name s old <> CPanic /\ forall v e, unmarshalText t name s old = CErr v e -> v = old \/ (hooked t /\ e = EHook).
Proof. intros t Ht name s old. exact (conj (text_no_panic t Ht name s old) (text_err t name s old)). Qed.
Print Assumptions C38_error.
(* In a map the last pair with a key counts. *)
Theorem C38_map : forall kvs k, mget beqb (fold_left (fun m e => mset beqb m (fst e) (snd e)) kvs []) k = last_of (V := cval) kvs k.
Proof. intros kvs k. rewrite last_of_fold. destruct (last_of kvs k); reflexivity. Qed.
Print Assumptions C38_map.
Theorem C38_list_refuted : forall name old s, ~ In (chr 44) s -> s <> [] ->
  unmarshalText (CSlice CStr) name s (CVList old) = COk (CVList (old ++ [CVStr s])).
Proof. exact list_appends. Qed.
Print Assumptions C38_list_refuted.
Example C38_ex : supported (CSlice (CBool false)) /\ typed (CSlice (CBool false)) (CVList []) /\
  unmarshalText (CSlice (CBool false)) (B "k") (B "yES,,0,N") (CVList []) = COk (CVList [CVBool true; CVBool false; CVBool false; CVBool false]) /\
  unmarshalText (CSlice (CBool false)) (B "k") (B "yes,on") (CVList [CVBool true]) = CErr (CVList [CVBool true]) (EBool (B "k[]") (B "on")) /\
  unmarshalText (CMap true (CInt false)) (B "k") (B "a=1,b=+2,a=-3") (CVMap [(B "z", CVInt 1)]) = COk (CVMap [(B "a", CVInt (-3)); (B "b", CVInt 2)]) /\
  unmarshalText (CMap true CStr) (B "k") (B "a=b=c,d") (CVMap []) = COk (CVMap [(B "a", CVStr (B "b=c")); (B "d", CVStr [])]).
Proof. split; [reflexivity|]. split; [exists []; reflexivity|]. vm_compute. repeat split. Qed.

(* ---- C76 ---- *)
(* cfg is copied, but a list in it shares its array.  The result reads as the old elements followed by the new ones; every
   slice that ends where the caller's does, or is in another array, reads as before: the caller's own, in particular. *)
Theorem C76_caller_partial : forall (V : Type) grow (x : V) vs h s, valid h s -> let (h', s') := append_all grow x h s vs in
  valid h' s' /\ read h' s' = read h s ++ vs /\
  forall s0, valid h s0 -> (s_array s0 <> s_array s \/ s_len s0 <= s_len s) -> valid h' s0 /\ read h' s0 = read h s0.
Proof. intros V grow x vs. exact (append_all_spec grow x vs). Qed.
Print Assumptions C76_caller_partial.
(* If the caller's slice has no spare capacity, all slices read as before, among them those of earlier results. *)
Theorem C76_full_partial : forall (V : Type) grow (x : V) vs h s, valid h s -> s_len s = length (nth (s_array s) h []) ->
  let (h', s') := append_all grow x h s vs in forall s0, valid h s0 -> read h' s0 = read h s0.
Proof. intros V. exact append_all_full. Qed.
Print Assumptions C76_full_partial.
(* Full statement: a result is not changed by reading another configuration from the same initial value.  False if the list
   in it has spare capacity. *)
Theorem C76_refuted : forall (V : Type) grow (x a b : V), a <> b ->
  let h := [[x; x]] in let base := Slc 0 0 in
  let (h1, first) := append_all grow x h base [a] in
  let (h2, second) := append_all grow x h1 base [b] in
  valid h base /\ read h1 first = [a] /\ read h2 first = [b].
Proof. intros V grow x a b _. cbn. repeat split; unfold valid; cbn; lia. Qed.
Print Assumptions C76_refuted.
Example C76_ex : let h := [[1; 2; 0; 0]; [7]] in
  valid h (Slc 1 1) /\ s_len (Slc 1 1) = length (nth (s_array (Slc 1 1)) h []) /\ valid h (Slc 0 2) /\
  append_all (fun n => n) 0 h (Slc 1 1) [8; 9] = ([[1; 2; 0; 0]; [7]; [7; 8; 9]], Slc 2 3) /\
  append_all (fun n => n) 0 h (Slc 0 2) [3] = ([[1; 2; 3; 0]; [7]], Slc 0 3).
Proof. unfold valid. cbn. repeat split; lia. Qed.
