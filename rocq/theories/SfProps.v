(* Theorems about stack frames: C130, C131. *)
From Coq Require Import Bool Ascii String Arith NArith List Lia.
From Verif Require DecModel DecFacts.
From Verif Require Import Prelude PreludeFacts Utf8Model Utf8Facts DurModel DurProofs SfModel SfSpec.
Import ListNotations.

Lemma cut_app p s : cut p (p ++ s) = Some s.
Proof. induction p as [|c p IH]; cbn [cut app]; [reflexivity|]. now rewrite N.eqb_refl. Qed.
Lemma cut_some p : forall s r, cut p s = Some r -> s = p ++ r.
Proof.
  induction p as [|c p IH]; intros s r; cbn [cut]; [intros E; injection E as ->; reflexivity|]. destruct s as [|d s]; [discriminate|].
  destruct (N.eqb (code c) (code d)) eqn:E; [|discriminate]. apply N.eqb_eq, code_inj in E. subst d. intros H. cbn. f_equal. apply IH, H.
Qed.
Lemma cut_none p s : cut p s = None <-> ~ exists r, s = p ++ r.
Proof.
  split; [intros H [r ->]; rewrite cut_app in H; discriminate|]. intros H. destruct (cut p s) as [r|] eqn:E; [|reflexivity]. exfalso. apply H. exists r. apply cut_some, E.
Qed.
Lemma blank_not c : path_char c -> blank c = false.
Proof.
  intros H. unfold path_char in H. unfold blank. cbn [In] in H.
  assert (Q : forall n, (n < 256)%N -> chr n <> c -> N.eqb (code c) n = false).
  { intros n Hn Hc. apply N.eqb_neq. intros E. apply Hc. rewrite <- E. apply chr_code. }
  rewrite !Q by (try (vm_compute; reflexivity); intros E; apply H; rewrite E; auto 10). reflexivity.
Qed.
Lemma word_token n t : Forall path_char n -> token_ends t -> word (n ++ t) = n.
Proof.
  induction 1 as [|c n Hc H IH]; intros Ht.
  - destruct t as [|c t]; [reflexivity|]. cbn [app word]. unfold token_ends, gap, newline in Ht.
    assert (E : blank c = true) by (destruct Ht as [[<-|[<-|[<-|[]]]]| ->]; vm_compute; reflexivity). now rewrite E.
  - cbn [app word]. rewrite blank_not by exact Hc. now rewrite IH.
Qed.
Lemma spaces_drop sp : forall n, Forall (eq (chr 32)) sp -> (match n with [] => True | c :: _ => c <> chr 32 end) -> spaces (sp ++ n) = n.
Proof.
  induction sp as [|c sp IH]; intros n H Hn.
  - destruct n as [|c n]; [reflexivity|]. cbn [app spaces]. destruct (N.eqb (code c) 32) eqn:E; [|reflexivity]. apply N.eqb_eq in E.
    exfalso. apply Hn. rewrite <- E. symmetry. apply chr_code.
  - inversion H as [|? ? E H']; subst. cbn [app spaces]. change (N.eqb (code (chr 32)) 32) with true. apply IH; auto.
Qed.
Lemma token_start n t : path_token n -> match n ++ t with [] => True | c :: _ => c <> chr 32 end.
Proof. intros [H F]. destruct n as [|c n]; [contradiction|]. inversion F as [|? ? Hc _]; subst. cbn. intros E. apply Hc. subst c. left. reflexivity. Qed.
Lemma here_plain n sp t : path_token n -> sp <> [] -> Forall (eq (chr 32)) sp -> token_ends t -> here (B "module" ++ sp ++ n ++ t) = Some n.
Proof.
  intros Hn Hs Hf Ht. destruct sp as [|c sp]; [contradiction|]. inversion Hf as [|? ? E Hf']; subst. unfold here.
  change (B "module" ++ (chr 32 :: sp) ++ n ++ t) with (B "module " ++ sp ++ n ++ t). rewrite cut_app, (spaces_drop sp (n ++ t) Hf' (token_start n t Hn)).
  rewrite word_token by (auto; apply Hn). destruct Hn as [Hn _]. destruct n; [contradiction|reflexivity].
Qed.
Lemma here_some s w : here s = Some w -> exists z, s = B "module " ++ z.
Proof. unfold here. destruct (cut (B "module ") s) as [r|] eqn:E; [|discriminate]. intros _. exists r. apply cut_some, E. Qed.
Lemma spaces_split r : exists sp, r = sp ++ spaces r /\ Forall (eq (chr 32)) sp.
Proof.
  induction r as [|c r (sp & E & F)]; [exists []; auto|]. cbn [spaces]. destruct (N.eqb (code c) 32) eqn:Ec; [|exists []; auto].
  exists (c :: sp). split; [cbn; now rewrite <- E|]. constructor; auto. apply N.eqb_eq in Ec. rewrite <- Ec. apply chr_code.
Qed.
Lemma here_more s w : here s = Some w -> exists sp c z, s = B "module" ++ sp ++ c :: z /\ sp <> [] /\ Forall (eq (chr 32)) sp /\ ~ In c [chr 32; chr 9; chr 10; chr 12; chr 13].
Proof.
  unfold here. destruct (cut (B "module ") s) as [r|] eqn:E; [|discriminate]. apply cut_some in E. destruct (spaces_split r) as (sp & Er & F).
  destruct (spaces r) as [|c z]; [discriminate|]. cbn [word]. destruct (blank c) eqn:Eb; [discriminate|]. intros _. exists (chr 32 :: sp), c, z.
  split; [rewrite E, Er; reflexivity|]. split; [discriminate|]. split; [now constructor|]. intros Hi. cbn [In] in Hi. destruct Hi as [<-|[<-|[<-|[<-|[<-|[]]]]]]; discriminate Eb.
Qed.
Lemma find_skip2 a s w : here s = Some w ->
  (forall x sp c z, a ++ s = x ++ B "module" ++ sp ++ c :: z -> sp <> [] -> Forall (eq (chr 32)) sp -> ~ In c [chr 32; chr 9; chr 10; chr 12; chr 13] -> ~ (length x < length a)) -> find (a ++ s) = Some w.
Proof.
  intros Hs. induction a as [|c a IH]; intros H.
  - cbn [app]. destruct s as [|c s]; cbn [find]; now rewrite Hs.
  - cbn [app find]. destruct (here (c :: a ++ s)) as [v|] eqn:E.
    + destruct (here_more _ _ E) as (sp & d & z & Hz & H1 & H2 & H3). exfalso. apply (H [] sp d z Hz H1 H2 H3). cbn; lia.
    + apply IH. intros x sp d z E' H1 H2 H3 L. apply (H (c :: x) sp d z); auto; [cbn; now rewrite E'|cbn; lia].
Qed.
Lemma find_skip a s w : here s = Some w -> (forall x z, a ++ s = x ++ B "module " ++ z -> ~ (length x < length a)) -> find (a ++ s) = Some w.
Proof.
  intros Hs H. apply find_skip2; auto. intros x [|c' sp] c z E H1 H2 _; [contradiction|]. inversion H2; subst. apply (H x (sp ++ c :: z)). exact E.
Qed.
Lemma find_plain n text : plainly n text -> find text = Some n.
Proof.
  intros (Hn & a & sp & t & -> & Hs & Hf & Ht & H). apply find_skip2; [apply here_plain; auto|]. intros x sp' c z E H1 H2 H3 L. apply H. exists x, sp', c, z. auto.
Qed.
Lemma dir_names d : forall t, names_dir d t -> dir_text d = t.
Proof.
  induction 1; cbn [dir_text rev map concat app]; [reflexivity|now rewrite app_nil_r|]. rewrite map_app, concat_app. cbn [map concat]. rewrite app_nil_r. f_equal. exact IHnames_dir.
Qed.
Lemma dir_named d : names_dir d (dir_text d).
Proof.
  induction d as [|x [|y d] IH]; [constructor|cbn; rewrite app_nil_r; constructor|].
  assert (E : dir_text (x :: y :: d) = dir_text (y :: d) ++ "/"%char :: x).
  { unfold dir_text. cbn [rev]. rewrite (map_app _ _ [x]), concat_app. cbn [map concat]. now rewrite app_nil_r. }
  rewrite E. constructor. exact IH.
Qed.
Lemma mod_near file d e : nearest file d e -> find_mod file d = Mod (match find (file e) with Some n => n | None => [] end) (dir_text e).
Proof.
  induction 1 as [d H|x d e H H' IH].
  - destruct d; cbn [find_mod]; destruct (file _) as [|c r] eqn:E; try contradiction; reflexivity.
  - cbn [find_mod]. rewrite H. exact IH.
Qed.

(* C130: a file of the module (its path begins with that of the module, as with -trimpath) is found in the directory of go.mod, other files
   are left alone; provided that no text "module " comes before the directive, which is written with spaces and without quotes, and that the
   path of the other file does not begin with that of the module. *)
Theorem C130_partial : forall file d e n dt exists_, nearest file d e -> plainly n (file e) -> names_dir e dt ->
  let m := find_mod file d in
  (forall rel, exists_ (n ++ B "/" ++ rel) = false -> AbsFile exists_ m (n ++ B "/" ++ rel) = dt ++ B "/" ++ rel) /\
  (forall f, (forall r, f <> n ++ r) -> AbsFile exists_ m f = f) /\
  (forall f, exists_ f = true -> AbsFile exists_ m f = f).
Proof.
  intros file d e n dt exists_ Hn Hp Hd m. assert (E : m = Mod n dt).
  { unfold m. rewrite (mod_near _ _ _ Hn), (find_plain _ _ Hp), (dir_names _ _ Hd). reflexivity. }
  rewrite E. unfold AbsFile. cbn [m_name m_path]. repeat split.
  - intros rel H. rewrite H, cut_app. destruct (beqb (B "/" ++ rel) (n ++ B "/" ++ rel)) eqn:Q; [|reflexivity]. apply beqb_eq in Q.
    apply (f_equal (@length _)) in Q. rewrite !app_length in Q. destruct Hp as [[Hn' _] _]. destruct n; [contradiction|]. cbn in Q. lia.
  - intros f H. destruct (exists_ f); [reflexivity|]. destruct (cut n f) as [r|] eqn:Q; [|reflexivity]. apply cut_some in Q. destruct (H r Q).
  - intros f H. now rewrite H.
Qed.
Print Assumptions C130_partial.

(* C130: without go.mod all files are left alone. *)
Theorem C130_without : forall file d exists_ f, (forall a e, d = a ++ e -> file e = []) -> AbsFile exists_ (find_mod file d) f = f.
Proof.
  intros file d exists_ f H. assert (E : find_mod file d = Mod [] []).
  { induction d as [|x d IH]; cbn [find_mod]; rewrite (H [] _ eq_refl); [reflexivity|]. apply IH. intros a e ->. apply (H (x :: a) e). reflexivity. }
  rewrite E. unfold AbsFile. cbn. rewrite beqb_refl. now destruct (exists_ f).
Qed.
Print Assumptions C130_without.

(* C130 is false of the code: a file of another module whose path only begins with the same text is looked for in a directory that is not its. *)
Theorem C130_prefix_refuted : forall file d e n dt exists_ x, nearest file d e -> plainly n (file e) -> names_dir e dt -> x <> [] ->
  exists_ (n ++ x) = false -> AbsFile exists_ (find_mod file d) (n ++ x) = dt ++ x.
Proof.
  intros file d e n dt exists_ x Hn Hp Hd Hx H. rewrite (mod_near _ _ _ Hn), (find_plain _ _ Hp), (dir_names _ _ Hd). unfold AbsFile. cbn [m_name m_path].
  rewrite H, cut_app. destruct (beqb x (n ++ x)) eqn:Q; [|reflexivity]. apply beqb_eq in Q.
  apply (f_equal (@length _)) in Q. rewrite !app_length in Q. destruct Hp as [[Hn' _] _]. destruct n; [contradiction|]. cbn in Q. lia.
Qed.
Print Assumptions C130_prefix_refuted.

Lemma other_comment w : Forall path_char w -> other_line (B "// the module " ++ w).
Proof.
  intros H. split.
  - intros Hi. apply in_app_or in Hi. destruct Hi as [Hi|Hi]; [vm_compute in Hi; repeat (destruct Hi as [Hi|Hi]; [discriminate|]); destruct Hi|].
    rewrite Forall_forall in H. apply (H _ Hi). right; right; left; reflexivity.
  - intros a t E Ha. exfalso. destruct a as [|c a]; [discriminate|]. injection E as E _. inversion Ha as [|? ? Hc _]; subst. destruct Hc as [Q|[Q|[Q|[]]]]; discriminate.
Qed.
Lemma token_no_blank n : Forall path_char n -> forall x z, n <> x ++ B "module " ++ z.
Proof.
  intros H x z ->. rewrite !Forall_app in H. destruct H as (_ & H & _). rewrite Forall_forall in H. apply (H (chr 32)); [|left; reflexivity].
  vm_compute. tauto.
Qed.
(* C130 is false of the code: with a comment with the word module before the directive, a tab after it, or quotes, the module is another, or
   none. *)
Theorem C130_comment_refuted : forall n w, path_token n -> path_token w -> let text := B "// the module " ++ w ++ newline :: B "module " ++ n ++ [newline] in
  declares_module n text /\ find text = Some w.
Proof.
  intros n w Hn Hw text. split.
  - split; [exact Hn|]. exists [chr 32], n. split; [discriminate|]. split; [constructor; [left; reflexivity|constructor]|]. split; [left; reflexivity|].
    unfold text. change (B "// the module " ++ w ++ newline :: B "module " ++ n ++ [newline]) with (B "// the module " ++ w ++ newline :: ([] ++ B "module" ++ [chr 32] ++ n ++ [newline])).
    rewrite app_assoc. apply dc_next; [apply other_comment, Hw|]. apply dc_here; [constructor|right; reflexivity].
  - unfold text. change (B "// the module " ++ w ++ newline :: B "module " ++ n ++ [newline]) with (B "// the " ++ (B "module" ++ [chr 32] ++ w ++ (newline :: B "module " ++ n ++ [newline]))).
    apply find_skip; [apply here_plain; auto; [discriminate|right; reflexivity]|]. intros x z E L.
    destruct x as [|c0 [|c1 [|c2 [|c3 [|c4 [|c5 [|c6 x]]]]]]]; try (cbn in E; discriminate). cbn in L. lia.
Qed.
Print Assumptions C130_comment_refuted.
Theorem C130_tab_refuted : forall n, path_token n -> let text := B "module" ++ chr 9 :: n ++ [newline] in declares_module n text /\ find text = None.
Proof.
  intros n Hn text. split.
  - split; [exact Hn|]. exists [chr 9], n. split; [discriminate|]. split; [constructor; [right; left; reflexivity|constructor]|]. split; [left; reflexivity|].
    change text with ([] ++ B "module" ++ [chr 9] ++ n ++ [newline]). apply dc_here; [constructor|right; reflexivity].
  - assert (G : forall s, (forall x z, s <> x ++ B "module " ++ z) -> find s = None).
    { induction s as [|c s IH]; intros H; cbn [find].
      - reflexivity.
      - destruct (here (c :: s)) as [w|] eqn:E; [destruct (here_some _ _ E) as [z Hz]; destruct (H [] z Hz)|]. apply IH. intros x z Q. apply (H (c :: x) z). cbn. now rewrite Q. }
    apply G. intros x z E. assert (Hi : In (chr 32) text) by (rewrite E; apply in_or_app; right; vm_compute; tauto).
    unfold text in Hi. apply in_app_or in Hi. destruct Hi as [Hi|[Hi|Hi]]; [vm_compute in Hi; repeat (destruct Hi as [Hi|Hi]; [discriminate|]); destruct Hi|discriminate|].
    apply in_app_or in Hi. destruct Hi as [Hi|[Hi|[]]]; [|discriminate]. destruct Hn as [_ Hn]. rewrite Forall_forall in Hn. apply (Hn _ Hi). left. reflexivity.
Qed.
Print Assumptions C130_tab_refuted.
Theorem C130_quotes_refuted : forall n, path_token n -> let text := B "module " ++ chr 34 :: n ++ [chr 34; newline] in
  declares_module n text /\ find text = Some (chr 34 :: n ++ [chr 34]).
Proof.
  intros n Hn text. split.
  - split; [exact Hn|]. exists [chr 32], (chr 34 :: n ++ [chr 34]). split; [discriminate|]. split; [constructor; [left; reflexivity|constructor]|]. split; [right; reflexivity|].
    replace text with ([] ++ B "module" ++ [chr 32] ++ (chr 34 :: n ++ [chr 34]) ++ [newline]) by (unfold text; cbn; now rewrite <- app_assoc). apply dc_here; [constructor|right; reflexivity].
  - assert (W : word (chr 34 :: n ++ [chr 34; newline]) = chr 34 :: n ++ [chr 34]).
    { cbn [word]. change (blank (chr 34)) with false. cbv iota. f_equal. destruct Hn as [_ Hn]. induction Hn as [|c n Hc Hn IH]; [reflexivity|].
      cbn [app word]. rewrite blank_not by exact Hc. now rewrite IH. }
    assert (E : here text = Some (chr 34 :: n ++ [chr 34])).
    { unfold here, text. rewrite cut_app. change (spaces (chr 34 :: n ++ [chr 34; newline])) with (chr 34 :: n ++ [chr 34; newline]). rewrite W. reflexivity. }
    change text with ([] ++ text). apply find_skip; [exact E|]. intros x z _ L. cbn in L. lia.
Qed.
Print Assumptions C130_quotes_refuted.

Definition sf_file (d : list bytes) : bytes :=
  match d with [_] => B "// x" ++ newline :: newline :: B "module   a.io/x // y" ++ newline :: B "go 1.20" | _ => [] end.
Example C130_ex : nearest sf_file [B "sub"; B "src"] [B "src"] /\ plainly (B "a.io/x") (sf_file [B "src"]) /\ names_dir [B "src"] (B "/src") /\
  AbsFile (fun _ => false) (find_mod sf_file [B "sub"; B "src"]) (B "a.io/x/sub/f.go") = B "/src/sub/f.go" /\
  AbsFile (fun _ => false) (find_mod sf_file [B "sub"; B "src"]) (B "fmt/print.go") = B "fmt/print.go" /\
  AbsFile (fun _ => false) (find_mod sf_file [B "sub"; B "src"]) (B "a.io/xy@v1.0.0/f.go") = B "/srcy@v1.0.0/f.go" /\
  (forall r, B "fmt/print.go" <> B "a.io/x" ++ r) /\ path_token (B "a.io/x").
Proof.
  assert (P : path_token (B "a.io/x")).
  { split; [discriminate|]. repeat constructor; intros Q; vm_compute in Q; repeat (destruct Q as [Q|Q]; [discriminate|]); destruct Q. }
  split; [apply near_up; [reflexivity|apply near_here; discriminate]|]. split.
  - split; [exact P|]. exists (B "// x" ++ [newline; newline]), (B "   "), (B " // y" ++ newline :: B "go 1.20"). split; [reflexivity|]. split; [discriminate|].
    split; [repeat constructor|]. split; [left; left; reflexivity|]. intros (x & sp & c & z & E & S1 & S2 & S3 & L).
    destruct x as [|c0 [|c1 [|c2 [|c3 [|c4 [|c5 x]]]]]]; try (cbn in E; discriminate). cbn in L. lia.
  - split; [constructor|]. do 3 (split; [vm_compute; reflexivity|]). split; [intros r Q; discriminate|exact P].
Qed.

(* ---- names of functions ---- *)
Lemma split_none sep s : ~ In sep s -> split sep s = [s].
Proof.
  induction s as [|c s IH]; intros H; [reflexivity|]. cbn [split]. destruct (N.eqb (code c) (code sep)) eqn:E.
  - apply N.eqb_eq, code_inj in E. destruct H. left. exact E.
  - rewrite IH by (intros Q; apply H; right; exact Q). reflexivity.
Qed.
Lemma split_cons sep s : split sep s <> [].
Proof. destruct s as [|c s]; cbn [split]; [discriminate|]. destruct (N.eqb _ _); [discriminate|]. destruct (split sep s); discriminate. Qed.
Lemma split_app sep p s : split sep (p ++ sep :: s) = split sep p ++ split sep s.
Proof.
  induction p as [|c p IH]; cbn [app split]; [now rewrite N.eqb_refl|]. rewrite IH. destruct (N.eqb (code c) (code sep)); [reflexivity|].
  destruct (split sep p) eqn:E; [destruct (split_cons _ _ E)|]. reflexivity.
Qed.
Lemma split_last sep p s : ~ In sep s -> last_part sep (p ++ sep :: s) = s.
Proof. intros H. unfold last_part. rewrite split_app, (split_none _ s H). apply last_last. Qed.

(* C131: the name of a function, method or closure, also of a generic one: what comes after the last dot, without "[...]".  before: the
   package with its path, the receiver, the functions around a closure. *)
Theorem C131_name : forall before name generic, ~ In "."%char name -> ~ In "]"%char name -> generic = [] \/ generic = B "[...]" ->
  FuncName (before ++ "."%char :: name ++ generic) = name.
Proof.
  intros before name generic H H' G. unfold FuncName, trim_suffix. replace (before ++ "."%char :: name ++ generic) with ((before ++ "."%char :: name) ++ generic) by now rewrite <- app_assoc.
  destruct G as [-> | ->].
  - rewrite app_nil_r. destruct (cut (rev (B "[...]")) (rev (before ++ "."%char :: name))) as [r|] eqn:E; [|apply split_last, H].
    exfalso. apply cut_some in E. apply (f_equal (@rev _)) in E. rewrite rev_involutive, rev_app_distr, rev_involutive in E.
    change (B "[...]") with (B "[..." ++ ["]"%char]) in E. rewrite app_assoc in E.
    destruct name as [|c n] using rev_ind; [apply app_inj_tail in E; destruct E as [_ E]; discriminate|].
    replace (before ++ "."%char :: n ++ [c]) with ((before ++ "."%char :: n) ++ [c]) in E by now rewrite <- app_assoc.
    apply app_inj_tail in E. destruct E as [_ E]. apply H', in_or_app. right. left. exact E.
  - rewrite rev_app_distr, cut_app, rev_involutive. apply split_last, H.
Qed.
Print Assumptions C131_name.

(* C131: the function with its package, without the path of the package. *)
Theorem C131_short : forall path f, ~ In "/"%char f -> ShortFunc (path ++ "/"%char :: f) = f /\ ShortFunc f = f.
Proof. intros path f H. split; [apply split_last, H|]. unfold ShortFunc, last_part. now rewrite split_none. Qed.
Print Assumptions C131_short.

(* C131 is false of the code: an init function, which the runtime calls init.0, init.1, ..., is not called init. *)
Theorem C131_init_refuted : forall pkg n, FuncName (pkg ++ B ".init." ++ DecModel.dec n) = DecModel.dec n.
Proof.
  intros pkg n. replace (pkg ++ B ".init." ++ DecModel.dec n) with ((pkg ++ B ".init") ++ "."%char :: DecModel.dec n ++ []) by (rewrite app_nil_r, <- app_assoc; reflexivity).
  pose proof (DecFacts.dec_digits n) as D. rewrite Forall_forall in D.
  apply C131_name; auto; intros Q; apply D in Q; vm_compute in Q; discriminate.
Qed.
Print Assumptions C131_init_refuted.

Example C131_ex : FuncName (B "a.io/x/pkg.(*T[...]).Do") = B "Do" /\ FuncName (B "a.io/x/pkg.Test[...]") = B "Test" /\
  ShortFunc (B "a.io/x/pkg.Test[...]") = B "pkg.Test[...]" /\ ~ In "."%char (B "Test") /\ ~ In "]"%char (B "Test") /\ FuncName (B "main.init.0") = B "0".
Proof.
  repeat (split; [vm_compute; reflexivity|]). split; [|split; [|vm_compute; reflexivity]]; intros Q; vm_compute in Q; repeat (destruct Q as [Q|Q]; [discriminate|]); destruct Q.
Qed.
