(* Theorems about log calls: C28, C67, C68. *)
From Coq Require Import Bool Ascii String Arith NArith ZArith Lia List.
From Verif Require Import Prelude DurModel JsonModel CtxModel ErrModel LogModel LogSpec LogProofs.
Import ListNotations.

(* C28: two calls to a slog logger that differ only in the contents of redacted arguments give the same
   message and the same tags, whatever fmt.Sprintf does with its arguments. *)
Theorem C28_redacted : forall short uc um st (sprintf : bytes -> list arg -> bytes) c f args args',
  Forall2 same_shape args args' ->
  slog_call short uc um st sprintf c f args = slog_call short uc um st sprintf c f args'.
Proof. exact slog_same. Qed.
Print Assumptions C28_redacted.

Definition C28_sprintf (f : bytes) (args : list arg) : bytes :=
  f ++ flat_map (fun a => match a with ARedacted s | AStr s => B " " ++ s | _ => B " ?" end) args.
Example C28_ex :
  let call (p : bytes) := slog_call true (fun _ => None) (fun _ => []) (fun _ => []) C28_sprintf (Tag Root (B "u") (B "1")) (B "login")
       [AStr (B "joe"); ARedacted p; AErr (ECtx (EInfo [B "a.go:1"] None) (EBase 1 (B "no")))] in
  call (B "secret") = call (B "other") /\
  fst (call (B "secret")) = B "login joe *** ?" /\
  snd (call (B "secret")) = [(B "u", B "1"); (B "error", B "[{""error"":""no"",""stack"":[""a.go:1""]}]")].
Proof. repeat split; vm_compute; reflexivity. Qed.

(* C67 is false of the code: FormatMsg writes into the caller's slice when it is called with `args...`. *)
Theorem C67_args_kept_refuted :
  ~ (forall short uc um st sprintf t f args, snd (FormatMsg short uc um st sprintf t f args) = args).
Proof.
  intros H. specialize (H true (fun _ => None) (fun _ => []) (fun _ => []) (fun _ _ => []) [] [] [ARedacted (B "s")]).
  discriminate H.
Qed.
Print Assumptions C67_args_kept_refuted.

(* What holds: the slice is left alone when no argument is Loggable. *)
Theorem C67_args_kept_partial : forall short uc um st (sprintf : bytes -> list arg -> bytes) t f args,
  Forall plain args -> snd (FormatMsg short uc um st sprintf t f args) = args.
Proof. exact format_plain. Qed.
Print Assumptions C67_args_kept_partial.

Example C67_ex :
  Forall plain [AStr (B "a"); AErr (EBase 1 []); AOther 3] /\
  snd (FormatMsg true (fun _ => None) (fun _ => []) (fun _ => []) (fun _ _ => []) [] [] [AStr (B "a"); ARedacted (B "s")])
  = [AStr (B "a"); AStr (B "***")].
Proof. split; [repeat constructor|reflexivity]. Qed.

(* C68 is false of the code: a redacted string attached as a tag is logged in the clear. *)
Theorem C68_redacted_tag_refuted :
  ~ (forall short uc um st sprintf c k s s' f args,
     slog_call short uc um st sprintf (WithTag_redacted short c k s) f args =
     slog_call short uc um st sprintf (WithTag_redacted short c k s') f args).
Proof.
  intros H. specialize (H true (fun _ => None) (fun _ => []) (fun _ => []) (fun _ _ => []) Root (B "password") (B "a") (B "b") [] []).
  discriminate H.
Qed.
Print Assumptions C68_redacted_tag_refuted.

(* What holds: it shows under its own name only. *)
Theorem C68_redacted_tag_partial : forall short c k s s' k', k' <> k ->
  mget beqb (ExtractTags (WithTag_redacted short c k s)) k' = mget beqb (ExtractTags (WithTag_redacted short c k s')) k'.
Proof. exact tag_redacted. Qed.
Print Assumptions C68_redacted_tag_partial.

Example C68_ex :
  mget beqb (ExtractTags (WithTag_redacted true (Tag Root (B "u") (B "1")) (B "password") (B "x"))) (B "u") = Some (B "1") /\
  mget beqb (ExtractTags (WithTag_redacted true (Tag Root (B "u") (B "1")) (B "password") (B "x"))) (B "password") = Some (B """x""").
Proof. split; reflexivity. Qed.
