(* Model of /repo/test/ctx.go: the context of a test, and the test of a context. *)
From Coq Require Import Bool Ascii String Arith NArith ZArith List.
From Verif Require Import Prelude JsonModel QuoteModel CtxModel.
Import ListNotations.

Section Xt.
  (* testerKey{} (test/ctx.go:42), a key that no other package can make; which of the values are a *testing.T: the others that can be attached, *testing.B
     and *testing.F, are testing.TB too *)
  Context (tester : N) (is_T : N -> bool).
  (* test/ctx.go:45-47 WithTester of the context numbered n *)
  Definition WithTester (n : nat) (t : N) : op := OValue n (inl tester) (Some t).
  (* test/ctx.go:50-57 ExtractTester; None is a nil argument and a nil result *)
  Definition ExtractTester (c : option context) : option N :=
    match c with
    | Some c => match Value c (KUser tester) with Some (VUser t) => if is_T t then Some t else None | _ => None end
    | None => None
    end.
  (* test/ctx.go:16-40 Context, as operations when n contexts have been made: context.Background, WithTag with the JSON of t.Name(), WithTester; on a terminal
     WithHelper and WithLogFunc with these two functions; WithDeadline if the test has one, else WithCancel.  late: the deadline is over already *)
  Definition Context_ (n : nat) (name : bytes) (t : N) (terminal : option (N * N)) (deadline : option (Z * bool)) : list op :=
    [OTODO; OTag n (B "test") (jstr false name); WithTester (n + 1) t] ++
    match terminal with Some (h, f) => [OHelper (n + 2) h; OLogFunc (n + 3) f] | None => [] end ++
    let p := n + match terminal with Some _ => 4 | None => 2 end in
    match deadline with Some (d, late) => [ODeadline p d late] | None => [OCancel p] end.
  (* the number of the context that is returned *)
  Definition made (n : nat) (terminal : option (N * N)) : nat := n + match terminal with Some _ => 5 | None => 3 end.
  (* test/ctx.go:33,37: what t.Cleanup does when the test is over *)
  Definition cleanup (n : nat) (terminal : option (N * N)) : op := OFire (made n terminal) None.
  (* test/equals.go:60-64, test/strings.go:27-32: t.Helper() of a nil *testing.T panics; else the outcome is reported to that test *)
  Definition assert_json (c : option context) (holds : bool) : res (N * bool) :=
    match ExtractTester c with Some t => Ok (t, holds) | None => Panic end.
End Xt.
