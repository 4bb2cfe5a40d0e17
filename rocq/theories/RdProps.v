(* Property of utils.ReadAll. *)
From Coq Require Import Bool Ascii String Arith List.
From Verif Require Import Prelude RdModel RdSpec RdProofs.
Import ListNotations.

(* C45 as stated is false: the bytes that come together with io.EOF are lost.  io.Reader allows such a reader. *)
Theorem C45_all_data_refuted :
  ~ (forall r ls b, ~ In LCancel ls -> ret (exec (init r) ls) = Some (b, RNil) -> b = all_data r).
Proof.
  intros H. specialize (H [Rd (B "abc") None; Rd (B "de") (Some REOF)] [LGo; LGo; LGo; LGo; LErr] (B "abc")).
  assert (E : B "abc" = all_data [Rd (B "abc") None; Rd (B "de") (Some REOF)]).
  { apply H; [cbn; intuition discriminate|reflexivity]. }
  discriminate E.
Qed.
Print Assumptions C45_all_data_refuted.

(* What holds: for readers that give no bytes together with an error, a nil error comes with all the data, in every
   schedule, cancelled or not. *)
Theorem C45_all_data_partial : forall r ls b, ret (exec (init r) ls) = Some (b, RNil) ->
  Forall (fun x => rd_err x <> None -> rd_data x = []) r -> b = all_data r.
Proof. exact readall_all. Qed.
Print Assumptions C45_all_data_partial.

(* In general exactly the bytes of the last call of Read are lost, and other errors come with the data before them. *)
Theorem C45_exact_partial : forall r ls b k, ret (exec (init r) ls) = Some (b, k) ->
  match k with
  | RTimeout => exists pre post, r = pre ++ post /\ b = data (goods pre)
  | RNil => exists pre d post, r = pre ++ [Rd d (Some REOF)] ++ post /\ Forall (fun x => rd_err x = None) pre /\ b = data pre
  | RFail => exists pre d post, r = pre ++ [Rd d (Some ROther)] ++ post /\ Forall (fun x => rd_err x = None) pre /\ b = data pre
  end.
Proof. exact readall. Qed.
Print Assumptions C45_exact_partial.

(* and when the reader ends, ReadAll can return without any cancellation *)
Theorem C45_returns_partial : forall pre d e post, Forall (fun x => rd_err x = None) pre ->
  exists ls, Forall (fun l => l <> LCancel) ls /\
    ret (exec (init (pre ++ Rd d (Some e) :: post)) ls) = Some (data pre, match e with REOF => RNil | ROther => RFail end).
Proof. exact readall_ends. Qed.
Print Assumptions C45_returns_partial.

Example C45_ex :
  let r := [Rd (B "ab") None; Rd [] None; Rd (B "c") None; Rd [] (Some REOF)] in
  ret (exec (init r) [LGo; LGo; LGo; LGo; LGo; LGo; LGo; LCancel; LGo; LGo; LErr; LDone]) = Some (B "abc", RNil) /\
  ret (exec (init r) [LGo; LGo; LGo; LCancel; LDone; LGo; LErr]) = Some (B "ab", RTimeout) /\
  all_data r = B "abc" /\ Forall (fun x => rd_err x <> None -> rd_data x = []) r.
Proof. repeat split. repeat constructor; cbn; congruence. Qed.
