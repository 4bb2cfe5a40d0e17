(* Vocabulary of the statements about errors in log lines: C160. *)
From Coq Require Import Bool Ascii String Arith NArith ZArith List.
From Verif Require Import Prelude Utf8Model DurModel JsonSpec RfcSpec CtxModel CtxSpec ErrModel LogModel LgModel LgSpec.
Import ListNotations.

(* the errors among the arguments *)
Definition errors_in (args : list arg) : list gerr := flat_map (fun a => match a with AErr e => [e] | _ => [] end) args.
(* the tags of a context are JSON, nested less than 9990 deep *)
Definition json_tags (c : context) : Prop := forall k t, closest_tag c k = Some t -> exists x, json_text t x /\ (N.of_nat (tdepth x) <= 9990)%N.
(* the members of an object show the tags of a context: all of them, and no others *)
Definition shows_tags (c : context) (l : list (bytes * jtree)) : Prop :=
  (forall k t, closest_tag c k = Some t -> exists x, In (cleaned k, x) l /\ json_text t x) /\
  (forall k x, In (k, x) l -> exists k' t, closest_tag c k' = Some t /\ k = cleaned k' /\ json_text t x).
Section Errors.
  (* as in ErrModel *)
  Context (user_ctx : N -> option einfo) (user_msg : N -> bytes) (status_text : Z -> bytes).
  (* the context of the ctx.Error in an error has JSON for tags *)
  Definition json_error (e : gerr) : Prop := forall i c, as_ctx user_ctx e = Some i -> ectx i = Some c -> json_tags c.
  (* it has a tag that is no JSON *)
  Definition bad_error (e : gerr) : Prop := exists i c k t, as_ctx user_ctx e = Some i /\ ectx i = Some c /\ closest_tag c k = Some t /\ forall x, ~ json_text t x.
  (* an object that tells an error: its message, and the stack and tags of the first ctx.Error in it *)
  Definition error_says (e : gerr) (x : jtree) : Prop :=
    exists more, x = TObj ((B "error", TStr (cleaned (emsg user_msg status_text e))) :: more) /\
    match as_ctx user_ctx e with
    | None => more = []
    | Some i => exists more', more = (B "stack", TArr (map (fun s => TStr (cleaned s)) (estack i))) :: more' /\
        match ectx i with None => more' = [] | Some c => exists l, more' = [(B "tags", TObj l)] /\ shows_tags c l end
    end.
End Errors.
(* two readings of one text: what they stand for is the same *)
Definition alike_trees (x y : jtree) : Prop := exists n, stands x n /\ stands y n.
