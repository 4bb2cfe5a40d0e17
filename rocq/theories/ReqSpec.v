(* Specification vocabulary for RequestCache: reading a log of events, newest first. *)
From Coq Require Import Bool Arith ZArith List.
From Verif Require Import ReqModel.
Import ListNotations.

Section Spec.
  Context {K V E : Type}.

  (* the outcome of the last fetch completed for entry e, if it may be served again:
     key, value, error and expiry *)
  Fixpoint last_result (e : nat) (log : list (event K V E)) : option (K * V * option E * Z) :=
    match log with
    | [] => None
    | EFetched _ k e' v ttl err now :: older =>
        if e =? e' then if (0 <? ttl)%Z then Some (k, v, err, (now + ttl)%Z) else None
        else last_result e older
    | _ :: older => last_result e older
    end.

  (* the calls that ran the fetch for entry e, newest first *)
  Fixpoint fetchers (e : nat) (log : list (event K V E)) : list nat :=
    match log with
    | [] => []
    | EFetch r _ e' _ :: older => if e =? e' then r :: fetchers e older else fetchers e older
    | _ :: older => fetchers e older
    end.

  (* clock readings are after the zero time *)
  Definition clock_ok (l : label K V E) : Prop :=
    match l with
    | LStart _ _ now | LCheck _ now | LFetched _ _ _ _ now => (0 < now)%Z
    | _ => True
    end.

  (* no result of entry e was served past its life or made unservable: every fetch of e has a
     positive ttl that covers the later checks *)
  Definition long_lived (e : nat) (log : list (event K V E)) : Prop :=
    forall r k v ttl err now, In (EFetched r k e v ttl err now) log ->
      (0 < ttl)%Z /\ forall r' k' now', In (EFetch r' k' e now') log -> (now' <= now + ttl)%Z.
End Spec.
