(* Vocabulary of the statements about UnmarshalNode of sync.Map: C161. *)
From Coq Require Import Bool Ascii String Arith List.
From Verif Require Import Prelude DurModel UmModel.
Import ListNotations.

Section S.
  Context {V : Type}.
  (* what was given to be stored: the documents that could be read, and the entries of calls of Store *)
  Definition given (l : list (event V)) : list doc :=
    flat_map (fun e => match e with Begin _ (Some d) => [d] | Store k v => [[(k, v)]] | _ => [] end) l.
  (* every call has returned *)
  Definition quiet (s : state V) : Prop := forall t, left s t = None.
  (* the documents agree where they have the same keys *)
  Definition agree (ds : list (@doc V)) : Prop := forall d d' k v v', In d ds -> In d' ds -> In (k, v) d -> In (k, v') d' -> v = v'.
  (* the content of a map after a document was merged into it, all at once *)
  Definition merged (m d m' : @doc V) : Prop := forall k, mget beqb m' k = match mget beqb d k with Some v => Some v | None => mget beqb m k end.
End S.
