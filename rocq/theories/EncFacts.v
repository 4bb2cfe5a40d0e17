(* Induction over node trees. *)
From Coq Require Import Bool Ascii String Arith NArith ZArith Lia List.
From Verif Require Import Prelude Utf8Model EncModel.
Import ListNotations.

Section Ind.
  Context (P : node -> Prop).
  Context (Hnil : P NNil) (Hbool : forall b, P (NBool b)) (Hint : forall z, P (NInt z))
    (Hfloat : forall f, P (NFloat f)) (Hdigits : forall s, P (NDigits s)) (Hstr : forall s, P (NStr s))
    (Htime : forall t, P (NTime t)) (Hdur : forall d, P (NDur d))
    (Hlist : forall l, Forall P l -> P (NList l))
    (Hmap : forall l, Forall (fun e => P (snd e)) l -> P (NMap l))
    (Hpairs : forall l, Forall (fun e => P (snd e)) l -> P (NPairs l)).

  Fixpoint node_ind2 (n : node) : P n :=
    match n with
    | NNil => Hnil
    | NBool b => Hbool b
    | NInt z => Hint z
    | NFloat f => Hfloat f
    | NDigits s => Hdigits s
    | NStr s => Hstr s
    | NTime t => Htime t
    | NDur d => Hdur d
    | NList l => Hlist l ((fix go (l : list node) : Forall P l :=
        match l with [] => Forall_nil _ | x :: t => Forall_cons x (node_ind2 x) (go t) end) l)
    | NMap l => Hmap l ((fix go (l : list (bytes * node)) : Forall (fun e => P (snd e)) l :=
        match l with [] => Forall_nil _ | x :: t => Forall_cons x (node_ind2 (snd x)) (go t) end) l)
    | NPairs l => Hpairs l ((fix go (l : list (bytes * bytes * node)) : Forall (fun e => P (snd e)) l :=
        match l with [] => Forall_nil _ | x :: t => Forall_cons x (node_ind2 (snd x)) (go t) end) l)
    end.
End Ind.
