(* Theorems about the Mem cache: C11. *)
From Coq Require Import Bool Arith Lia List.
From Verif Require Import Prelude LruModel MemModel MemSpec MemProofs.
Import ListNotations.

(* C11: the answer of every Get in every history: the value of the first successful load
   since the last Invalidate of that key, without loading; else what the loader says. *)
Theorem C11_mem : forall (K V E : Type) (eqb : K -> K -> bool), eqb_ok eqb ->
  forall (dec : forall x y : K, {x = y} + {x <> y}) (before after : list (mop K V E)) k ld,
  nth_error (fst (mrun eqb NewMem (before ++ MGet k ld :: after))) (length before)
  = Some (Some (expected (cached dec None k before) k ld)).
Proof. exact @mem_answers. Qed.
Print Assumptions C11_mem.

Example C11_ex :
  fst (mrun Nat.eqb NewMem [MGet 1 (MLoaded 5 (Some 0)); MGet 1 (MLoaded 6 None); MGet 1 (MLoaded 7 None);
                            MInvalidate 2; MGet 1 (MLoaded 8 None); MInvalidate 1; MGet 1 (MLoaded 9 None)])
  = [Some (MResult 5 ERR (Some 0) [1]); Some (MResult 6 MISS None [1]); Some (MResult 6 HIT None []);
     None; Some (MResult 6 HIT None []); None; Some (MResult 9 MISS None [1])].
Proof. vm_compute. reflexivity. Qed.
