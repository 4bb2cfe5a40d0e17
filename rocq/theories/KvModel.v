(* Model of /repo/storage/keyvalue.go and filter.go. *)
From Coq Require Import Bool Ascii String Arith NArith ZArith Lia List.
From Verif Require Import Prelude Utf8Model QuoteModel DurModel EncModel.
Import ListNotations.

(* an enc.Map value; None is a nil map; storage/keyvalue.go:21 *)
Definition kval := option (list (bytes * node)).

(* storage/keyvalue.go:19-22 memKeyValue.data, as the list of its entries.  Every method holds the lock
   while it uses the map, so methods are atomic except for the callbacks of Range. *)
Definition kv := list (bytes * kval).

(* storage/keyvalue.go:26-30 NewMemKeyValue *)
Definition NewMemKeyValue : kv := [].

(* storage/keyvalue.go:32-37 Get *)
Definition kvGet (s : kv) (k : bytes) : kval :=
  match mget beqb s k with Some v => v | None => None end.

(* storage/keyvalue.go:39-44 Upsert *)
Definition kvUpsert (s : kv) (k : bytes) (v : kval) : kv := mset beqb s k v.

(* storage/keyvalue.go:46-51 Delete *)
Definition kvDelete (s : kv) (k : bytes) : kv := mdel beqb s k.

(* storage/keyvalue.go:39,46 writing calls *)
Inductive kvop := KUpsert (k : bytes) (v : kval) | KDelete (k : bytes).
(* storage/keyvalue.go:39-51 a history of calls *)
Definition kvstep (s : kv) (o : kvop) : kv :=
  match o with KUpsert k v => kvUpsert s k v | KDelete k => kvDelete s k end.
(* storage/keyvalue.go:39-51 a history of calls *)
Definition kvrun (ops : list kvop) : kv := fold_left kvstep ops NewMemKeyValue.

(* storage/filter.go:5-9 Filter; fval None is a nil node.  storage/filter.go:11-20 Cmp is a string *)
Record filt := Filt { ffield : bytes; fcmp : bytes; fval : option node }.

Section Range.
  Context (isprint : N -> bool).
  (* GoString of a map prints its entries in a fresh random order at each call (enc/map.go:43):
     `sh i n` is the node with its maps listed in the order seen by the i-th call *)
  Context (sh : nat -> node -> node).

  (* storage/keyvalue.go:98-112 Filter.Check, as the i-th and i+1-th calls of GoString;
     the log line at 103 is omitted *)
  Definition fCheck (i : nat) (f : filt) (v : kval) : outcome bool unit :=
    let x := match v with
             | Some m => match mget beqb m (ffield f) with Some n => n | None => NNil end
             | None => NNil
             end in
    if beqb (fcmp f) (B "EQ") || beqb (fcmp f) (B "NEQ") then
      match fval f with
      | None => Crash
      | Some w =>
          let same := beqb (gostring isprint (sh i x)) (gostring isprint (sh (S i) w)) in
          Good (if beqb (fcmp f) (B "EQ") then same else negb same)
      end
    else Fail tt.

  (* storage/keyvalue.go:88-96 check; also returns the next call index *)
  Fixpoint checks (i : nat) (v : kval) (fs : list filt) : outcome bool unit * nat :=
    match fs with
    | [] => (Good true, i)
    | f :: t =>
        match fCheck i f v with
        | Good true => checks (S (S i)) v t
        | r => (r, S (S i))
        end
    end.

  (* storage/keyvalue.go:59-73 the snapshot, over the entries in iteration order *)
  Fixpoint snapshot (i : nat) (data : kv) (fs : list filt) : outcome kv unit :=
    match data with
    | [] => Good []
    | (k, v) :: t =>
        match checks i v fs with
        | (Good ok, j) =>
            match snapshot j t fs with
            | Good l => Good (if ok then (k, v) :: l else l)
            | r => r
            end
        | (Fail e, _) => Fail e
        | (Crash, _) => Crash
        end
    end.

  (* what a callback may return (storage/keyvalue.go:78): nil, EOD, another error *)
  Inductive cbres (E : Type) := CNil | CEod | CErr (e : E).
  Arguments CNil {E}.
  Arguments CEod {E}.
  Arguments CErr {E} e.
  (* what Range returns: nil, the callback's error, the error of Filter.Check, or a panic;
     storage/keyvalue.go:53-86 *)
  Inductive rangeres (E : Type) := RNil | RErr (e : E) | RUnsupported | RPanic.
  Arguments RNil {E}.
  Arguments RErr {E} e.
  Arguments RUnsupported {E}.
  Arguments RPanic {E}.

  Section Loop.
    Context {S E : Type}.
    (* the callback with the state it may read and write, the store included *)
    Context (cb : S -> bytes -> kval -> S * cbres E).

    (* storage/keyvalue.go:77-84; also returns the calls made *)
    Fixpoint visit (s : S) (l : kv) : S * list (bytes * kval * cbres E) * rangeres E :=
      match l with
      | [] => (s, [], RNil)
      | (k, v) :: t =>
          let '(s1, r) := cb s k v in
          match r with
          | CNil => let '(s2, tr, res) := visit s1 t in (s2, (k, v, r) :: tr, res)
          | CEod => (s1, [(k, v, r)], RNil)
          | CErr e => (s1, [(k, v, r)], RErr e)
          end
      end.

    (* storage/keyvalue.go:53-86 Range; `order` is the store in iteration order *)
    Definition kvRange (s : S) (order : kv) (fs : list filt) : S * list (bytes * kval * cbres E) * rangeres E :=
      match snapshot 0 order fs with
      | Good l => visit s l
      | Fail _ => (s, [], RUnsupported)
      | Crash => (s, [], RPanic)
      end.
  End Loop.
End Range.
Arguments CNil {E}.
Arguments CEod {E}.
Arguments CErr {E} e.
Arguments RNil {E}.
Arguments RErr {E} e.
Arguments RUnsupported {E}.
Arguments RPanic {E}.
