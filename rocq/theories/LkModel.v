(* Model of objects whose methods hold a lock from beginning to end, used by any number of goroutines: the caches of /repo/utils/caches/mem.go
   and lru.go, and the store of /repo/storage/keyvalue.go. *)
From Coq Require Import Bool Arith List.
From Verif Require Import Prelude LruModel MemModel KvModel.
Import ListNotations.

Section Lock.
  Context {S O R : Type}.
  (* what a call does and answers when nobody else is there; whether it runs the loader (utils/caches/mem.go:35, lru.go:73) *)
  Context (run : S -> O -> R * S) (loads : S -> O -> bool).
  (* calls are numbered: a call is made; it has the lock and runs the loader; the loader has returned; the call returns.
     utils/caches/mem.go:22-41 *)
  Inductive event := Call (i : nat) (o : O) | Load (i : nat) | Loaded (i : nat) | Ret (i : nat) (r : R).
  (* a call waits for the lock, and its loader, if it runs, will make these calls to the same object; it has the lock, and its loader has these
     calls left; it has released the lock.  utils/caches/mem.go:29-30, lru.go:62-63, storage/keyvalue.go:33-34 *)
  Inductive phase := Unused | Waiting (o : O) (inner : list O) | Holding (o : O) (loading : bool) (inner : list O) | Finished (r : R) | Over.
  (* the object, which call has the lock, the calls, how many there were, what was observed, newest first.  utils/caches/mem.go:9-13 *)
  Record st := St { obj : S; held : option nat; calls : nat -> phase; next : nat; tr : list event }.
  (* utils/caches/mem.go:28-41, call i goes on *)
  Definition goto (c : nat -> phase) (i : nat) (p : phase) : nat -> phase := fun x => if Nat.eqb x i then p else c x.
  (* One step: a call is made; it takes the lock (utils/caches/mem.go:29, lru.go:46,62, storage/keyvalue.go:33,40,47); it does its work and
     releases the lock, which is deferred (mem.go:30); it returns.  There is no step for a call that the loader makes to the same object: it
     waits for the lock that the call around it has, as a sync.Mutex is given only when it is free. *)
  Inductive step : st -> st -> Prop :=
  | call o inner s : step s (St (obj s) (held s) (goto (calls s) (next s) (Waiting o inner)) (Datatypes.S (next s)) (Call (next s) o :: tr s))
  | take i o inner s : calls s i = Waiting o inner -> held s = None ->
      step s (St (obj s) (Some i) (goto (calls s) i (Holding o (loads (obj s) o) (if loads (obj s) o then inner else []))) (next s) (if loads (obj s) o then Load i :: tr s else tr s))
  | work i o b s : calls s i = Holding o b [] ->
      step s (St (snd (run (obj s) o)) None (goto (calls s) i (Finished (fst (run (obj s) o)))) (next s) (if b then Loaded i :: tr s else tr s))
  | ret i r s : calls s i = Finished r -> step s (St (obj s) (held s) (goto (calls s) i Over) (next s) (Ret i r :: tr s)).
  (* any number of steps (utils/caches/mem.go:22-41) *)
  Inductive steps : st -> st -> Prop :=
  | steps_none s : steps s s
  | steps_more s s1 s2 : steps s s1 -> step s1 s2 -> steps s s2.
  (* before the first call (utils/caches/mem.go:15-20) *)
  Definition start (x : S) : st := St x None (fun _ => Unused) 0 [].
End Lock.
Arguments event : clear implicits.
Arguments phase : clear implicits.
Arguments st : clear implicits.

(* utils/caches/mem.go:22-41, one call *)
Definition mem_run {K V E} (eqb : K -> K -> bool) (m : @mem K V) (o : mop K V E) : option (mresult K V E) * @mem K V :=
  match o with MGet k ld => let (r, m') := mGet eqb m k ld in (Some r, m') | MInvalidate k => (None, mInvalidate eqb m k) end.
(* utils/caches/mem.go:31-35 *)
Definition mem_loads {K V E} (m : @mem K V) (o : mop K V E) : bool := match o with MGet k _ => match m k with Some _ => false | None => true end | MInvalidate _ => false end.
(* utils/caches/lru.go:45-98, one call *)
Definition lru_run {K V E} (eqb : K -> K -> bool) (c : lru K V) (o : LruModel.op K V E) : res (option (get_result K V E)) * lru K V :=
  match LruModel.step eqb c o with Ok (r, c') => (Ok r, c') | Panic => (Panic, c) end.
(* utils/caches/lru.go:65-73 *)
Definition lru_loads {K V E} (c : lru K V) (o : LruModel.op K V E) : bool :=
  match o with OGet k _ _ => match hindex (lheap c) k with Some _ => false | None => true end | OInvalidate _ => false end.
(* storage/keyvalue.go:32-51: Get, or a writing call *)
Inductive kvcall := KGet (k : bytes) | KWrite (o : kvop).
(* storage/keyvalue.go:32-51, one call *)
Definition kv_run (s : kv) (o : kvcall) : option kval * kv := match o with KGet k => (Some (kvGet s k), s) | KWrite w => (None, kvstep s w) end.
