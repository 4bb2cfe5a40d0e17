(* Model of /repo/utils/caches/request.go: RequestCache as a machine of concurrent requests. *)
From Coq Require Import Bool Arith ZArith Lia List.
From Verif Require Import Prelude LruModel.
Import ListNotations.

Section Req.
  Context {K V E : Type} (eqb : K -> K -> bool) (zero : V).

  (* utils/caches/request.go:15-20 entry.  Entries are numbered by creation; times are integers and
     time.Time{} is 0.  The mutex of the entry is the field `owner` of the state. *)
  Record centry := CEntry { cV : V; cexpire : Z; cerr : option E }.

  (* Where a call of Request (utils/caches/request.go:35-71) stands.
     PNew: not started.  PGot: returned from cache.Get at line 37, waiting for e.m at line 43.
     PHold: holds e.m, before the test at line 48.  PFetch: inside onMiss, line 57.  PDone: returned.
     The boolean is `hit == MISS`. *)
  Inductive pc := PNew | PGot (k : K) (e : nat) (miss : bool) | PHold (k : K) (e : nat) (miss : bool)
                | PFetch (k : K) (e : nat) | PDone.

  (* What happened, in terms of the API.  r names a call of Request.
     EStart: the lookup at line 37 of call r for k gave entry e, newly made or not.
     EHit: r returned HIT with (v, err) at line 48-53, the clock being `now`.
     EFetch: r called onMiss at line 57, after having read the clock (line 48).
     EFetched: onMiss returned (v, ttl, err) to r, which returned the same v and err
     (lines 57-70); `now` is the clock read at line 61.
     EInval: Invalidate was called (utils/caches/request.go:31-33). *)
  Inductive event :=
  | EStart (r : nat) (k : K) (e : nat) (miss : bool)
  | EHit (r : nat) (k : K) (e : nat) (v : V) (err : option E) (now : Z)
  | EFetch (r : nat) (k : K) (e : nat) (now : Z)
  | EFetched (r : nat) (k : K) (e : nat) (v : V) (ttl : Z) (err : option E) (now : Z)
  | EInval (k : K).

  (* the whole state of utils/caches/request.go:10-20 plus the calls in progress and the events, newest first *)
  Record st := St {
    cache : lru K nat;              (* utils/caches/request.go:11 *)
    fresh : nat;                    (* number of entries made so far, utils/caches/request.go:26 *)
    ents : nat -> centry;           (* the entries pointed to *)
    owner : nat -> option nat;      (* who holds the mutex of an entry *)
    pcs : nat -> pc;
    log : list event }.

  (* utils/caches/request.go:22-29 NewRequestLRU *)
  Definition NewRequestLRU (max : Z) : st :=
    St (NewLRU max) 0 (fun _ => CEntry zero 0 None) (fun _ => None) (fun _ => PNew) [].

  (* f[i] = x on a total function; bookkeeping for the state above; utils/caches/request.go:50-66 *)
  Definition fset {A} (f : nat -> A) (i : nat) (x : A) : nat -> A :=
    fun j => if j =? i then x else f j.

  (* One atomic step, chosen by the schedule.  LStart r k now: utils/caches/request.go:37, the cache's own
     lock makes it atomic (utils/caches/lru.go:62).  LLock: line 43.  LCheck r now: line 48.
     LFetched r v ttl err now: lines 57-70 up to the deferred Unlock.  LInval: line 32. *)
  Inductive label :=
  | LStart (r : nat) (k : K) (now : Z)
  | LLock (r : nat)
  | LCheck (r : nat) (now : Z)
  | LFetched (r : nat) (v : V) (ttl : Z) (err : option E) (now : Z)
  | LInval (k : K).

  (* utils/caches/request.go:31-71 step by step.  A label that is not possible in the state (a mutex that is
     taken, say) leaves it unchanged.  Time.Until(e.expire) >= 0 is now <= expire. *)
  Definition rstep (s : st) (l : label) : res st :=
    match l with
    | LStart r k now =>
        match pcs s r with
        | PNew =>
            (* utils/caches/request.go:26: the loader makes an empty entry of size 1 *)
            rbind (Get (E := Empty_set) eqb (cache s) k now (Loaded (fresh s) 1 None)) (fun '(g, c') =>
              let miss := match rhit g with MISS => true | _ => false end in
              Ok (St c' (if miss then S (fresh s) else fresh s) (ents s) (owner s)
                     (fset (pcs s) r (PGot k (rval g) miss))
                     (EStart r k (rval g) miss :: log s)))
        | _ => Ok s
        end
    | LLock r =>
        match pcs s r with
        | PGot k e miss =>
            match owner s e with
            | None => Ok (St (cache s) (fresh s) (ents s) (fset (owner s) e (Some r))
                             (fset (pcs s) r (PHold k e miss)) (log s))
            | Some _ => Ok s
            end
        | _ => Ok s
        end
    | LCheck r now =>
        match pcs s r with
        | PHold k e miss =>
            if negb miss && (now <=? cexpire (ents s e))%Z then
              Ok (St (cache s) (fresh s) (ents s) (fset (owner s) e None) (fset (pcs s) r PDone)
                     (EHit r k e (cV (ents s e)) (cerr (ents s e)) now :: log s))
            else
              Ok (St (cache s) (fresh s) (ents s) (owner s) (fset (pcs s) r (PFetch k e))
                     (EFetch r k e now :: log s))
        | _ => Ok s
        end
    | LFetched r v ttl err now =>
        match pcs s r with
        | PFetch k e =>
            let en := if (0 <? ttl)%Z then CEntry v (now + ttl) err
                      else CEntry (cV (ents s e)) 0 (cerr (ents s e)) in
            Ok (St (cache s) (fresh s) (fset (ents s) e en) (fset (owner s) e None)
                   (fset (pcs s) r PDone) (EFetched r k e v ttl err now :: log s))
        | _ => Ok s
        end
    | LInval k =>
        rbind (Invalidate eqb (cache s) k) (fun c' =>
          Ok (St c' (fresh s) (ents s) (owner s) (pcs s) (EInval k :: log s)))
    end.

  (* a schedule: any list of steps (utils/caches/request.go:31-71) *)
  Fixpoint rexec (s : st) (ls : list label) : res st :=
    match ls with
    | [] => Ok s
    | l :: rest => rbind (rstep s l) (fun s1 => rexec s1 rest)
    end.
End Req.
Arguments st : clear implicits.
Arguments label : clear implicits.
Arguments event : clear implicits.
Arguments pc : clear implicits.
Arguments centry : clear implicits.
