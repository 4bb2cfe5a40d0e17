(* Model of /repo/example: the store, its two operations, and their values on the wire (enc/handler.go, enc/enc.go, enc/json.go). *)
From Coq Require Import Bool Ascii String Arith NArith ZArith List.
From Verif Require Import Prelude DurModel EncModel JsonModel FlModel.
Import ListNotations.

Section Store.
  (* texts that are no decimal numbers, and the value of a Float, as in FlModel; the texts of a float64 (strconv, fmt, encoding/json) *)
  Context (other : bytes -> option fl) (value : floatv -> fl) (print : fl -> floatv).

  (* enc/handler.go:174-262 Marshal, on the values that Unmarshal puts in an interface *)
  Fixpoint amarshal (a : gany) : node :=
    match a with
    | ANil => NNil
    | ABool b => NBool b
    | AInt z => NInt z
    | AFloat f => NFloat (print f)
    | AText s => NStr s
    | ATime t => NTime t
    | ADur u => NDur u
    | AList l => NList (map amarshal l)
    | AMap l => NMap (map (fun e => (fst e, amarshal (snd e))) l)
    end.

  (* example/example.go:10-13; a missing entry reads as nil *)
  Definition store := list (bytes * gany).
  Definition look (s : store) (k : bytes) : gany := match mget beqb s k with Some a => a | None => ANil end.
  (* what arrives: example/example.go:24-27,40-42 *)
  Inductive call := Get (k : bytes) | Set_ (k : bytes) (v : gany).
  Definition call_key (c : call) : bytes := match c with Get k | Set_ k _ => k end.
  (* example/example.go:30-33 and 45-49: the Value or Prev, and the store afterwards *)
  Definition do (s : store) (c : call) : gany * store :=
    match c with
    | Get k => (look s k, s)
    | Set_ k v => (look s k, mset beqb s k v)
    end.

  (* The body of a request: an object; the members key and value are read into a string and an interface (api.Server.Recv; its other rules
     are in ApiModel).  A key that is no string, which is an error or is converted, is left out. *)
  Definition members (body : bytes) : option (list (bytes * node)) := match Decode body with Good (Some (NMap m)) => Some m | _ => None end.
  Definition key_of (m : list (bytes * node)) : option bytes :=
    match mget beqb m (B "key") with Some (NStr k) => Some k | None => Some [] | _ => None end.
  Definition value_of (m : list (bytes * node)) : gany := match mget beqb m (B "value") with Some n => into_any other value n | None => ANil end.
  (* example/example.go:35-43 *)
  Definition read_set (body : bytes) : option call :=
    match members body with Some m => match key_of m with Some k => Some (Set_ k (value_of m)) | None => None end | None => None end.
  (* example/example.go:15-28 *)
  Definition read_get (body : bytes) : option call :=
    match members body with Some m => match key_of m with Some k => Some (Get k) | None => None end | None => None end.
  (* The reply: key and value, or key and prev (api.Server.Send); example/example.go:26-27,40,42, http/server.go:240-254 *)
  Definition reply (short indent : bool) (c : call) (a : gany) : res bytes :=
    Encode short indent (NMap [(B "key", NStr (call_key c)); (match c with Get _ => B "value" | Set_ _ _ => B "prev" end, amarshal a)]).

  (* one request after the other: what is returned, and the store at the end *)
  Fixpoint runs (s : store) (cs : list call) : list gany * store :=
    match cs with
    | [] => ([], s)
    | c :: cs => let (a, s1) := do s c in let (l, s2) := runs s1 cs in (a :: l, s2)
    end.

  (* ---- requests at the same time: each runs in a goroutine of its own, and takes no lock (example/example.go:11 is not used) ---- *)
  (* where a request is: not begun, reading the map (lines 31,46), between (Set only), writing it (line 47), finished *)
  Inductive place := Todo (c : call) | Reading (c : call) | Between (k : bytes) (v prev : gany) | Writing (k : bytes) (v prev : gany) | Ended (c : call) (a : gany).
  (* the map, the requests, and what has ended, in that order *)
  Record world := World { w_map : store; w_req : nat -> place; w_log : list (call * gany) }.
  Definition put (w : world) (i : nat) (p : place) : world := World (w_map w) (fun j => if Nat.eqb j i then p else w_req w j) (w_log w).
  Definition end_ (w : world) (i : nat) (c : call) (a : gany) : world :=
    World (w_map w) (fun j => if Nat.eqb j i then Ended c a else w_req w j) (w_log w ++ [(c, a)]).
  (* example/example.go:30-33,45-49.  What a map access does while another one is writing is undefined in Go; here it is not affected. *)
  Inductive step : nat -> world -> world -> Prop :=
  | s_begin i w c : w_req w i = Todo c -> step i w (put w i (Reading c))
  | s_got i w k : w_req w i = Reading (Get k) -> step i w (end_ w i (Get k) (look (w_map w) k))
  | s_prev i w k v : w_req w i = Reading (Set_ k v) -> step i w (put w i (Between k v (look (w_map w) k)))
  | s_write i w k v p : w_req w i = Between k v p -> step i w (put w i (Writing k v p))
  | s_set i w k v p : w_req w i = Writing k v p ->
      step i w (end_ (World (mset beqb (w_map w) k v) (w_req w) (w_log w)) i (Set_ k v) p).
End Store.
