(* Model of registrations on a Server of /repo/http that go on at the same time as other registrations and as requests: the mux has a lock,
   the map of the documented paths has none. *)
From Coq Require Import Bool Arith String List.
From Verif Require Import Prelude DurModel.
Import ListNotations.

(* What is observed: a call that registers these paths with this documentation (Handle http/mux.go:20-46 and HandleRequest
   http/server.go:156-190 with one path, RegisterAPI http/api.go:19-74 with all its urls), its return or panic; a GET of /openapi.json and the
   paths of the document it answered (http/server.go:77-89); a request for a path and the operation that got it. *)
Inductive event := ECall (ps : list bytes) (d : nat) | ERet (ps : list bytes) (d : nat) | EPanic | EGet | EDoc (m : list (bytes * nat)) | EReq (p : bytes) (d : option nat).
(* Where a goroutine stands: it has paths left to give to the mux (http/mux.go:21, http/server.go:194, http/api.go:69-72); it has paths left to
   document (http/mux.go:44, http/server.go:185, api/handler.go:175-179); it writes the map; it ranges over the map and has read these entries
   (http/server.go:79). *)
Inductive pc := Idle | Muxing (todo all : list bytes) (d : nat) | Doc (todo all : list bytes) (d : nat) | Writing (p : bytes) (todo all : list bytes) (d : nat) | Getting (acc : list (bytes * nat)).
(* The server: patterns of the mux, the map Paths (http/server.go:34, api/openapi), the flag that the Go runtime sets in a map while it is
   written, the goroutines, what was observed, newest first; fatal: the runtime has stopped the program *)
Record st := St { mux : list (bytes * nat); paths : list (bytes * nat); flag : bool; loc : nat -> pc; tr : list (nat * event); fatal : bool }.
(* goroutine g goes on (http/mux.go:20-46) *)
Definition goto (l : nat -> pc) (g : nat) (p : pc) : nat -> pc := fun x => if Nat.eqb x g then p else l x.
(* http.ServeMux.Handle (under http/mux.go:21, http/server.go:194) panics for the empty pattern and for those it has *)
Definition taken (p : bytes) (m : list (bytes * nat)) : bool := match p with [] => true | _ => match mget beqb m p with Some _ => true | None => false end end.

(* One step.  A registration in the mux, and a look at it for a request, is one step, as the mux has a lock.  A write to Paths has a beginning and
   an end; the runtime looks at the flag at the beginning of a write, and whenever a range goes on, and stops the program if it is set
   (http/mux.go:20-46, http/server.go:77-89,156-190, http/api.go:69-73, api/handler.go:175-179).  Only whole patterns, no prefixes and hosts; the
   rest of the document is left out. *)
Inductive step : st -> st -> Prop :=
| s_call g ps d s : fatal s = false -> loc s g = Idle -> step s (St (mux s) (paths s) (flag s) (goto (loc s) g (Muxing ps ps d)) ((g, ECall ps d) :: tr s) false)
| s_mux g p r all d s : fatal s = false -> loc s g = Muxing (p :: r) all d -> taken p (mux s) = false ->
    step s (St (mset beqb (mux s) p d) (paths s) (flag s) (goto (loc s) g (Muxing r all d)) (tr s) false)
| s_panic g p r all d s : fatal s = false -> loc s g = Muxing (p :: r) all d -> taken p (mux s) = true ->
    step s (St (mux s) (paths s) (flag s) (goto (loc s) g Idle) ((g, EPanic) :: tr s) false)
| s_doc g all d s : fatal s = false -> loc s g = Muxing [] all d -> step s (St (mux s) (paths s) (flag s) (goto (loc s) g (Doc all all d)) (tr s) false)
| s_begin g p r all d s : fatal s = false -> loc s g = Doc (p :: r) all d -> flag s = false ->
    step s (St (mux s) (paths s) true (goto (loc s) g (Writing p r all d)) (tr s) false)
| s_fatal g p r all d s : fatal s = false -> loc s g = Doc (p :: r) all d -> flag s = true -> step s (St (mux s) (paths s) (flag s) (loc s) (tr s) true)
| s_end g p r all d s : fatal s = false -> loc s g = Writing p r all d ->
    step s (St (mux s) (mset beqb (paths s) p d) false (goto (loc s) g (Doc r all d)) (tr s) false)
| s_ret g all d s : fatal s = false -> loc s g = Doc [] all d -> step s (St (mux s) (paths s) (flag s) (goto (loc s) g Idle) ((g, ERet all d) :: tr s) false)
| g_call g s : fatal s = false -> loc s g = Idle -> step s (St (mux s) (paths s) (flag s) (goto (loc s) g (Getting [])) ((g, EGet) :: tr s) false)
| g_visit g acc p d s : fatal s = false -> loc s g = Getting acc -> flag s = false -> mget beqb (paths s) p = Some d -> mget beqb acc p = None ->
    step s (St (mux s) (paths s) (flag s) (goto (loc s) g (Getting (mset beqb acc p d))) (tr s) false)
| g_fatal g acc s : fatal s = false -> loc s g = Getting acc -> flag s = true -> step s (St (mux s) (paths s) (flag s) (loc s) (tr s) true)
| g_ret g acc s : fatal s = false -> loc s g = Getting acc -> flag s = false -> (forall p d, mget beqb (paths s) p = Some d -> mget beqb acc p <> None) ->
    step s (St (mux s) (paths s) (flag s) (goto (loc s) g Idle) ((g, EDoc acc) :: tr s) false)
| r_req g p s : fatal s = false -> loc s g = Idle -> step s (St (mux s) (paths s) (flag s) (loc s) ((g, EReq p (mget beqb (mux s) p)) :: tr s) false).
(* NewServer: http/server.go:40-90 *)
Definition start : st := St [(B "/live", 0); (B "/ready", 0); (B "/openapi.json", 0)] [] false (fun _ => Idle) [] false.
(* any number of steps (http/mux.go:20-46) *)
Inductive steps : st -> Prop :=
| st_start : steps start
| st_more s s' : steps s -> step s s' -> steps s'.
