(* Vocabulary of the context theorems. *)
From Coq Require Import Bool Ascii String Arith NArith ZArith Lia List.
From Verif Require Import Prelude DurModel JsonModel CtxModel.
Import ListNotations.
Local Open Scope nat_scope.

(* a context followed by everything it was derived from, closest first *)
Fixpoint ancestry (c : context) : list context :=
  c :: match c with
       | Root => []
       | Val p _ _ | Cancel p _ _ | Tag p _ _ | Track p _ _ | Detach p => ancestry p
       end.
(* the tags added along the way, oldest first *)
Definition tags (c : context) : list (bytes * bytes) :=
  flat_map (fun a => match a with Tag _ k j => [(k, j)] | _ => [] end) (rev (ancestry c)).
(* call fn on each element until it fails *)
Fixpoint each {St E} (fn : St -> bytes -> bytes -> St * option E) (l : list (bytes * bytes)) (s : St) : St * option E :=
  match l with
  | [] => (s, None)
  | (k, j) :: t => match fn s k j with
                   | (s', Some e) => (s', Some e)
                   | (s', None) => each fn t s'
                   end
  end.
(* the cancellable contexts c was derived from, up to the closest Detach *)
Fixpoint scope (c : context) : list nat :=
  match c with
  | Root | Detach _ => []
  | Cancel p i _ => i :: scope p
  | Val p _ _ | Tag p _ _ | Track p _ _ => scope p
  end.
(* the first of the cancellations that concerns one of the contexts in l *)
Definition first_of (l : list nat) (evs : list (nat * (kind * cause))) : option (kind * cause) :=
  option_map snd (find (fun e => existsb (Nat.eqb (fst e)) l) evs).
(* the tracking id of the closest WithTracking or Span *)
Definition closest_track (c : context) : option bytes :=
  match find (fun a => match a with Track _ _ _ => true | _ => false end) (ancestry c) with
  | Some (Track _ t _) => Some t
  | _ => None
  end.
(* c was derived from a context returned by WithLogFunc, WithSlogLogger or WithHelper *)
Definition has_logger (c : context) : Prop := exists p v, In (Val p KConfig v) (ancestry c).
(* the closest tag named t *)
Definition closest_tag (c : context) (t : bytes) : option bytes :=
  match find (fun a => match a with Tag _ k _ => beqb k t | _ => false end) (ancestry c) with
  | Some (Tag _ _ j) => Some j
  | _ => None
  end.
(* c with every Detach taken out *)
Fixpoint undetached (c : context) : context :=
  match c with
  | Root => Root
  | Val p k v => Val (undetached p) k v
  | Cancel p i d => Cancel (undetached p) i d
  | Tag p k j => Tag (undetached p) k j
  | Track p t l => Track (undetached p) t l
  | Detach p => undetached p
  end.
(* the contexts made by a history, in order *)
Definition contexts (ops : list op) : list context := map fst (env (run ops)).
(* the context the history ends with *)
Definition newest (ops : list op) : option context := ctx_at (run ops) (length (contexts ops) - 1).
(* the effect of a log call on a context: the LogFunc and the helper that would be called *)
Definition logs_with (ops : list op) (c : context) : option N * option N :=
  (log_func (confs (run ops)) c, log_helper (confs (run ops)) c).

(* ---- a reference for whole histories: what each operation is meant to give ----
   Nothing is shared here: a view is all that can be read from a context, made from the view of its parent. *)
Record view := View {
  v_user : N -> option value;          (* values under user keys *)
  v_str : bytes -> option value;       (* values and tags under string keys *)
  v_tags : list (bytes * bytes);       (* oldest first *)
  v_track : option bytes;              (* tracking id *)
  v_deadline : option Z;
  v_above : list nat;                  (* the cancellable contexts whose end is its end *)
  v_own : option nat;                  (* the one its CancelFunc ends *)
  v_timer : option nat                 (* the one its timer ends *)
}.
Record ref := Ref { views : list view; count : nat; ends : list (nat * (kind * cause)) }.
Definition blank : view := View (fun _ => None) (fun _ => None) [] None None [] None None.
Definition derive (v : view) : view := View (v_user v) (v_str v) (v_tags v) (v_track v) (v_deadline v) (v_above v) None None.
Definition stoppable (v : view) (i : nat) : view := View (v_user v) (v_str v) (v_tags v) (v_track v) (v_deadline v) (i :: v_above v) (Some i) None.
Definition tagged (v : view) (k j : bytes) : view :=
  View (v_user v) (fun k' => if beqb k' k then Some (VJson j) else v_str v k') (v_tags v ++ [(k, j)]) (v_track v) (v_deadline v) (v_above v) (v_own v) (v_timer v).
Definition tracked (v : view) (id : bytes) : view :=
  let v := tagged v (B "tracking-id") (jstr false id) in
  View (v_user v) (v_str v) (v_tags v) (Some id) (v_deadline v) (v_above v) (v_own v) None.
Definition earliest (a : option Z) (t : Z) : Z := match a with Some d => Z.min d t | None => t end.
Definition add (r : ref) (v : view) : ref := Ref (views r ++ [v]) (count r) (ends r).
Definition add1 (r : ref) (v : view) : ref := Ref (views r ++ [v]) (S (count r)) (ends r).
Definition ended (r : ref) (i : nat) (e : kind * cause) : ref := Ref (views r) (count r) (ends r ++ [(i, e)]).
Definition timeout : kind * cause := (DeadlineExceeded, Same DeadlineExceeded).
Definition meant (r : ref) (o : op) : ref :=
  let from n f := match nth_error (views r) n with Some v => f v | None => r end in
  match o with
  | OTODO => add r blank
  | OBackground => add1 r (stoppable blank (count r))
  | OValue n (inl u) x => from n (fun v => let v := derive v in
      add r (View (fun u' => if N.eqb u u' then option_map VUser x else v_user v u') (v_str v) (v_tags v) (v_track v) (v_deadline v) (v_above v) None None))
  | OValue n (inr s) x => from n (fun v => let v := derive v in
      add r (View (v_user v) (fun s' => if beqb s s' then option_map VUser x else v_str v s') (v_tags v) (v_track v) (v_deadline v) (v_above v) None None))
  | OCancel n => from n (fun v => add1 r (stoppable v (count r)))
  | ODeadline n t late => from n (fun v =>
      (* it has a timer of its own unless an earlier deadline is there already *)
      let mine := match v_deadline v with Some d => negb (d <? t)%Z | None => true end in
      let r' := add1 r (View (v_user v) (v_str v) (v_tags v) (v_track v) (Some (earliest (v_deadline v) t)) (count r :: v_above v)
                          (Some (count r)) (if mine then Some (count r) else None)) in
      if mine && late then ended r' (count r) timeout else r')
  | OTag n k j => from n (fun v => add r (tagged (derive v) k j))
  | ODetach n => from n (fun v => add r (View (v_user v) (v_str v) (v_tags v) (v_track v) None [] None None))
  | OTracking n sug fresh => from n (fun v => add r (tracked (derive v) (match sug with [] => fresh | _ => sug end)))
  | OSpan n fresh => from n (fun v => add1 r (tracked (stoppable v (count r)) (match v_track v with Some t => t ++ B ".1" | None => fresh end)))
  | OLogFunc n _ | OHelper n _ => from n (fun v => add r (derive v))
  | OFire n ca => from n (fun v => match v_own v with
      | Some i => ended r i (Canceled, match ca with Some u => User u | None => Same Canceled end)
      | None => r end)
  | OTimer n => from n (fun v => match v_timer v with Some i => ended r i timeout | None => r end)
  end.
Definition meaning (ops : list op) : ref := fold_left meant ops (Ref [] 0 []).
(* what can be read from context c agrees with the view *)
Definition shows (s : state) (r : ref) (c : context) (v : view) : Prop :=
  (forall u, Value c (KUser u) = v_user v u) /\
  (forall t, Value c (KStr t) = v_str v t) /\
  (forall St E (fn : St -> bytes -> bytes -> St * option E) x, RangeTag fn c x = each fn (v_tags v) x) /\
  GetTracking c = match v_track v with Some t => t | None => [] end /\
  Deadline c = v_deadline v /\
  Err (cells s) c = option_map fst (first_of (v_above v) (ends r)) /\
  (Done c <> None -> Cause (cells s) c = option_map snd (first_of (v_above v) (ends r))) /\
  (Done c = None <-> v_above v = []).
