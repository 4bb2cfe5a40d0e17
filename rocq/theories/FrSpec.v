(* What C100 and C101 are stated with: the frames of RFC 6455, and what the events say. *)
From Coq Require Import Bool Ascii String Arith NArith List.
From Verif Require Import Prelude Utf8Model FrModel.
Import ListNotations.

(* a number in network byte order *)
Definition be (l : bytes) : N := fold_left (fun a b => (a * 256 + code b)%N) l 0%N.
(* RFC 6455, 5.2: the payload length, in the 7 bits and the extended field, with the least number of bytes *)
Inductive len_field : N -> N -> bytes -> Prop :=
| len_7 n : (n <= 125)%N -> len_field n n []
| len_16 n e : (126 <= n < 65536)%N -> length e = 2 -> be e = n -> len_field n 126 e
| len_64 n e : (65536 <= n < 2 ^ 63)%N -> length e = 8 -> be e = n -> len_field n 127 e.
(* RFC 6455, 5.3 *)
Definition masks (key p q : bytes) : Prop :=
  length key = 4 /\ length q = length p /\ forall i a b k, nth_error p i = Some a -> nth_error q i = Some b -> nth_error key (i mod 4) = Some k -> code b = N.lxor (code a) (code k).
(* a frame: final or not, opcode, payload *)
Record rframe := RFrame { r_fin : bool; r_op : N; r_payload : bytes }.
(* RFC 6455, 5.2: the bytes of a frame, without a mask (from the server), with one (from the client) *)
Inductive is_frame : bool -> rframe -> bytes -> Prop :=
| frame_plain fin op p f e : (op < 16)%N -> len_field (N.of_nat (length p)) f e ->
    is_frame false (RFrame fin op p) (chr ((if fin then 128 else 0) + op) :: chr f :: e ++ p)
| frame_masked fin op p f e key q : (op < 16)%N -> len_field (N.of_nat (length p)) f e -> masks key p q ->
    is_frame true (RFrame fin op p) (chr ((if fin then 128 else 0) + op) :: chr (128 + f) :: e ++ key ++ q).
(* frames one after the other *)
Inductive stream (mask : bool) : list rframe -> bytes -> Prop :=
| stream_nil : stream mask [] []
| stream_cons f fs a b : is_frame mask f a -> stream mask fs b -> stream mask (f :: fs) (a ++ b).
(* a reader of bs gets these frames, and waits for the rest of another one *)
Definition reads (mask : bool) (bs : bytes) (fs : list rframe) : Prop :=
  exists a rest, bs = a ++ rest /\ stream mask fs a /\ forall f x y, rest = x ++ y -> ~ is_frame mask f x.

(* a message as a text frame, and a close frame (RFC 6455, 5.5.1) *)
Definition text (m : bytes) : rframe := RFrame true 1 m.
Definition closing (status : N) (f : rframe) : Prop := r_fin f = true /\ r_op f = 8%N /\ length (r_payload f) = 2 /\ be (r_payload f) = (status mod 65536)%N.

(* what Writes that returned nil had for messages; the events are newest first, the messages oldest first *)
Fixpoint accepted (l : list fevent) : list bytes :=
  match l with [] => [] | ERet _ m true :: r => accepted r ++ [m] | _ :: r => accepted r end.
(* the messages that Writes by g were called with, and those for which they returned *)
Fixpoint called_by (g : nat) (l : list fevent) : list bytes :=
  match l with [] => [] | ECall h m :: r => called_by g r ++ (if h =? g then [m] else []) | _ :: r => called_by g r end.
Fixpoint answered_by (g : nat) (l : list fevent) : list bytes :=
  match l with [] => [] | ERet h m _ :: r => answered_by g r ++ (if h =? g then [m] else []) | _ :: r => answered_by g r end.
(* what g is writing *)
Definition writing (s : fst_) (g : nat) (m : bytes) : Prop := pcs s g = WWait m \/ pcs s g = WLocked m \/ pcs s g = WHeaded m \/ pcs s g = WBodied m.
(* all of this is shorter than 2^63, as everything in Go is *)
Definition sized (ls : list flabel) : Prop := forall g m, In (FWrite g m) ls -> (N.of_nat (length m) < 2 ^ 63)%N.
(* a frame matches an event: a message of a Write that returned nil, or the close frame of a Close *)
Inductive sent_by : fevent -> rframe -> Prop :=
| sent_text g m : sent_by (ERet g m true) (text m)
| sent_close g st f : closing st f -> sent_by (ECloseSent g st) f.
(* the frames that the events (oldest first) tell of *)
Inductive tells : list fevent -> list rframe -> Prop :=
| tells_nil : tells [] []
| tells_skip e l fs : (forall f, ~ sent_by e f) -> tells l fs -> tells (e :: l) fs
| tells_sent e f l fs : sent_by e f -> tells l fs -> tells (e :: l) (f :: fs).
(* Close does not use the connection while Write does *)
Definition apart (size : nat) (ls : list flabel) : Prop := forall n, let s := fexec size finit (firstn n ls) in hold_m s = None \/ hold_wio s = None.
(* g has written a part of this frame to the buffer, or all of it *)
Definition sending (s : fst_) (g : nat) (f : rframe) : Prop :=
  (exists m, (pcs s g = WHeaded m \/ pcs s g = WBodied m) /\ f = text m) \/ (exists st, (pcs s g = CHeaded st \/ pcs s g = CBodied st) /\ closing st f).
(* RFC 6455, 5.4: a message is a text or binary frame that is final, or one that is not, continued up to a final one *)
Inductive message : list rframe -> bytes -> Prop :=
| message_one op p : op = 1%N \/ op = 2%N -> message [RFrame true op p] p
| message_frags op p ps q : op = 1%N \/ op = 2%N -> message (RFrame false op p :: map (RFrame false 0) ps ++ [RFrame true 0 q]) (p ++ concat ps ++ q).
