(* Model of where Client.API of /repo/http/client.go sends its request, with net/url of Go 1.20 (URL.ResolveReference), over the
   paths of the server of RtModel. *)
From Coq Require Import Bool Ascii String Arith NArith List.
From Verif Require Import Prelude Utf8Model DurModel RtModel.
Import ListNotations.

(* net/url.URL, as url.Parse makes it (api/tag.go:40): u_user: with user info; u_esc: EscapedPath().  The fragment is left out, as it is not
   sent.  Parse of String() of such an url (http/client.go:94) is taken to give it back. *)
Record url := Url { u_scheme : bytes; u_opaque : bytes; u_user : bool; u_host : bytes; u_esc : bytes; u_query : bytes }.
(* net/url ishex, unhex; under api/tag.go:40 *)
Definition unhex (c : ascii) : option N :=
  let n := code c in
  if ((48 <=? n) && (n <=? 57))%N then Some (n - 48)%N
  else if ((97 <=? n) && (n <=? 102))%N then Some (n - 87)%N
  else if ((65 <=? n) && (n <=? 70))%N then Some (n - 55)%N
  else None.
(* net/url unescape of a path; None is an error; under api/tag.go:40 and net/http's reading of a request *)
Fixpoint unescape (s : bytes) : option bytes :=
  match s with
  | [] => Some []
  | c :: r =>
      if N.eqb (code c) 37 then
        match r with
        | a :: b :: r' =>
            match unhex a, unhex b, unescape r' with Some x, Some y, Some p => Some (chr (16 * x + y) :: p) | _, _, _ => None end
        | _ => None
        end
      else match unescape r with Some p => Some (c :: p) | None => None end
  end.
(* URL.Path; api/handler.go:94,116, http/api.go:70-71 *)
Definition Path (u : url) : bytes := match unescape (u_esc u) with Some p => p | None => [] end.

(* s[:strings.LastIndex(s, "/")], None: there is no slash; net/url resolvePath, under http/client.go:94 *)
Fixpoint before_last (s : bytes) : option bytes :=
  match s with
  | [] => None
  | c :: r => match before_last r with Some p => Some (c :: p) | None => if is_slash c then Some [] else None end
  end.
(* one round of the loop of net/url resolvePath: dst without its first slash, and first; under http/client.go:94 *)
Definition round (st : bytes * bool) (elem : bytes) : bytes * bool :=
  let (str, first) := st in
  if beqb elem (B ".") then (str, false)
  else if beqb elem (B "..") then match before_last str with None => ([], true) | Some p => (p, first) end
  else (str ++ (if first then [] else B "/") ++ elem, false).
(* net/url resolvePath; under http/client.go:94 *)
Definition resolvePath (base ref : bytes) : bytes :=
  let full := match ref with
              | [] => base
              | c :: _ => if is_slash c then ref else match before_last base with Some d => d ++ B "/" | None => [] end ++ ref
              end in
  match full with
  | [] => []
  | _ =>
      let elems := segs full in
      let elem := last elems [] in
      let r := "/"%char :: fst (fold_left round elems ([], true)) ++ (if beqb elem (B ".") || beqb elem (B "..") then B "/" else []) in
      match r with _ :: c :: _ => if is_slash c then tl r else r | _ => r end
  end.
(* URL.ResolveReference; http/client.go:94 *)
Definition resolve (u ref : url) : url :=
  let scheme := match u_scheme ref with [] => u_scheme u | s => s end in
  if negb (beqb (u_scheme ref) []) || negb (beqb (u_host ref) []) || u_user ref then
    Url scheme (u_opaque ref) (u_user ref) (u_host ref) (resolvePath (u_esc ref) []) (u_query ref)
  else match u_opaque ref with
       | _ :: _ => Url scheme (u_opaque ref) false [] [] (u_query ref)
       | [] => Url scheme [] (u_user u) (u_host u) (resolvePath (u_esc u) (u_esc ref))
                 (match u_esc ref, u_query ref with [], [] => u_query u | _, q => q end)
       end.

(* What Client.API does with the urls of the object (http/client.go:92-103): the host and the path (as the server decodes it: of
   RequestURI, with "/" for none) of its request; or an error, because net/http sends none (another scheme, no host); or a panic. *)
Inductive target := Sent (host path : bytes) | Refused | Panics.
(* net/http send, under http/client.go:106 *)
Definition send (u : url) : target :=
  if negb (beqb (u_scheme u) (B "http") || beqb (u_scheme u) (B "https")) then Refused
  else match u_host u with
       | [] => Refused
       | h => Sent h (match unescape (u_esc u) with Some (c :: p) => c :: p | _ => B "/" end)
       end.
(* http/client.go:92-106, api/handler.go:103-108 URL *)
Definition request (base : option url) (urls : list url) : target :=
  match urls with
  | [] => Panics
  | u :: _ => send (match base with Some b => resolve b u | None => u end)
  end.
