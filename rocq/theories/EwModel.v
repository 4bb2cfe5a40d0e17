(* Model of the messages of the errors of Handler.Unmarshal of /repo/enc: which place they name. *)
From Coq Require Import Bool Ascii String Arith NArith ZArith List.
From Verif Require Import Prelude Utf8Model DecModel DurModel EncModel JsonModel MarModel.
Import ListNotations.

(* Messages: MPath "can't unmarshal ..." or "can't expand ..." with the path, the type of the node and the type of the variable (enc/scalar.go:35,100,
   enc/numeric.go:160, enc/time.go:64,94, enc/list.go:80, enc/map.go:126; of the node only its type is printed); MKey "can't convert ... at ...#key"
   (enc/map.go:64,70); MNum what strconv says of this text, signed or not (enc/numeric.go:141,151); MLen "expected ..., got ... elements instead"
   (enc/list.go:62); MFunc: the error of UnhandledFields (enc/map.go:112) *)
Inductive emsg := MPath (p : list pel) (n : node) (t : ty) | MKey (p : list pel) (k : bytes) | MNum (signed : bool) (s : bytes) | MLen (t : ty) (got : nat) | MFunc.

(* the message for the first element that fails; enc/list.go:49-56,66-72 *)
Fixpoint why_elems (f : list pel -> node -> ures * list call) (g : list pel -> node -> emsg) (p : list pel) (i : nat) (l : list node) : emsg :=
  match l with
  | [] => MFunc
  | n :: r => match f (p ++ [PIdx i]) n with (UErr _, _) => g (p ++ [PIdx i]) n | _ => why_elems f g p (S i) r end
  end.
(* and entry; enc/map.go:55-85 *)
Fixpoint why_entries (k : kty) (f : list pel -> node -> ures * list call) (g : list pel -> node -> emsg) (p : list pel) (m : list (bytes * node)) : emsg :=
  match m with
  | [] => MFunc
  | (s, n) :: r =>
      match ukey k s with
      | None => MKey p s
      | Some _ => match f (p ++ [PVal]) n with (UErr _, _) => g (p ++ [PVal]) n | _ => why_entries k f g p r end
      end
  end.
(* and field; enc/map.go:92-106.  If none fails it was UnhandledFields. *)
Fixpoint why_fields (p : list pel) (m : list (bytes * node)) (fs : list (fld * ((list pel -> node -> val -> ures * list call) * (list pel -> node -> val -> emsg))))
  (vs : list val) : emsg :=
  match fs, vs with
  | (f, (g, w)) :: fs', v :: vs' =>
      if f_exported f then
        match parseTag f with
        | Panic => MFunc
        | Ok tg =>
            match mget beqb m (g_json tg) with
            | None => why_fields p m fs' vs'
            | Some n => match g (p ++ [PName (f_name f)]) n v with (UErr _, _) => w (p ++ [PName (f_name f)]) n v | _ => why_fields p m fs' vs' end
            end
        end
      else why_fields p m fs' vs'
  | _, _ => MFunc
  end.
Section Why.
  (* as in MarModel *)
  Context (f2i f2u : floatv -> Z) (uf : option (list pel -> node -> bool)).
  Notation unm := (unm f2i f2u uf).
  (* enc/numeric.go:125-163; the text that strconv gets, enc/numeric.go:70-90 *)
  Definition why_num (t : ty) (p : list pel) (n : node) (s : bytes) : emsg :=
    match t with TInt _ => MNum true s | TUint _ => MNum false s | _ => MPath p n t end.
  (* enc/handler.go:51-160 Handler.unmarshal, and what it calls: the message if it returns an error (if unm does) *)
  Fixpoint why (t : ty) (p : list pel) (n : node) (old : val) {struct t} : emsg :=
    match t with
    | TPtr t' => why t' p n (zero t')
    | _ =>
        let whymap (m : list (bytes * node)) :=
          match t with
          | TMap k t' => why_entries k (fun p n => unm t' p n (zero t')) (fun p n => why t' p n (zero t')) p m
          | TStruct fs => match old with
                          | VStruct vs => why_fields p m (map (fun f => (fst f, (unm (snd f), why (snd f)))) fs) vs
                          | _ => MFunc
                          end
          | _ => MPath p n t
          end in
        match n with
        | NDigits s => why_num t p n (trimDecimal s)
        | NList l =>
            match t with
            | TSlice t' => why_elems (fun p n => unm t' p n (zero t')) (fun p n => why t' p n (zero t')) p 0 l
            | TArr k t' => if length l =? k then why_elems (fun p n => unm t' p n (zero t')) (fun p n => why t' p n (zero t')) p 0 l else MLen t (length l)
            | _ => MPath p n t
            end
        | NMap m => whymap m
        | NPairs ps => whymap (AsMap ps)
        | _ => MPath p n t
        end
    end.
  (* the message of the error of Handler.Unmarshal; enc/handler.go:43-49 *)
  Definition message (t : ty) (n : node) (old : val) : option emsg :=
    match Unmarshal f2i f2u uf t n old with (UErr _, _) => Some (why t [PRoot] n old) | _ => None end.
End Why.
(* enc/enc.go:38-48: one element; root: the name of the type *)
Definition el_text (root : bytes) (x : pel) : bytes :=
  match x with
  | PRoot => B "{" ++ root ++ B "}"
  | PName s | PKey s => B "." ++ s
  | PIdx i => B "[" ++ dec (N.of_nat i) ++ B "]"
  | PVal => B ".#val"
  end.
(* strings.TrimPrefix(s, "."); enc/enc.go:52 *)
Definition trim_dot (s : bytes) : bytes := match s with c :: r => if ascii_dec c "."%char then r else s | [] => [] end.
(* enc/enc.go:36-53 path.String *)
Definition path_String (root : bytes) (p : list pel) : bytes :=
  match List.concat (map (el_text root) p) with [] => B "ROOT" | s => trim_dot s end.
