(* Model of the lines of the default logger (/repo/ctx/log/log.go): slog's JSON handler with the options of NewDefaultSlogLogger. *)
From Coq Require Import Bool Ascii String Arith NArith ZArith List.
From Verif Require Import Prelude Utf8Model QuoteModel DecModel DurModel EncModel JsonModel CtxModel ErrModel LogModel.
Import ListNotations.
Local Open Scope N_scope.

(* ---- log/slog (Go 1.21): texts ---- *)
(* a rune of a string: as in encoding/json, but HTML characters are kept (log/slog json_handler.go appendEscapedJSONString; reached from
   ctx/log/log.go:68,70) *)
Definition sesc_rune (r : N) : bytes :=
  if (r =? 34) || (r =? 92) then [backslash; chr r]
  else if r =? 10 then B "\n"
  else if r =? 13 then B "\r"
  else if r =? 9 then B "\t"
  else if (r <? 32) || (r =? 0x2028) || (r =? 0x2029) then B "\u" ++ hexs 4 r
  else encode_rune r.
(* as above, a byte that is no part of a rune (reached from ctx/log/log.go:68,70) *)
Definition sesc_item (i : item) : bytes := match i with IRune r => sesc_rune r | IBad _ => B "\u" ++ hexs 4 0xFFFD end.
(* a string or a key (reached from ctx/log/log.go:68,70) *)
Definition sstr (s : bytes) : bytes := dquote :: concat (map sesc_item (runes s)) ++ [dquote].
(* json.Compact: white space outside of strings is left out; for what MarshalJSON of ctx.JSON returns (ctx/error.go:80-82) *)
Fixpoint compact (quoted : bool) (s : bytes) : bytes :=
  match s with
  | [] => []
  | c :: r =>
      if quoted then
        if code c =? 92 then match r with [] => [c] | d :: r' => c :: d :: compact true r' end
        else c :: compact (negb (code c =? 34)) r
      else if is_space c then compact false r
      else c :: compact (code c =? 34) r
  end.
(* whether json.Compact takes a text: one value, blanks, nothing else (ctx/error.go:80-82) *)
Definition jvalid (s : bytes) : bool :=
  match pvalue (2 * length s + 2) 0 s with
  | Some (_, r) => match ws r with [] => true | _ => false end
  | None => false
  end.
(* Level.String: the name of the level at or below, and the distance (log/slog level.go; ctx/log/log.go:100) *)
Definition level_string (l : Z) : bytes :=
  let str (base : bytes) (d : Z) := if Z.eqb d 0 then base else base ++ (if Z.ltb 0 d then B "+" else []) ++ decz d in
  (if l <? 0 then str (B "DEBUG") (l + 4)
   else if l <? 4 then str (B "INFO") l
   else if l <? 8 then str (B "WARN") (l - 4)
   else str (B "ERROR") (l - 8))%Z.
(* strings.ToLower on ASCII (ctx/log/log.go:100) *)
Definition to_lower (s : bytes) : bytes := map (fun c => if (65 <=? code c) && (code c <=? 90) then chr (code c + 32) else c) s.

(* ---- log/slog (Go 1.21): attributes ---- *)
(* values: a level, a string, the time of the record, a ctx.JSON (ctx/log/log.go:68-70) *)
Inductive sval := SLevel (l : Z) | SStr (s : bytes) | STime | SJson (j : bytes).
(* an attribute, or a group of them (ctx/log/log.go:68-70) *)
Inductive attr := At (k : bytes) (v : sval) | Gr (k : bytes) (l : list (bytes * sval)).
(* ctx/log/log.go:96-105 ReplaceAttr: it is called for the attributes in groups as well; a value that is no level panics *)
Definition replace (k : bytes) (v : sval) : res (bytes * sval) :=
  if beqb k (B "level") then match v with SLevel l => Ok (B "level", SStr (to_lower (level_string l))) | _ => Panic end
  else if beqb k (B "msg") then Ok (B "message", v)
  else Ok (k, v).

Section Line.
  (* the time as slog writes it; the error of json.Compact for a text (both reached from ctx/log/log.go:68,70) *)
  Context (now : bytes) (err : bytes -> bytes).
  (* handleState.appendValue (reached from ctx/log/log.go:68,70) *)
  Definition value_text (v : sval) : bytes :=
    match v with
    | SLevel l => sstr (level_string l)
    | SStr s => sstr s
    | STime => dquote :: now ++ [dquote]
    | SJson j => if jvalid j then compact false j else sstr (B "!ERROR:" ++ err j)
    end.
  (* handleState.appendAttr without groups (reached from ctx/log/log.go:68,70) *)
  Definition member (e : bytes * sval) : res bytes :=
    rbind (replace (fst e) (snd e)) (fun e' => Ok (sstr (fst e') ++ B ":" ++ value_text (snd e'))).
  (* in order (reached from ctx/log/log.go:68,70) *)
  Fixpoint members (l : list (bytes * sval)) : res (list bytes) :=
    match l with
    | [] => Ok []
    | e :: r => rbind (member e) (fun p => rbind (members r) (fun ps => Ok (p :: ps)))
    end.
  (* handleState.appendAttr: empty groups are left out (reached from ctx/log/log.go:68,70) *)
  Fixpoint attrs_text (l : list attr) : res (list bytes) :=
    match l with
    | [] => Ok []
    | At k v :: r => rbind (member (k, v)) (fun p => rbind (attrs_text r) (fun ps => Ok (p :: ps)))
    | Gr k [] :: r => attrs_text r
    | Gr k m :: r => rbind (members m) (fun q => rbind (attrs_text r) (fun ps => Ok ((sstr k ++ B ":" ++ group false 123 125 0 q) :: ps)))
    end.
  (* commonHandler.handle: the built-in attributes, the others, all in one Write (reached from ctx/log/log.go:68,70) *)
  Definition handle (lvl : Z) (msg : bytes) (l : list attr) : res bytes :=
    rbind (attrs_text (At (B "time") STime :: At (B "level") (SLevel lvl) :: At (B "msg") (SStr msg) :: l))
      (fun ps => Ok (group false 123 125 0 ps ++ [chr 10])).
  (* Logger.LogAttrs: nothing below the minimum level; ctx/log/log.go:67-71.  The tags come in the order in which AsList ranges over
     the map (ctx/log/log.go:25-32). *)
  Definition log_attrs (min lvl : Z) (src msg : bytes) (tags : list (bytes * bytes)) : res (option bytes) :=
    if (lvl <? min)%Z then Ok None
    else rbind (handle lvl msg (match src with [] => [] | _ => [At (B "src") (SStr src)] end ++
                                [Gr (B "tags") (map (fun e => (fst e, SJson (snd e))) tags)])) (fun s => Ok (Some s)).

  (* ---- log calls ---- *)
  (* as in LogModel.FormatMsg (ctx/log/log.go:177-203) *)
  Context (short : bool) (user_ctx : N -> option einfo) (user_msg : N -> bytes) (status_text : Z -> bytes) (sprintf : bytes -> list arg -> bytes).
  (* the order in which Go ranges over a map (ctx/log/log.go:27) *)
  Context (order : list (bytes * bytes) -> list (bytes * bytes)).
  (* ctx/log/log.go:64-72, 108-148: a call with a context without LogFunc of its own, or with a default logger: the line *)
  Definition Log (min lvl : Z) (src : bytes) (c : context) (f : bytes) (args : list arg) : res (option bytes) :=
    let '(m, t) := slog_call short user_ctx user_msg status_text sprintf c f args in log_attrs min lvl src m (order t).

  (* ---- the minimum level ---- *)
  (* what a program does with the default loggers: SetDefaultLoggerLevel, NewDefaultSlogLogger, a log call (ctx/log/log.go:52-54,93,108-138) *)
  Inductive lop := OSet (l : Z) | ONew | OLog (lvl : Z) (src : bytes) (c : context) (f : bytes) (args : list arg).
  (* DefaultLoggerLevel, which all default loggers share, and the lines that were written (ctx/log/log.go:48,53,94) *)
  Record lst := Lst { l_min : Z; l_out : list bytes }.
  (* the package has been initialised: ctx/log/log.go:45 creates a default logger *)
  Definition linit : lst := Lst (-4) [].
  (* one operation (ctx/log/log.go:52-54,93-94,108-148) *)
  Definition lstep (s : lst) (o : lop) : res lst :=
    match o with
    | OSet l => Ok (Lst l (l_out s))
    | ONew => Ok (Lst (-4) (l_out s))
    | OLog lvl src c f args =>
        rbind (Log (l_min s) lvl src c f args) (fun r => Ok (Lst (l_min s) (l_out s ++ match r with Some x => [x] | None => [] end)))
    end.
  (* a program (ctx/log/log.go:52-148) *)
  Fixpoint lrun (s : lst) (l : list lop) : res lst :=
    match l with [] => Ok s | o :: r => rbind (lstep s o) (fun s => lrun s r) end.
End Line.
