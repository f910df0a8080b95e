(** jsonmatcher/query_messages.go and NewMatcher (jsonmatcher/jsonmatcher.go:20-34). *)
From Verif Require Import Bytes GoFloat GoTime Oracles Ast Visitors ParseQuery Json Values StrMatch Matcher.

(** The message texts, with the parts that are filled in. *)
Inductive hint :=
| HSimString                      (** 22 *)
| HSimRegex                       (** 26 *)
| HFoldUnicode (re : bytes)       (** 30 *)
| HDotStar (re : bytes)           (** 34 *)
| HOuterGroup (sub : re_tree)     (** 41 *)
| HAlternation (field : bytes)    (** 45 *)
| HLeadingDotStar                 (** 49 *)
| HTrailingDotStar                (** 53 *)
| HExactTime.                     (** 59 *)

(** 67-82 doesSomethingSpecial *)
Fixpoint does_something_special (r : re_tree) : bool :=
  match r with
  | RT o sub =>
    match sub with
    | [_] => match o with OpLiteral | OpStar | OpQuest => false | _ => true end
    | _ => existsb does_something_special sub
    end
  end.

(** 84-91 isDotStar *)
Definition is_dot_star (r : re_tree) : bool :=
  match r with
  | RT OpStar [RT OpAnyChar _] | RT OpStar [RT OpAnyCharNotNL _] => true
  | _ => false
  end.

(** strings.TrimPrefix *)
Definition trim_prefix (p s : bytes) : bytes := if has_prefix p s then skipn (length p) s else s.
(** strings.HasSuffix *)
Definition has_suffix (p s : bytes) : bool := has_prefix (rev p) (rev s).

Section WithOracles.
Context (O : oracles).

Definition msg (k : msg_type) (p : pos) (h : hint) : message hint := {| m_type := k; m_pos := p; m_text := h |}.
Definition when (c : bool) (m : message hint) : list (message hint) := if c then [m] else [].

(** 40-43: an outer capturing group is reported and removed *)
Definition strip_group (p : pos) (r : re_tree) : list (message hint) * re_tree :=
  match r with
  | RT OpCapture [s] => ([msg MHint p (HOuterGroup s)], s)
  | _ => ([], r)
  end.

(** 44-56 *)
Definition tree_messages (p : pos) (field : list bytes) (r : re_tree) : list (message hint) :=
  match r with
  | RT o sub =>
    when (match o with OpAlternate => negb (does_something_special r) | _ => false end)
         (msg MHint p (HAlternation (join (b ".") field))) ++
    (if Nat.leb 2 (length sub) then
       when (match sub with s :: _ => is_dot_star s | [] => false end) (msg MHint p HLeadingDotStar) ++
       (if Nat.leb 3 (length sub) then
          when (match rev sub with s :: _ => is_dot_star s | [] => false end) (msg MHint p HTrailingDotStar)
        else [])
     else [])
  end.

(** 18-61: the messages for one value; [None] is the error return of line 38, after the
    messages given *)
Definition value_messages (o : op) (field : list bytes) (v : aval) : list (message hint) * bool :=
  let p := val_pos v in
  let sv := val_string O v in
  match v with
  | AStr _ _ => (when (op_eqb o SIM) (msg MWarning p HSimString), true)
  | ARegex pat _ _ =>
    let re := trim_slash sv in
    let m1 := when (op_eqb o SIM) (msg MWarning p HSimRegex) in
    let m2 := when (has_prefix (b "(?i)") re && negb (is_ascii sv)) (msg MWarning p (HFoldUnicode sv)) in
    let re' := trim_prefix (b "(?i)") re in
    let m3 := when (has_prefix (b ".*") re' || has_suffix (b ".*") re') (msg MHint p (HDotStar sv)) in
    match o_re_parse O pat with
    | None => (m1 ++ m2 ++ m3, false)
    | Some r =>
      let (m4, r') := strip_group p r in
      (m1 ++ m2 ++ m3 ++ m4 ++ tree_messages p field r', true)
    end
  | ATime _ day _ _ => (when (op_eqb o EQ && negb day) (msg MWarning p HExactTime), true)
  | _ => ([], true)
  end.

(** 17: the loop over the values; stops at an error *)
Fixpoint values_messages (o : op) (field : list bytes) (vs : list aval) : list (message hint) * bool :=
  match vs with
  | [] => ([], true)
  | v :: vs' =>
    let (ms, ok) := value_messages o field v in
    if ok then let (ms', ok') := values_messages o field vs' in (ms ++ ms', ok') else (ms, false)
  end.

(** 12-65 messageVisitor *)
Definition message_visitor : visitor unit unit hint :=
  VMsg (fun n w =>
    match n with
    | NExpr o f vs _ =>
      let (ms, ok) := values_messages o f vs in
      (ms, if ok then VNone else VOtherErr tt, w)
    | _ => ([], VNone, w)
    end).

(** A Matcher (jsonmatcher.go:11-15). *)
Record matcher := { mt_root : mnode; mt_query : bytes; mt_messages : list (message hint) }.

Inductive new_res :=
| NewOk (m : matcher)
| NewErr (e : qerr unit hint)
| NewPanic
| NewFuel.

(** jsonmatcher.go:20-34 NewMatcher *)
Definition new_matcher (q : bytes) : new_res :=
  let '(r, _, ts) := parse_query O [(message_visitor, empty_tape)] q tt in
  match r with
  | QFuel => NewFuel
  | QPanic => NewPanic
  | QErr e => NewErr e
  | QOk root =>
    match build O root with
    | Panic => NewPanic
    | Ok m => NewOk {| mt_root := m; mt_query := q;
                       mt_messages := match ts with t :: _ => messages t | [] => [] end |}
    end
  end.
End WithOracles.
