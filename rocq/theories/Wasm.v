(** wasm/aqlparse/main.go and warnings.go: the functions behind the web page.

    Not modelled: the conversion between Go and JavaScript values (syscall/js). *)
From Verif Require Import Bytes GoFloat GoTime Oracles Ast PegSyntax Engine Visitors ParseQuery StrMatch QueryMessages Marshal.

(** ** warnings.go.  doesSomethingSpecial (63-79), isDotStar (81-88) and isASCII (90-97) are
    the functions of jsonmatcher/query_messages.go; the message texts are represented by the same
    constructors, although their wording differs slightly. *)
Section WithOracles.
Context (O : oracles).

(** 19-57: the messages for one value; the similarity warning (21-23) is placed at the comparison,
    strings get no message, and day-only times (53-57) are warned about as well.  [false] is the
    error return of line 34. *)
Definition web_value_messages (o : op) (field : list bytes) (at_node : pos) (v : aval) : list (message hint) * bool :=
  let p := val_pos v in
  let sv := val_string O v in
  match v with
  | ARegex pat _ _ =>
    let re := trim_slash sv in
    let m1 := when (op_eqb o SIM) (msg MWarning at_node HSimRegex) in
    let m2 := when (has_prefix (b "(?i)") re && negb (is_ascii sv)) (msg MWarning p (HFoldUnicode sv)) in
    let re' := trim_prefix (b "(?i)") re in
    let m3 := when (has_prefix (b ".*") re' || has_suffix (b ".*") re') (msg MHint p (HDotStar sv)) in
    match o_re_parse O pat with
    | None => (m1 ++ m2 ++ m3, false)
    | Some r =>
      let (m4, r') := strip_group p r in
      (m1 ++ m2 ++ m3 ++ m4 ++ tree_messages p field r', true)
    end
  | ATime _ _ _ _ => (when (op_eqb o EQ) (msg MWarning p HExactTime), true)
  | _ => ([], true)
  end.

(** 18: the loop over the values *)
Fixpoint web_values_messages (o : op) (field : list bytes) (at_node : pos) (vs : list aval) : list (message hint) * bool :=
  match vs with
  | [] => ([], true)
  | v :: vs' =>
    let (ms, ok) := web_value_messages o field at_node v in
    if ok then let (ms', ok') := web_values_messages o field at_node vs' in (ms ++ ms', ok') else (ms, false)
  end.

(** 13-61 warningVisitor *)
Definition web_visitor : visitor unit unit hint :=
  VMsg (fun n w =>
    match n with
    | NExpr o f vs p =>
      let (ms, ok) := web_values_messages o f p vs in
      (ms, if ok then VNone else VOtherErr tt, w)
    | _ => ([], VNone, w)
    end).

(** ** encoding/json on the syntax tree: exported fields only, so that a value of any kind is
    an empty object; a nil slice is null. *)
(** ast.go:136-145 *)
Definition tree_of_pos (p : pos) : jtree :=
  TObj [("line", TInt (p_line p)); ("column", TInt (p_col p)); ("offset", TInt (p_off p)); ("length", TInt (p_len p))]%string.
(** ast.go:197-475: every value type has only unexported fields and no MarshalJSON or MarshalText. *)
Definition tree_of_val (v : aval) : jtree := TObj [].
(** ast.go:34-80; RVals is nil for exists and null (parser_gen.go:1952-1958). *)
Fixpoint tree_of_node (n : node) : jtree :=
  match n with
  | NAnd l r => TObj [("Left", tree_of_node l); ("Right", tree_of_node r)]%string
  | NOr l r => TObj [("Left", tree_of_node l); ("Right", tree_of_node r)]%string
  | NNot e => TObj [("Expr", tree_of_node e)]%string
  | NExpr o f vs p =>
    TObj [("Op", TStr (op_text o)); ("Field", TList (map TStr f));
          ("RVals", match vs with [] => TNull | _ => TList (map tree_of_val vs) end);
          ("Position", tree_of_pos p)]%string
  end.

(** ** main.go *)
Inductive web_text :=
| WIncomplete                     (** incomplete query *)
| WError (e : qerr unit hint)     (** the message of the error *)
| WHint (h : hint).
Record web_msg := { w_kind : msg_type; w_text : web_text; w_start : Z; w_end : Z }.

(** 27-46 errConvert: the messages that start with "no match found" are those of [KNoMatch];
    every error is a *ParseError. *)
Definition err_convert (e : qerr unit hint) (input : bytes) : web_msg :=
  match e with
  | QSyntax {| pe_kind := KNoMatch _; pe_pos := _ |} =>
    let o := (Z.of_nat (length input) - 1)%Z in
    {| w_kind := MError; w_text := WIncomplete; w_start := o; w_end := o + 1 |}
  | _ =>
    {| w_kind := MError; w_text := WError e; w_start := p_off (qerr_pos e); w_end := p_off (qerr_pos e) + p_len (qerr_pos e) |}
  end.
(** 48-64 msgConvert *)
Definition msg_convert (m : message hint) : web_msg :=
  {| w_kind := m_type m; w_text := WHint (m_text m); w_start := p_off (m_pos m); w_end := p_off (m_pos m) + p_len (m_pos m) |}.

(** The answer to the page: the text of the tree (empty for none) and the messages;
    [WebDeep]: no tree, and one message that consists of a text only (marshal error: exceeded max
    depth). *)
Inductive web_res :=
| WebRes (ast : bytes) (ms : list web_msg)
| WebDeep
| WebPanic
| WebFuel.

(** 14-25 parseAQL and 66-86 pWrap *)
Definition p_wrap (input : bytes) : web_res :=
  let '(r, _, ts) := parse_query O [(web_visitor, empty_tape)] input tt in
  match r with
  | QOk root =>
    match marshal_indent (tree_of_node root) with
    | Some text => WebRes text (map msg_convert (concat (map messages ts)))
    | None => WebDeep
    end
  | QErr e => WebRes [] [err_convert e input]
  | QPanic => WebPanic
  | QFuel => WebFuel
  end.
End WithOracles.
