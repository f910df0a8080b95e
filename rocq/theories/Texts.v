(** The texts of errors and messages. *)
From Verif Require Import Bytes Utf8 GoStrconv Oracles Ast PegSyntax Engine Expected Validators Visitors ParseQuery QueryMessages Marshal Wasm Reasons.

(** Texts that come from elsewhere. *)
Record texts := {
  t_re_error : bytes -> bytes;     (** the error of regexp.Compile for a pattern *)
  t_re_show : re_tree -> bytes;    (** syntax.Regexp.String *)
  t_panic : bytes;                 (** a recovered run-time panic *)
  t_type : bytes;                  (** the name of a Go type *)
  t_other : bytes                  (** an error of a visitor that is no ParseError *)
}.

Section WithOracles.
Context (O : oracles) (T : texts).

Definition or_empty (x : option bytes) : bytes := match x with Some r => r | None => [] end.

(** The Msg of the ParseError made from an error of the generated parser (parser_gen.go:53-77):
    parser_gen.go 1991, 2045, 2082-2084, 2097, 2232, 2242, 2261, 3042; ast.go 204, 239, 305, 344,
    390, 443. *)
Definition error_text (k : err_kind) : bytes :=
  match k with
  | KInvalidEncoding => b "invalid encoding"
  | KNoMatch l => b (no_match_text l)
  | KPanic => t_panic T
  | KEmptyField => b "empty field"
  | KParenSingle => b "unnecessary parenthesis for only one value"
  | KCloseParen => b "unexpected closing parenthesis, expecting values"
  | KUnknownValue t => b "unknown type of value [" ++ t ++ b "] -- did you mean " ++ quote (o_is_print O) t ++ b "?"
  | KBadString _ => b "invalid string: invalid syntax"
  | KBadRegex _ sv => b "invalid regular expression [" ++ sv ++ b "]: " ++ t_re_error T (trim_slash sv)
  | KBadBool sv => b "invalid boolean value [" ++ sv ++ b "]"
  | KBadFloat _ sv => b "invalid float value [" ++ sv ++ b "]"
  | KBadInt sv => b "invalid integer value [" ++ sv ++ b "]"
  | KBadNet _ sv => b "invalid network value [" ++ sv ++ b "]: " ++ or_empty (net_reason O sv)
  | KBadTime _ sv => b "invalid datetime value [" ++ sv ++ b "]: " ++ or_empty (time_reason sv)
  | KUntermStr => b "unterminated string, check for missing closing [""] or unescaped [\]"
  | KUntermRegex => b "unterminated regular expression, did you forget a closing '/'?"
  end.

(** validators.go 41, 99, 112, 122, 136, 140, 159 *)
Definition verr_text (k : verr) : bytes :=
  let operation o := b "[" ++ op_text o ++ b "] operation " in
  let which i n := b " (value " ++ json_int i ++ b "/" ++ json_int n ++ b ")" in
  match k with
  | VeNeedsNumeric o => operation o ++ b "needs numeric arguments"
  | VeNeedsStringy o => operation o ++ b "needs string, or boolean arguments"
  | VeNoArgs o => operation o ++ b "does not accept arguments"
  | VeExactly o n => operation o ++ b "requires exactly " ++ json_int (Z.of_N n) ++ b " arguments"
  | VeAtLeast o n => operation o ++ b "requires at least " ++ json_int (Z.of_N n) ++ b " arguments"
  | VeDuplicate sv i n => b "duplicate argument [" ++ sv ++ b "]" ++ which i n
  | VeConflictBool sv i n => b "conflicting boolean value [" ++ sv ++ b "]" ++ which i n
  | VeSecondDatetime => b "second argument must also be a datetime value"
  | VeSecondGreater => b "[><] operation requires the second argument be greater"
  end.

(** query_messages.go 22-59 *)
Definition hint_text (h : hint) : bytes :=
  match h with
  | HSimString => b "Similarity comparison is deprecated for string values. Please use the normal comparison operator - field:""<string>"""
  | HSimRegex => b "Similarity comparison is no longer necessary for regular expressions. Please use the normal comparison operator - field:/<regular expression/"
  | HFoldUnicode re => b "Case-insensitive regular expression " ++ re ++ b " contains unicode characters. This may not work as intended. Consider a fuzzy match - 'field:~(""value"", ""language"")"
  | HDotStar re => b "regular expression " ++ re ++ b " does not need to begin or end with "".*"", as this is redundant."
  | HOuterGroup r => b "unnecessary outer capturing group ""()"", consider /" ++ t_re_show T r ++ b "/"
  | HAlternation f => b "if you are doing large string alternations, consider using a multi-string match: such as '" ++ f ++ b ":(""one"", ""two"")'"
  | HLeadingDotStar => b "leading "".*"" may not do what you think, if you are searching for a term anywhere in a string, consider just ""/word/"""
  | HTrailingDotStar => b "trailing "".*"" is probably unnecessary"
  | HExactTime => b "exact matches on full datetime values match the time EXACTLY, consider using [:] and a short date (YYYY-MM-DD) to match the day or a numeric comparison"
  end.
(** wasm/aqlparse/warnings.go 22-55: two texts differ *)
Definition web_hint_text (h : hint) : bytes :=
  match h with
  | HSimRegex => b "Similarity comparison is no longer necessary for regular expressions and will eventually be removed. Please use the normal comparison operator - field:/<regular expression/"
  | HExactTime => b "exact matches on datetime values currently match the time EXACTLY, consider using [:~] or a numeric comparison"
  | _ => hint_text h
  end.

(** The Msg of the ParseError that ParseQuery returns (parser.go:30-60); [show] gives the text of the
    messages of the registered visitor. *)
Definition qerr_text {E M} (show : M -> bytes) (e : qerr E M) : bytes :=
  match e with
  | QSyntax pe => error_text (pe_kind pe)
  | QNil => b "parser returned nil output"
  | QUnknownType => b "parser returned unknown type: " ++ t_type T
  | QInvalid k _ => verr_text k
  | QVisitor _ h => show h
  | QVisitorOther _ => b "validation failure: " ++ t_other T
  | QTape m => show (m_text m)
  end.
End WithOracles.

(** ParseError.Error, parser_gen.go:76-78 *)
Definition error_line (p : pos) (msg : bytes) : bytes :=
  json_int (p_line p) ++ b ":" ++ json_int (p_col p) ++ b "(" ++ json_int (p_off p) ++ b "): " ++ msg.

(** message.go:26-37 typeStr *)
Definition type_str (t : msg_type) : bytes :=
  match t with MHint => b "HINT" | MWarning => b "WARNING" | MError => b "ERROR" end.
(** message.go:52-57 ParserMessage.String *)
Definition message_line (t : msg_type) (p : pos) (msg : bytes) : bytes :=
  if ((p_line p =? 0) || (p_col p =? 0) || (p_off p =? -1))%Z
  then type_str t ++ b ": " ++ msg
  else type_str t ++ b " [" ++ json_int (p_line p) ++ b ":" ++ json_int (p_col p) ++ b "(" ++ json_int (p_off p) ++ b ")]: " ++ msg.

(** ** The messages as the web page gets them (wasm/aqlparse/main.go) *)
Record page_msg := { pg_type : bytes; pg_msg : bytes; pg_start : Z; pg_end : Z }.
Section Page.
Context (O : oracles) (T : texts).

(** 27-46 errConvert with the test of the text *)
Definition err_page (e : qerr unit hint) (input : bytes) : page_msg :=
  let msg := qerr_text O T (web_hint_text T) e in
  let p := qerr_pos e in
  if has_prefix (b "no match found") msg
  then let o := (Z.of_nat (length input) - 1)%Z in {| pg_type := b "error"; pg_msg := b "incomplete query"; pg_start := o; pg_end := o + 1 |}
  else {| pg_type := b "error"; pg_msg := msg; pg_start := p_off p; pg_end := p_off p + p_len p |}.
(** 48-64 msgConvert *)
Definition type_page (t : msg_type) : bytes := match t with MHint => b "hint" | MWarning => b "warning" | MError => b "error" end.
Definition msg_page (m : message hint) : page_msg :=
  {| pg_type := type_page (m_type m); pg_msg := web_hint_text T (m_text m); pg_start := p_off (m_pos m); pg_end := p_off (m_pos m) + p_len (m_pos m) |}.
(** What the symbolic messages of Wasm.v stand for *)
Definition page_of (m : web_msg) : page_msg :=
  {| pg_type := type_page (w_kind m);
     pg_msg := match w_text m with WIncomplete => b "incomplete query" | WError e => qerr_text O T (web_hint_text T) e | WHint h => web_hint_text T h end;
     pg_start := w_start m; pg_end := w_end m |}.
End Page.
