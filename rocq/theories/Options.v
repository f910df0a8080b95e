(** The options Recover and Entrypoint of the generated parser (internal/grammar/parser_gen.go 2292-2301, 2371-2377)
    and what parse does with them (2984-3022). *)
From Verif Require Import Bytes Utf8 Oracles Ast PegSyntax Grammar Actions Engine.

(** buildRulesTable (2977-2982): the rules of [g] by their names (189-1882). *)
Definition rule_table : list (string * rname) :=
  [("Start"%string, RStart); ("Query"%string, RQuery); ("OrClause"%string, ROrClause); ("AndClause"%string, RAndClause); ("NotClause"%string, RNotClause); ("Comparison"%string, RComparison); ("Field"%string, RField); ("FieldPiece"%string, RFieldPiece); ("UnquotedFieldPiece"%string, RUnquotedFieldPiece); ("QuotedFieldPiece"%string, RQuotedFieldPiece); ("Star"%string, RStar); ("ValueList"%string, RValueList); ("Value"%string, RValue); ("QuotedValue"%string, RQuotedValue); ("EndingQuote"%string, REndingQuote); ("EscapedChar"%string, REscapedChar); ("EscapeSequence"%string, REscapeSequence); ("SingleCharEscape"%string, RSingleCharEscape); ("UnicodeEscape"%string, RUnicodeEscape); ("HexDigit"%string, RHexDigit); ("ValueChars"%string, RValueChars); ("RegexValue"%string, RRegexValue); ("RegexChar"%string, RRegexChar); ("RegexEscape"%string, RRegexEscape); ("EndingSlash"%string, REndingSlash); ("BareValue"%string, RBareValue); ("BoolValue"%string, RBoolValue); ("FloatValue"%string, RFloatValue); ("IntValue"%string, RIntValue); ("IPValue"%string, RIPValue); ("Octet"%string, ROctet); ("CIDRBlock"%string, RCIDRBlock); ("Timestamp"%string, RTimestamp); ("dateTime"%string, RdateTime); ("fullDate"%string, RfullDate); ("dateFullyear"%string, RdateFullyear); ("dateMonth"%string, RdateMonth); ("dateMday"%string, RdateMday); ("timeHour"%string, RtimeHour); ("timeMinute"%string, RtimeMinute); ("timeSecond"%string, RtimeSecond); ("timeSecfrac"%string, RtimeSecfrac); ("timeNumoffset"%string, RtimeNumoffset); ("timeOffset"%string, RtimeOffset); ("partialTime"%string, RpartialTime); ("fullTime"%string, RfullTime); ("Digit4"%string, RDigit4); ("Digit2"%string, RDigit2); ("logicalOR"%string, RlogicalOR); ("logicalAND"%string, RlogicalAND); ("logicalNOT"%string, RlogicalNOT); ("opNoArgs"%string, RopNoArgs); ("opComp"%string, RopComp); ("_"%string, R_ws); ("space"%string, Rspace); ("EOL"%string, REOL); ("EOF"%string, REOF); ("ErrUntermStr"%string, RErrUntermStr); ("ErrUntermRegex"%string, RErrUntermRegex)].

(** The look-up p.rules[p.entrypoint], 3015. *)
Definition rule_named (name : string) : option rname := option_map snd (find (fun x => String.eqb (fst x) name) rule_table).

(** How a call of grammar.Parse ends. *)
Inductive ending :=
| Returned (r : presult)               (** it returns a value or errors *)
| NoEntry                              (** it returns errInvalidEntrypoint, 3016-3019 *)
| Panicked (before : list perr).       (** a panic reaches the caller; the errors recorded before it, oldest first *)

(** The rule Entrypoint(name) selects; the empty name stands for the first rule, 2295-2298. *)
Definition entry_rule (name : string) : option rname :=
  rule_named (if String.eqb name "" then "Start" else name)%string.

(** parse, 2984-3048, from the given rule (parseRule, 3085-3099, evaluates its expression). *)
Definition entry_run (O : oracles) (r : rname) (q : bytes) : res :=
  eval O (fuel_for q) false [] (rules r) [] (init_state q).

(** grammar.Parse with the options Recover(recover) and Entrypoint(entry). The deferred function that turns a panic
    into the last error is only there if recover is set, 2993-3013. *)
Definition option_parse (O : oracles) (recover : bool) (entry : string) (q : bytes) : ending :=
  match entry_rule entry with
  | None => NoEntry
  | Some r =>
    match entry_run O r q with
    | RPanic s => if recover then Returned (parse_result (RPanic s)) else Panicked (rev (errs s))
    | x => Returned (parse_result x)
    end
  end.
