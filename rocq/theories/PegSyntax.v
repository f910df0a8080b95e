(** internal/grammar/parser_gen.go: data types of the generated parser.
    Grammar expressions (2489-2572), values passed between actions, errors. *)
From Verif Require Import Bytes Ast.

(** Rule names: the [name] fields of [g.rules], parser_gen.go:189-1882. *)
Inductive rname :=
| RStart
| RQuery
| ROrClause
| RAndClause
| RNotClause
| RComparison
| RField
| RFieldPiece
| RUnquotedFieldPiece
| RQuotedFieldPiece
| RStar
| RValueList
| RValue
| RQuotedValue
| REndingQuote
| REscapedChar
| REscapeSequence
| RSingleCharEscape
| RUnicodeEscape
| RHexDigit
| RValueChars
| RRegexValue
| RRegexChar
| RRegexEscape
| REndingSlash
| RBareValue
| RBoolValue
| RFloatValue
| RIntValue
| RIPValue
| ROctet
| RCIDRBlock
| RTimestamp
| RdateTime
| RfullDate
| RdateFullyear
| RdateMonth
| RdateMday
| RtimeHour
| RtimeMinute
| RtimeSecond
| RtimeSecfrac
| RtimeNumoffset
| RtimeOffset
| RpartialTime
| RfullTime
| RDigit4
| RDigit2
| RlogicalOR
| RlogicalAND
| RlogicalNOT
| RopNoArgs
| RopComp
| R_ws
| Rspace
| REOL
| REOF
| RErrUntermStr
| RErrUntermRegex.

(** Action methods on<X> of *current, parser_gen.go:1884-2230. *)
Inductive act :=
| AStart1
| AQuery1
| AOrClause2
| AAndClause2
| ANotClause2
| AComparison2
| AComparison10
| AComparison19
| AField1
| AUnquotedFieldPiece1
| AQuotedFieldPiece1
| AStar1
| AValueList2
| AValueList17
| AValue2
| AValue8
| AQuotedValue2
| ARegexValue2
| ABoolValue1
| AFloatValue1
| AIntValue1
| AIPValue1
| ATimestamp1
| AopNoArgs1
| AopComp1.

(** State code blocks onErrUntermStr1, onErrUntermRegex1, parser_gen.go:2231-2249. *)
Inductive code := CUntermStr | CUntermRegex.

(** Expression types, parser_gen.go:2489-2572 (andExpr, andCodeExpr and notCodeExpr
    do not occur in [g]). *)
Inductive expr :=
| EAction (a : act) (e : expr)
| ESeq (l : list expr)
| EChoice (l : list expr)
| ELabel (l : string) (e : expr)
| ERule (r : rname)
| ELit (s : list N) (ignore_case : bool) (want : string)
| EClass (val : string) (chars : list N) (ranges : list (N * N)) (ignore_case inverted : bool)
| EAny
| ENot (e : expr)
| EStar (e : expr)
| EPlus (e : expr)
| EOpt (e : expr)
| ERecover (e rec : expr) (labels : list string)
| EThrow (l : string)
| EState (c : code).

(** Go values of type interface{} that flow between the actions. *)
Inductive val :=
| VNil                        (** nil interface *)
| VBytes (s : bytes)          (** []byte *)
| VList (l : list val)        (** []interface{} *)
| VStr (s : bytes)            (** string *)
| VNode (n : node)            (** ast.Node *)
| VVal (v : aval)             (** ast.Val *)
| VVals (l : list aval)       (** []ast.Val *)
| VStrs (l : list bytes)      (** []string *)
| VOp (o : op)                (** ast.Op *)
| VPoison.                    (** a value of the expected dynamic type that holds the nil *ast.IntVal
                                  returned together with an error by NewIntVal; it passes every
                                  assertion applied to it and never reaches the caller, because an
                                  error has been recorded *)

(** position (parser_gen.go:2440-2448): 1-based line, column, byte offset. *)
Record position := { line : Z; col : Z; off : Z }.

(** Errors that can be recorded; the number is the token length reported by tokenError
    (1 for ordinary errors), aql.peg:87-108; [sv] is the text in the brackets of the message. *)
Inductive err_kind :=
| KInvalidEncoding
| KNoMatch (expected : list string)
| KPanic                      (** a recovered run-time panic *)
| KEmptyField
| KParenSingle                (** unnecessary parenthesis for only one value *)
| KCloseParen                 (** unexpected closing parenthesis *)
| KUnknownValue (text : bytes)
| KBadString (len : Z)
| KBadRegex (len : Z) (sv : bytes)
| KBadBool (sv : bytes)
| KBadFloat (len : Z) (sv : bytes)
| KBadInt (sv : bytes)
| KBadNet (len : Z) (sv : bytes)
| KBadTime (len : Z) (sv : bytes)
| KUntermStr
| KUntermRegex.

(** parserError, parser_gen.go:2622-2627 (the prefix is not observable through GetParseError). *)
Record perr := { pe_kind : err_kind; pe_pos : position }.

(** The variable set on top of the vstack: label -> value. *)
Definition frame := list (string * val).
