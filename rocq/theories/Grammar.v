(** internal/grammar/parser_gen.go:189-1882, the grammar value [g], transcribed
    mechanically from the Go composite literal (source positions inside the .peg
    file are dropped; characters are given by their code). The generated class
    tables basicLatinChars and classes are empty in [g]. *)
From Verif Require Import Bytes PegSyntax.

Definition rules (r : rname) : expr :=
  match r with
  (* parser_gen.go:192-215 Start *)
  | RStart =>
    EAction AStart1 (ESeq [ELabel "query"%string (ERule RQuery); ERule REOF])
  (* parser_gen.go:217-244 Query *)
  | RQuery =>
    EAction AQuery1 (ESeq [ERule R_ws; ELabel "clause"%string (ERule ROrClause); ERule R_ws])
  (* parser_gen.go:246-294 OrClause *)
  | ROrClause =>
    EChoice [EAction AOrClause2 (ESeq [ELabel "lhs"%string (ERule RAndClause); ERule Rspace; ERule RlogicalOR; ERule Rspace; ELabel "rhs"%string (ERule ROrClause)]); ERule RAndClause]
  (* parser_gen.go:296-344 AndClause *)
  | RAndClause =>
    EChoice [EAction AAndClause2 (ESeq [ELabel "lhs"%string (ERule RNotClause); ERule Rspace; ERule RlogicalAND; ERule Rspace; ELabel "rhs"%string (ERule RAndClause)]); ERule RNotClause]
  (* parser_gen.go:346-378 NotClause *)
  | RNotClause =>
    EChoice [EAction ANotClause2 (ESeq [ERule RlogicalNOT; ELabel "cmp"%string (ERule RComparison)]); ERule RComparison]
  (* parser_gen.go:380-517 Comparison *)
  | RComparison =>
    EChoice [EAction AComparison2 (ESeq [ELit [40] false """("""%string; ERule R_ws; ELabel "query"%string (ERule ROrClause); ERule R_ws; ELit [41] false """)"""%string]); EAction AComparison10 (ESeq [ELabel "field"%string (ERule RField); ERule R_ws; ELit [58] false """:"""%string; ERule R_ws; ELabel "operation"%string (ERule RopNoArgs)]); EAction AComparison19 (ESeq [ELabel "field"%string (ERule RField); ERule R_ws; ELit [58] false """:"""%string; ERule R_ws; ELabel "operation"%string (EOpt (ERule RopComp)); ERule R_ws; ELabel "values"%string (ERule RValueList)])]
  (* parser_gen.go:519-556 Field *)
  | RField =>
    EAction AField1 (ELabel "pieces"%string (ESeq [ERule RFieldPiece; EStar (ESeq [ELit [46] false """."""%string; ERule RFieldPiece])]))
  (* parser_gen.go:558-577 FieldPiece *)
  | RFieldPiece =>
    EChoice [ERule RQuotedFieldPiece; ERule RUnquotedFieldPiece; ERule RStar]
  (* parser_gen.go:579-596 UnquotedFieldPiece *)
  | RUnquotedFieldPiece =>
    EAction AUnquotedFieldPiece1 (EPlus (EClass "[a-z0-9_-]i"%string [95; 45] [(97, 122); (48, 57)] true false))
  (* parser_gen.go:598-612 QuotedFieldPiece *)
  | RQuotedFieldPiece =>
    EAction AQuotedFieldPiece1 (ELabel "qv"%string (ERule RQuotedValue))
  (* parser_gen.go:614-626 Star *)
  | RStar =>
    EAction AStar1 (ELit [42] false """*"""%string)
  (* parser_gen.go:628-714 ValueList *)
  | RValueList =>
    EChoice [EAction AValueList2 (ESeq [ELit [40] false """("""%string; ERule R_ws; ELabel "first"%string (ERule RValue); ELabel "rest"%string (EStar (ESeq [ERule R_ws; ELit [44] false ""","""%string; ERule R_ws; ERule RValue])); ERule R_ws; ELit [41] false """)"""%string]); EAction AValueList17 (ELabel "value"%string (ERule RValue))]
  (* parser_gen.go:716-762 Value *)
  | RValue =>
    EChoice [EAction AValue2 (ELabel "val"%string (EChoice [ERule RQuotedValue; ERule RRegexValue; ERule RBareValue])); EAction AValue8 (EPlus (EClass "[^ \n\t\r]"%string [32; 10; 9; 13] [] false true))]
  (* parser_gen.go:764-833 QuotedValue *)
  | RQuotedValue =>
    ERecover (EAction AQuotedValue2 (ESeq [ELit [34] false """\"""""%string; EStar (EChoice [ESeq [ENot (ERule REscapedChar); EAny]; ESeq [ELit [92] false """\\"""%string; ERule REscapeSequence]]); ERule REndingQuote])) (ERule RErrUntermStr) ["errUntermStr"%string]
  (* parser_gen.go:835-852 EndingQuote *)
  | REndingQuote =>
    EChoice [ELit [34] false """\"""""%string; EThrow "errUntermStr"%string]
  (* parser_gen.go:854-864 EscapedChar *)
  | REscapedChar =>
    EClass "[\x00-\x1f""\\]"%string [34; 92] [(0, 31)] false false
  (* parser_gen.go:866-881 EscapeSequence *)
  | REscapeSequence =>
    EChoice [ERule RSingleCharEscape; ERule RUnicodeEscape]
  (* parser_gen.go:883-892 SingleCharEscape *)
  | RSingleCharEscape =>
    EClass "[""\\bfnrt]"%string [34; 92; 98; 102; 110; 114; 116] [] false false
  (* parser_gen.go:894-923 UnicodeEscape *)
  | RUnicodeEscape =>
    ESeq [ELit [117] false """u"""%string; ERule RHexDigit; ERule RHexDigit; ERule RHexDigit; ERule RHexDigit]
  (* parser_gen.go:925-934 HexDigit *)
  | RHexDigit =>
    EClass "[0-9a-f]i"%string [] [(48, 57); (97, 102)] true false
  (* parser_gen.go:936-946 ValueChars *)
  | RValueChars =>
    EClass "[a-zA-Z0-9 !]"%string [32; 33] [(97, 122); (65, 90); (48, 57)] false false
  (* parser_gen.go:948-986 RegexValue *)
  | RRegexValue =>
    ERecover (EAction ARegexValue2 (ESeq [ELit [47] false """/"""%string; EStar (ERule RRegexChar); ERule REndingSlash])) (ERule RErrUntermRegex) ["errUntermRegex"%string]
  (* parser_gen.go:988-1042 RegexChar *)
  | RRegexChar =>
    EChoice [ESeq [ENot (EChoice [ELit [47] false """/"""%string; ELit [92] false """\\"""%string; ERule REOL]); EAny]; ESeq [ELit [92] false """\\"""%string; ERule RRegexEscape]]
  (* parser_gen.go:1044-1070 RegexEscape *)
  | RRegexEscape =>
    ESeq [ENot (EChoice [ERule REOL; ERule REOF]); EAny]
  (* parser_gen.go:1072-1089 EndingSlash *)
  | REndingSlash =>
    EChoice [ELit [47] false """/"""%string; EThrow "errUntermRegex"%string]
  (* parser_gen.go:1091-1118 BareValue *)
  | RBareValue =>
    EChoice [ERule RTimestamp; ERule RIPValue; ERule RFloatValue; ERule RIntValue; ERule RBoolValue]
  (* parser_gen.go:1120-1143 BoolValue *)
  | RBoolValue =>
    EAction ABoolValue1 (EChoice [ELit [102; 97; 108; 115; 101] false """false"""%string; ELit [116; 114; 117; 101] false """true"""%string])
  (* parser_gen.go:1145-1191 FloatValue *)
  | RFloatValue =>
    EAction AFloatValue1 (ESeq [EOpt (ELit [45] false """-"""%string); EPlus (EClass "[0-9]"%string [] [(48, 57)] false false); ELit [46] false """."""%string; EPlus (EClass "[0-9]"%string [] [(48, 57)] false false)])
  (* parser_gen.go:1193-1223 IntValue *)
  | RIntValue =>
    EAction AIntValue1 (ESeq [EOpt (ELit [45] false """-"""%string); EPlus (EClass "[0-9]"%string [] [(48, 57)] false false)])
  (* parser_gen.go:1225-1277 IPValue *)
  | RIPValue =>
    EAction AIPValue1 (ESeq [ERule ROctet; ELit [46] false """."""%string; ERule ROctet; ELit [46] false """."""%string; ERule ROctet; ELit [46] false """."""%string; ERule ROctet; EOpt (ERule RCIDRBlock)])
  (* parser_gen.go:1279-1313 Octet *)
  | ROctet =>
    ESeq [EClass "[0-9]"%string [] [(48, 57)] false false; EOpt (EClass "[0-9]"%string [] [(48, 57)] false false); EOpt (EClass "[0-9]"%string [] [(48, 57)] false false)]
  (* parser_gen.go:1315-1345 CIDRBlock *)
  | RCIDRBlock =>
    ESeq [ELit [47] false """/"""%string; EClass "[0-9]"%string [] [(48, 57)] false false; EOpt (EClass "[0-9]"%string [] [(48, 57)] false false)]
  (* parser_gen.go:1347-1366 Timestamp *)
  | RTimestamp =>
    EAction ATimestamp1 (EChoice [ERule RdateTime; ERule RfullDate])
  (* parser_gen.go:1368-1400 dateTime *)
  | RdateTime =>
    ESeq [ERule RfullDate; EChoice [ELit [116] true """T""i"%string; ELit [32] false """ """%string]; ERule RfullTime]
  (* parser_gen.go:1402-1433 fullDate *)
  | RfullDate =>
    ESeq [ERule RdateFullyear; ELit [45] false """-"""%string; ERule RdateMonth; ELit [45] false """-"""%string; ERule RdateMday]
  (* parser_gen.go:1435-1441 dateFullyear *)
  | RdateFullyear =>
    ERule RDigit4
  (* parser_gen.go:1443-1449 dateMonth *)
  | RdateMonth =>
    ERule RDigit2
  (* parser_gen.go:1451-1457 dateMday *)
  | RdateMday =>
    ERule RDigit2
  (* parser_gen.go:1459-1465 timeHour *)
  | RtimeHour =>
    ERule RDigit2
  (* parser_gen.go:1467-1473 timeMinute *)
  | RtimeMinute =>
    ERule RDigit2
  (* parser_gen.go:1475-1481 timeSecond *)
  | RtimeSecond =>
    ERule RDigit2
  (* parser_gen.go:1483-1506 timeSecfrac *)
  | RtimeSecfrac =>
    ESeq [ELit [46] false """."""%string; EPlus (EClass "[0-9]"%string [] [(48, 57)] false false)]
  (* parser_gen.go:1508-1546 timeNumoffset *)
  | RtimeNumoffset =>
    ESeq [EChoice [ELit [43] false """+"""%string; ELit [45] false """-"""%string]; ERule RtimeHour; ELit [58] false """:"""%string; ERule RtimeMinute]
  (* parser_gen.go:1548-1565 timeOffset *)
  | RtimeOffset =>
    EChoice [ELit [122] true """Z""i"%string; ERule RtimeNumoffset]
  (* parser_gen.go:1567-1605 partialTime *)
  | RpartialTime =>
    ESeq [ERule RtimeHour; ELit [58] false """:"""%string; ERule RtimeMinute; ELit [58] false """:"""%string; ERule RtimeSecond; EOpt (ERule RtimeSecfrac)]
  (* parser_gen.go:1607-1622 fullTime *)
  | RfullTime =>
    ESeq [ERule RpartialTime; ERule RtimeOffset]
  (* parser_gen.go:1624-1659 Digit4 *)
  | RDigit4 =>
    ESeq [EClass "[0-9]"%string [] [(48, 57)] false false; EClass "[0-9]"%string [] [(48, 57)] false false; EClass "[0-9]"%string [] [(48, 57)] false false; EClass "[0-9]"%string [] [(48, 57)] false false]
  (* parser_gen.go:1661-1682 Digit2 *)
  | RDigit2 =>
    ESeq [EClass "[0-9]"%string [] [(48, 57)] false false; EClass "[0-9]"%string [] [(48, 57)] false false]
  (* parser_gen.go:1684-1692 logicalOR *)
  | RlogicalOR =>
    ELit [79; 82] false """OR"""%string
  (* parser_gen.go:1694-1702 logicalAND *)
  | RlogicalAND =>
    ELit [65; 78; 68] false """AND"""%string
  (* parser_gen.go:1704-1744 logicalNOT *)
  | RlogicalNOT =>
    EChoice [ESeq [ELit [78; 79; 84] false """NOT"""%string; ERule Rspace]; ESeq [ELit [33] false """!"""%string; EOpt (ERule Rspace)]]
  (* parser_gen.go:1746-1769 opNoArgs *)
  | RopNoArgs =>
    EAction AopNoArgs1 (EChoice [ELit [101; 120; 105; 115; 116; 115] false """exists"""%string; ELit [110; 117; 108; 108] false """null"""%string])
  (* parser_gen.go:1771-1815 opComp *)
  | RopComp =>
    EAction AopComp1 (EChoice [ELit [62; 60] false """><"""%string; ELit [126] false """~"""%string; ESeq [EClass "[<>]"%string [60; 62] [] false false; EOpt (ELit [61] false """="""%string)]])
  (* parser_gen.go:1817-1830 _ *)
  | R_ws =>
    EStar (EClass "[ \n\t\r]"%string [32; 10; 9; 13] [] false false)
  (* parser_gen.go:1832-1844 space *)
  | Rspace =>
    EPlus (EClass "[ \n\t\r]"%string [32; 10; 9; 13] [] false false)
  (* parser_gen.go:1846-1854 EOL *)
  | REOL =>
    ELit [10] false """\n"""%string
  (* parser_gen.go:1856-1864 EOF *)
  | REOF =>
    ENot (EAny)
  (* parser_gen.go:1866-1872 ErrUntermStr *)
  | RErrUntermStr =>
    EState CUntermStr
  (* parser_gen.go:1874-1880 ErrUntermRegex *)
  | RErrUntermRegex =>
    EState CUntermRegex
  end.

(** All rules, in the order of [g]; the first one is the entry point. *)
Definition all_rules : list rname :=
  [RStart; RQuery; ROrClause; RAndClause; RNotClause; RComparison; RField; RFieldPiece; RUnquotedFieldPiece; RQuotedFieldPiece; RStar; RValueList; RValue; RQuotedValue; REndingQuote; REscapedChar; REscapeSequence; RSingleCharEscape; RUnicodeEscape; RHexDigit; RValueChars; RRegexValue; RRegexChar; RRegexEscape; REndingSlash; RBareValue; RBoolValue; RFloatValue; RIntValue; RIPValue; ROctet; RCIDRBlock; RTimestamp; RdateTime; RfullDate; RdateFullyear; RdateMonth; RdateMday; RtimeHour; RtimeMinute; RtimeSecond; RtimeSecfrac; RtimeNumoffset; RtimeOffset; RpartialTime; RfullTime; RDigit4; RDigit2; RlogicalOR; RlogicalAND; RlogicalNOT; RopNoArgs; RopComp; R_ws; Rspace; REOL; REOF; RErrUntermStr; RErrUntermRegex].
