{
 "claims": [
  {
   "property": "C01",
   "status": "proved",
   "theorems": [
    "C01_total"
   ],
   "note": "Arbitrary visitors; the fuel of the model is never exhausted."
  },
  {
   "property": "C02",
   "status": "proved",
   "theorems": [
    "C02_no_panic_text"
   ],
   "note": ""
  },
  {
   "property": "C03",
   "status": "proved",
   "theorems": [
    "C03_language",
    "C03_unambiguous"
   ],
   "note": "Acceptance with a tree iff derivable in the written grammar and checked; the tree is unique."
  },
  {
   "property": "C04",
   "status": "proved",
   "theorems": [
    "C04_roundtrip"
   ],
   "note": "Any tree of well-formed tokens; parentheses only where needed."
  },
  {
   "property": "C05",
   "status": "proved",
   "theorems": [
    "C05_accepted",
    "C05_same_verdict"
   ],
   "note": ""
  },
  {
   "property": "C06",
   "status": "proved",
   "theorems": [
    "C06_comparison_positions",
    "C06_literal_positions",
    "C06_offset"
   ],
   "note": ""
  },
  {
   "property": "C07",
   "status": "proved",
   "theorems": [
    "C07_error_positions"
   ],
   "note": "Offset inside the query, line number exact up to a line feed at the offset."
  },
  {
   "property": "C08",
   "status": "partial",
   "theorems": [
    "C08_nested_parentheses",
    "C08_polynomial_refuted"
   ],
   "note": "REFUTED: n nested pairs of parentheses cost at least 4^n expression evaluations. See C96 for what holds, C130 for the option Memoize."
  },
  {
   "property": "C09",
   "status": "proved",
   "theorems": [
    "C09_integer_literal",
    "C09_integer_value",
    "C09_integer_range"
   ],
   "note": ""
  },
  {
   "property": "C10",
   "status": "proved",
   "theorems": [
    "C10_string_literal",
    "C10_every_text",
    "C10_every_field_name",
    "C10_never_rejected"
   ],
   "note": "The field name * is excluded: a quoted star is dropped like an unquoted one (see C15)."
  },
  {
   "property": "C100",
   "status": "proved",
   "theorems": [
    "C100_written",
    "C100_refused",
    "C100_usage"
   ],
   "note": "Writing the file is graphviz; the model says what is written where. Asks that no character outside ASCII has a letter of svg or dot as its lower case (true of Unicode)."
  },
  {
   "property": "C101",
   "status": "partial",
   "theorems": [
    "C101_hopeless_refuted",
    "C101_beginning_refuted"
   ],
   "note": "REFUTED in both directions: a closing parenthesis is called an incomplete query although no query begins with it; a:(1 and an unfinished string are not called incomplete although they can be completed. What the reported place tells is C102."
  },
  {
   "property": "C102",
   "status": "proved",
   "theorems": [
    "C102_place",
    "C102_form"
   ],
   "note": "Errors about the encoding are left out: the parser may have looked ahead past the mistake when it meets them."
  },
  {
   "property": "C103",
   "status": "proved",
   "theorems": [
    "C103_order"
   ],
   "note": "C103_needed shows by examples that each restriction is needed."
  },
  {
   "property": "C104",
   "status": "proved",
   "theorems": [
    "C104_blame",
    "C104_syntax",
    "C104_place"
   ],
   "note": "Messages are kinds (verr) with the arguments of the format; the wording is in Texts.v (C116)."
  },
  {
   "property": "C105",
   "status": "partial",
   "theorems": [
    "C105_suggestions",
    "C105_order",
    "C105_text",
    "C105_anything_refuted"
   ],
   "note": "REFUTED for one entry: the fallback class [^ \\n\\t\\r] is listed wherever a value may begin although most of its characters cannot follow (C105_anything_refuted). Proved for all other entries (C105_suggestions, C105_order). Form means ShapeSpec.query_form: whether values convert and pass the operator checks is a matter of other properties."
  },
  {
   "property": "C106",
   "status": "proved",
   "theorems": [
    "C106_complete"
   ],
   "note": "ExpectedSpec.stands_for is the independent reading of the entries; the fallback class stands for any character but white space. The exception for keywords is part of the statement. Query means GrammarSpec.query with any oracle."
  },
  {
   "property": "C107",
   "status": "proved",
   "theorems": [
    "C107_no_repair"
   ],
   "note": "The exception occurs: C107_keyword completes a query ending in AN."
  },
  {
   "property": "C108",
   "status": "partial",
   "theorems": [
    "C108_printed_tree",
    "C108_regex_refuted",
    "C108_field_refuted"
   ],
   "note": "REFUTED without conditions: a regular expression with a slash prints like two of them (C108_regex_refuted), and the whole document prints like the member with the empty name (C108_field_refuted). Proved for all other pairs (C108_printed_tree), with formats O: what strconv documents about FormatFloat."
  },
  {
   "property": "C109",
   "status": "proved",
   "theorems": [
    "C109_error",
    "C109_never"
   ],
   "note": ""
  },
  {
   "property": "C11",
   "status": "partial",
   "theorems": [
    "C11_regex_body_refuted",
    "C11_edge_slash_refuted"
   ],
   "note": "REFUTED: a body ending in an escaped backslash loses a backslash; escaped slashes at either end are stripped. See C69 for what holds."
  },
  {
   "property": "C110",
   "status": "partial",
   "theorems": [
    "C110_marked",
    "C110_integer_refuted"
   ],
   "note": "REFUTED for integers: the action of IntValue returns the error without the position of the token, so that for 99999999999999999999 one character of twenty is marked (C110_integer_refuted). Proved for strings, regular expressions, floats, addresses and timestamps (C110_marked)."
  },
  {
   "property": "C111",
   "status": "proved",
   "theorems": [
    "C111_same_answer",
    "C111_places"
   ],
   "note": ""
  },
  {
   "property": "C112",
   "status": "partial",
   "theorems": [
    "C112_told",
    "C112_same_texts",
    "C112_harmless",
    "C112_redundant_refuted",
    "C112_nothing_left_refuted"
   ],
   "note": "REFUTED in general: the hint looks at the characters, not at the expression. For /\\Qa.*/ the .* is literal text and without it the query accepts more (C112_redundant_refuted); for /a\\.*/ the dot is escaped and what would remain is no expression (C112_nothing_left_refuted). Proved: the hint is given only for expressions that begin or end so (C112_told), and where the rest is itself an expression of the documented syntax without counts and inner flags the answers are the same (C112_same_texts, C112_harmless)."
  },
  {
   "property": "C113",
   "status": "partial",
   "theorems": [
    "C113_told",
    "C113_usable",
    "C113_no_query_refuted",
    "C113_other_field_refuted",
    "C113_same_refuted"
   ],
   "note": "REFUTED: the names of the field are joined without quotes, so for a field with a quoted name the proposal may be no query (C113_no_query_refuted) or a query on another field (C113_other_field_refuted); a regular expression searches, a list of strings compares, so the answers differ (C113_same_refuted). Proved: the hint is given for alternatives only and names the field (C113_told); for ordinary names the proposal is a query on the field (C113_usable)."
  },
  {
   "property": "C114",
   "status": "partial",
   "theorems": [
    "C114_remedy",
    "C114_every",
    "C114_advice",
    "C114_simple",
    "C114_shown",
    "C114_swallow_refuted",
    "C114_list_refuted",
    "C114_escape_refuted"
   ],
   "note": "REFUTED for the advice as a whole: the word is taken to reach to the next white space, so in (a:foo) the proposal swallows the closing parenthesis and the query is still refused (C114_swallow_refuted), likewise the comma of a list (C114_list_refuted); control characters are written with escapes the language does not have (C114_escape_refuted). Proved: any value can stand in the place of the error (C114_remedy, C114_every), the proposal for a word of quotable characters is a string with that value and can stand there (C114_advice), and in a single comparison it gives the comparison with the word (C114_simple)."
  },
  {
   "property": "C115",
   "status": "partial",
   "theorems": [
    "C115_quotes",
    "C115_found",
    "C115_checks",
    "C115_net_refuted",
    "C115_regex_refuted"
   ],
   "note": "REFUTED: an address without prefix length is shown with /32 appended (a:256.1.1.1 says [256.1.1.1/32], which does not occur in the query), a regular expression is shown without the backslashes before slashes. Proved: these are the only two differences (C115_quotes), and all other values are shown as written (C115_found)."
  },
  {
   "property": "C116",
   "status": "proved",
   "theorems": [
    "C116_kinds",
    "C116_web",
    "C116_messages"
   ],
   "note": "Kinds of mistake are the constructors of the errors of the model without the values they carry; plain queries (no registered visitors) for C116_kinds."
  },
  {
   "property": "C117",
   "status": "proved",
   "theorems": [
    "C117_error",
    "C117_message",
    "C117_form"
   ],
   "note": ""
  },
  {
   "property": "C118",
   "status": "partial",
   "theorems": [
    "C118_time",
    "C118_net",
    "C118_reason_refuted"
   ],
   "note": "REFUTED that there always is a reason: for a lower-case t or z and for a blank between date and time, which the grammar allows, the text ends after the colon (time.ParseError without a message). Proved: which reason is given for every refused time and address; for the cases above it is the empty one."
  },
  {
   "property": "C119",
   "status": "partial",
   "theorems": [
    "C119_no_similar_time",
    "C119_similar_refuted",
    "C119_short",
    "C119_day",
    "C119_day_refuted",
    "C119_fuzzy",
    "C119_fuzzy_refuted"
   ],
   "note": "REFUTED: the web page proposes [:~] for times, but no accepted query compares a time with it (C119_no_similar_time, C119_similar_refuted); the short date of a timestamp with an offset may be another day in UTC, so the proposed query does not match the document that the exact one matches (C119_day_refuted); the second string of the proposed fuzzy match is no language but another string to look for, and using it leads to two warnings that the operator is deprecated (C119_fuzzy, C119_fuzzy_refuted). Proved: the short date is accepted (C119_short) and matches what the timestamp matches if the instant lies on the written day in UTC (C119_day)."
  },
  {
   "property": "C12",
   "status": "proved",
   "theorems": [
    "C12_date_literal",
    "C12_timestamp_literal",
    "C12_day_number_unique",
    "C12_date_accepted"
   ],
   "note": ""
  },
  {
   "property": "C120",
   "status": "partial",
   "theorems": [
    "C120_document",
    "C120_injective",
    "C120_matcher",
    "C120_value_refuted"
   ],
   "note": "REFUTED for messages that are not reached through a pointer: MarshalJSON of the type has a pointer receiver, so that a ParserMessage passed by value is written with the type as a number (C120_value_refuted). Proved for lists of pointers, as Messages() returns them (and, with the number for the type, also for lists of values)."
  },
  {
   "property": "C121",
   "status": "partial",
   "theorems": [
    "C121_clean",
    "C121_clean_leads",
    "C121_where",
    "C121_each",
    "C121_index",
    "C121_lookup",
    "C121_opened",
    "C121_served",
    "C121_closed_partial",
    "C121_closed_refuted"
   ],
   "note": "REFUTED for the last part: index.html is opened for each request of the page and never closed (C121_closed_refuted). Proved: the map of file names has exactly the four names with their places in the directory (C121_lookup), no other file is opened or sent (C121_opened; C121_where, C121_each and C121_index say it by walks through directories, with C121_clean and C121_clean_leads on Clean), which paths are answered with a file (C121_served), all files but the index are closed (C121_closed_partial)."
  },
  {
   "property": "C122",
   "status": "partial",
   "theorems": [
    "C122_other",
    "C122_number",
    "C122_tiny_refuted",
    "C122_string",
    "C122_case_refuted",
    "C122_escape_refuted"
   ],
   "note": "REFUTED for numbers nearer to 0 than to any other double (C122_tiny_refuted), for the word false in capitals (C122_case_refuted) and for strings written with escapes (C122_escape_refuted). Proved: booleans, null, objects and arrays as documented (C122_other); the truth value of a number is that of the nearest double, and numbers out of the range of doubles have none (C122_number); the strings without truth are exactly the empty one, 0 and false in any mixture of small and capital letters, also with a long s (C122_string)."
  },
  {
   "property": "C123",
   "status": "proved",
   "theorems": [
    "C123_array",
    "C123_object"
   ],
   "note": ""
  },
  {
   "property": "C124",
   "status": "partial",
   "theorems": [
    "C124_grows",
    "C124_null_refuted"
   ],
   "note": "REFUTED for null, which asks whether everything found is null: adding data can make it true and false (C124_null_refuted). Proved for queries without null (C124_grows)."
  },
  {
   "property": "C125",
   "status": "partial",
   "theorems": [
    "C125_object",
    "C125_array",
    "C125_and_refuted"
   ],
   "note": "REFUTED for arrays and queries with AND: the comparisons need not hold for the same element, so a.x:exists AND a.y:exists holds for an array with x in one and y in another object (C125_and_refuted). Proved for members that are objects and all queries (C125_object), and for arrays and single comparisons other than null (C125_array)."
  },
  {
   "property": "C126",
   "status": "partial",
   "theorems": [
    "C126_refused",
    "C126_accepted",
    "C126_error",
    "C126_empty",
    "C126_deep",
    "C126_tree_refuted",
    "C126_kind_refuted"
   ],
   "note": "REFUTED: an accepted query about which there is a hint or a warning has an empty output instead of its tree (C126_tree_refuted), and one nested too deeply gets a message of the class undefined (C126_kind_refuted). Proved: the tree is shown exactly if no value gives rise to a message, else only hints and warnings (C126_accepted); errors are shown exactly for refused queries (C126_refused, C126_error)."
  },
  {
   "property": "C127",
   "status": "partial",
   "theorems": [
    "C127_read",
    "C127_error",
    "C127_hint",
    "C127_tag_refuted",
    "C127_escape_refuted",
    "C127_similar_refuted"
   ],
   "note": "REFUTED: the texts are not escaped. A word of the query becomes a tag of the page (C127_tag_refuted), also one written with escapes (C127_escape_refuted), and the warning about similarity contains an angle bracket of its own that swallows the closing tag (C127_similar_refuted). Proved: a text is read as written exactly if it is inert (C127_read); errors are for queries without <, & and backslash (C127_error), the other messages for queries without < and & (C127_hint)."
  },
  {
   "property": "C128",
   "status": "partial",
   "theorems": [
    "C128_string",
    "C128_encoding",
    "C128_ascii",
    "C128_mark_refuted"
   ],
   "note": "REFUTED: the marks are byte offsets but the page counts UTF-16 units, so a character outside ASCII shifts all marks that follow it (C128_mark_refuted). Proved: the marked units are the blamed bytes if all characters up to the end of the mark are ASCII (C128_ascii); every text reaches the parser as its UTF-8 encoding (C128_string), and the error about the encoding never arises on the page (C128_encoding)."
  },
  {
   "property": "C129",
   "status": "proved",
   "theorems": [
    "C129_place",
    "C129_ends",
    "C129_found",
    "C129_only"
   ],
   "note": "PathSpec.v says what paths mean as walks through directories and what following a redirect means. Links in the file system are not followed: places are those the names tell."
  },
  {
   "property": "C13",
   "status": "partial",
   "theorems": [
    "C13_timestamp_forms_refuted"
   ],
   "note": "REFUTED: lower-case t is in the grammar but rejected by time.Parse. See C70 for the accepted forms."
  },
  {
   "property": "C130",
   "status": "proved",
   "theorems": [
    "C130_linear",
    "C130_once",
    "C130_nested",
    "C130_errors"
   ],
   "note": "Memo.v models the parser with its table; the values that failed expressions leave in the table are not modelled, as nothing reads them. The count is that of parseExpr bodies run (ExprCnt). C130_once says nothing of a parse that panics. That the results are the same with the option is not claimed."
  },
  {
   "property": "C131",
   "status": "proved",
   "theorems": [
    "C131_pieces",
    "C131_failure",
    "C131_query"
   ],
   "note": "Readers that do not end or give more than was asked for are outside the statement (the model says running and panic). Readers are functions of their state and the room in the buffer."
  },
  {
   "property": "C132",
   "status": "proved",
   "theorems": [
    "C132_depth",
    "C132_accepted",
    "C132_factor"
   ],
   "note": "For queries that the grammar accepts; for rejected texts C96 gives a bound by the number of opening parentheses."
  },
  {
   "property": "C133",
   "status": "proved",
   "theorems": [
    "C133_within",
    "C133_exceeded",
    "C133_bound",
    "C133_off",
    "C133_depth",
    "C133_refuses"
   ],
   "note": "The library passes no options to the parser; the option is there for a caller who wants the cost of C08 bounded. The counter is modelled without wrap-around, which it cannot reach below the limit."
  },
  {
   "property": "C134",
   "status": "proved",
   "theorems": [
    "C134_valid",
    "C134_accepted",
    "C134_errors",
    "C134_only_encoding",
    "C134_never"
   ],
   "note": "The library passes no options to the parser (C14: invalid text is an error there)."
  },
  {
   "property": "C135",
   "status": "proved",
   "theorems": [
    "C135_digits",
    "C135_formatter",
    "C135_fifteen",
    "C135_as_written",
    "C135_query",
    "C135_limits"
   ],
   "note": "C135_limits shows the bound of 15 digits is needed. Zero is not included: it is written 0 or -0."
  },
  {
   "property": "C136",
   "status": "proved",
   "theorems": [
    "C136_exact",
    "C136_between"
   ],
   "note": "C32 gives two numbers of 16 digits that are not told apart."
  },
  {
   "property": "C137",
   "status": "proved",
   "theorems": [
    "C137_numeral",
    "C137_word",
    "C137_only",
    "C137_decimal",
    "C137_query"
   ],
   "note": "For the reading of ParseFloat modelled in GoFloatRead.v (hypothesis reads_go; it concerns texts with x or underscore only). Exponents of 100000 and more are cut by ParseFloat, the value is then not claimed."
  },
  {
   "property": "C138",
   "status": "partial",
   "theorems": [
    "C138_words_refuted",
    "C138_notation_refuted",
    "C138_other"
   ],
   "note": "REFUTED: the string Inf is greater than 5 (C138_words_refuted), the string 1_000 equals 1000 and 0x1p4 equals 16 (C138_notation_refuted). Proved: strings that are neither numerals of Go nor these words satisfy no comparison (C138_other)."
  },
  {
   "property": "C139",
   "status": "proved",
   "theorems": [
    "C139_examples",
    "C139_marshal"
   ],
   "note": "For statistics with example lists (with_lists); those NewFieldStats makes have none, see C88."
  },
  {
   "property": "C14",
   "status": "proved",
   "theorems": [
    "C14_invalid_utf8"
   ],
   "note": ""
  },
  {
   "property": "C140",
   "status": "partial",
   "theorems": [
    "C140_ten_refuted",
    "C140_decoded_refuted",
    "C140_shown_refuted",
    "C140_names"
   ],
   "note": "REFUTED: eleven names are listed, because the count is compared after it was raised (C140_ten_refuted); and the names, which ObjectEach has decoded already, are decoded again, so that the name made of a backslash and n appears as a newline (C140_decoded_refuted) and a lone backslash as an invalid key (C140_shown_refuted). Proved: the first eleven names, if they have no backslash (C140_names)."
  },
  {
   "property": "C141",
   "status": "partial",
   "theorems": [
    "C141_counts",
    "C141_one_by_one",
    "C141_missed_refuted",
    "C141_twice_refuted"
   ],
   "note": "REFUTED for the examples: the counter is raised and read in two steps, so of 1001 calls none may leave an example (C141_missed_refuted) and of 1000 calls two may (C141_twice_refuted). Proved for all interleavings: no panic and exact counts, with example lists, or without them for fewer than 1000 calls (C141_counts)."
  },
  {
   "property": "C142",
   "status": "partial",
   "theorems": [
    "C142_valid_refuted",
    "C142_blanks",
    "C142_invalid_refuted",
    "C142_syntax_refuted",
    "C142_rest"
   ],
   "note": "REFUTED both ways: a valid document followed by a newline is refused (C142_valid_refuted), in general every document with blanks around it (C142_blanks); two documents one after the other, wrong numbers, a comma before the closing brace and wrong escapes are accepted (C142_invalid_refuted, C142_syntax_refuted). Proved in general: after a first document, anything that ends with the same bracket is ignored (C142_rest). C51 says that documents without blanks around are accepted, if names can be decoded and arrays at the top hold no scalars."
  },
  {
   "property": "C143",
   "status": "partial",
   "theorems": [
    "C143_answers_refuted",
    "C143_answers",
    "C143_usage",
    "C143_queries_refuted",
    "C143_queries"
   ],
   "note": "REFUTED in two places: the example of the section Paths, level1.level2.level3 compared with the string here!, is answered false by the code (C143_answers_refuted; a string that does not end with a word character does not equal itself, C43), and the query with a time zone offset is rejected, as the README writes the offset with U+2212 instead of a hyphen (C143_queries_refuted). All other answers (C143_answers), the program (C143_usage, if the library recognises the date of its document) and all other queries (C143_queries, if the formatter of floats is right and the pattern of the example compiles) are as the README says."
  },
  {
   "property": "C144",
   "status": "partial",
   "theorems": [
    "C144_no_panic_refuted",
    "C144_panic",
    "C144_accepted",
    "C144_returned",
    "C144_default",
    "C144_ends",
    "C144_unknown",
    "C144_entered",
    "C144_query",
    "C144_query_only_refuted"
   ],
   "note": "REFUTED: a:1.2.3.4/99 makes an action assert the type of a nil value; only the recovery turns that panic into an error (C144_no_panic_refuted). True instead: a panic comes only after a recorded error that is no panic itself, and with recovery it is the last of the errors (C144_panic); accepted texts are accepted without recovery too (C144_accepted); a result returned without recovery is the one with it (C144_returned). The parse ends from every entry point (C144_ends), exactly the names of no rule are refused (C144_unknown), and Query accepts what Start accepts, with the same value (C144_query) - but also texts that go on after the query, whose rest is ignored (C144_query_only_refuted)."
  },
  {
   "property": "C145",
   "status": "proved",
   "theorems": [
    "C145_reading",
    "C145_panics",
    "C145_error"
   ],
   "note": "No restriction on paths or documents is left, unlike in C24 and C72. Counters after a panic are not part of the claim (the model gives no state after a panic)."
  },
  {
   "property": "C146",
   "status": "proved",
   "theorems": [
    "C146_returns",
    "C146_no_memory",
    "C146_counts",
    "C146_root"
   ],
   "note": "Generalises C47 (no restriction on paths or documents). The example shows a comparison that is checked three times while the query is checked once. The recovery itself is done by the caller and not by the package."
  },
  {
   "property": "C147",
   "status": "partial",
   "theorems": [
    "C147_recorded",
    "C147_polynomial_refuted",
    "C147_told",
    "C147_one"
   ],
   "note": "REFUTED for the list the parser builds up: the same error 4^n times behind n parentheses (C147_recorded, exact number). Proved for the list the caller gets (C147_told, C147_one). The text of an error, a parameter of dedupe, is left open."
  },
  {
   "property": "C148",
   "status": "proved",
   "theorems": [
    "C148_bound",
    "C148_apart",
    "C148_exact",
    "C148_null",
    "C148_exists"
   ],
   "note": "Counts comparisons of one value with one literal; the cost of one comparison (a regular expression, a text search) and of reading the text is not counted."
  },
  {
   "property": "C149",
   "status": "partial",
   "theorems": [
    "C149_counts",
    "C149_injective",
    "C149_copy",
    "C149_method",
    "C149_report",
    "C149_match_stats",
    "C149_examples_refuted",
    "C149_method_refuted"
   ],
   "note": "REFUTED: encoding/json never calls MarshalJson (it looks for MarshalJSON) and never writes an example; of a copy of a FieldStats it writes no counter. Proved instead: through a pointer all counters are told exactly (types by position), MarshalJson would report all of it if the example lists were made, and the JSON of a MatchStats tells everything."
  },
  {
   "property": "C15",
   "status": "partial",
   "theorems": [
    "C15_star_segments",
    "C15_quoted_star_refuted",
    "C15_quoted_segments_partial"
   ],
   "note": "First half proved. REFUTED second half: a quoted star is dropped too; other quoted segments are kept."
  },
  {
   "property": "C150",
   "status": "partial",
   "theorems": [
    "C150_title",
    "C150_label",
    "C150_title_refuted",
    "C150_cut_refuted",
    "C150_label_refuted"
   ],
   "note": "REFUTED: graphviz reads backslashes in the title as escapes, and C strings end at a zero byte, which regular expressions and (escaped) field names may contain. Proved: the title is the query if it has no backslash, ampersand or zero byte; a label arrives in full exactly if no field name and no printed value has a zero byte."
  },
  {
   "property": "C151",
   "status": "proved",
   "theorems": [
    "C151_messages",
    "C151_alone"
   ],
   "note": "The text of a message is what fmt.Sprintf makes of the format and its arguments, taken as given. Visitors are taken to be different objects: one visitor registered twice shares its tape, which is not modelled."
  },
  {
   "property": "C152",
   "status": "partial",
   "theorems": [
    "C152_which",
    "C152_text",
    "C152_true",
    "C152_readable",
    "C152_true_refuted",
    "C152_readable_refuted"
   ],
   "note": "REFUTED: a whole object followed by a line end is called unterminated, an array after a blank is called no array (C152_true_refuted), and a text of more than 100 bytes may be cut within a character (C152_readable_refuted). Proved: exactly when these errors arise and that they leave the sampler as it was (C152_which), their words and quotation (C152_text), that the words are true of JSON values without blanks around them (C152_true), and that the error is UTF-8 for samples of up to 100 bytes (C152_readable)."
  },
  {
   "property": "C153",
   "status": "partial",
   "theorems": [
    "C153_built",
    "C153_reading",
    "C153_no_stats",
    "C153_stats_refuted",
    "C153_with_stats"
   ],
   "note": "REFUTED for the report: only comparisons look whether they have counters, so Stats of a query with AND, OR or NOT at the top dereferences nil (C153_stats_refuted; C153_no_stats says exactly when). Proved: the rest."
  },
  {
   "property": "C16",
   "status": "proved",
   "theorems": [
    "C16_accepted_arguments",
    "C16_checks_complete"
   ],
   "note": "Both directions: accepted trees satisfy the argument rules; trees satisfying the rules pass the checks."
  },
  {
   "property": "C17",
   "status": "partial",
   "theorems": [
    "C17_distinct_printed",
    "C17_values",
    "C17_no_conflicting_booleans",
    "C17_duplicate_value_refuted",
    "C17_zero_refuted",
    "C17_zone_refuted",
    "C17_length_refuted"
   ],
   "note": "REFUTED as stated (a:(1,01) is accepted): duplicates are detected by printed text; so also a:(0,-0), an instant written in two zones, and, where Go reads it, a prefix length with a leading zero. Proved: distinct printed texts; no string, boolean, double, integer written without leading zeros, or network (with the current netip) occurs twice (C17_values); no true/false pair in an equality list."
  },
  {
   "property": "C18",
   "status": "partial",
   "theorems": [
    "C18_range_partial",
    "C18_mixed_range_refuted"
   ],
   "note": "REFUTED as stated: a negative number with a timestamp is accepted. Otherwise both ends are of one kind and increasing."
  },
  {
   "property": "C19",
   "status": "proved",
   "theorems": [
    "C19_walk",
    "C19_every_node_once",
    "C19_parse_query"
   ],
   "note": "Arbitrary stateful visitors."
  },
  {
   "property": "C20",
   "status": "partial",
   "theorems": [
    "C20_tape_error_refuted",
    "C20_tape_never_rejects"
   ],
   "note": "REFUTED: addMsg tests firstErr != nil before setting it, so tape errors are never returned."
  },
  {
   "property": "C21",
   "status": "proved",
   "theorems": [
    "C21_accepts",
    "C21_same_error",
    "C21_messages",
    "C21_text_order"
   ],
   "note": ""
  },
  {
   "property": "C22",
   "status": "proved",
   "theorems": [
    "C22_no_panic"
   ],
   "note": ""
  },
  {
   "property": "C23",
   "status": "partial",
   "theorems": [
    "C23_star_path_refuted",
    "C23_empty_segment_refuted"
   ],
   "note": "REFUTED: a field of stars only, or an empty first segment, makes Match panic. See C72 for when it returns."
  },
  {
   "property": "C24",
   "status": "proved",
   "theorems": [
    "C24_meaning",
    "C24_and",
    "C24_or",
    "C24_not",
    "C24_laws"
   ],
   "note": "For documents on which the paths are safe (C72)."
  },
  {
   "property": "C25",
   "status": "proved",
   "theorems": [
    "C25_no_memory",
    "C25_one_answer",
    "C48_results"
   ],
   "note": "Sequential histories: C25_*; concurrent ones, with Stats calls: C48_results."
  },
  {
   "property": "C26",
   "status": "partial",
   "theorems": [
    "C26_paths",
    "C26_member",
    "C26_hidden_member_refuted"
   ],
   "note": "REFUTED in one corner: a member name that cannot be decoded (lone surrogate escape) hides the members after it. Otherwise resolution is exactly as stated (the first member of a name counts), for paths without index-like segments."
  },
  {
   "property": "C27",
   "status": "proved",
   "theorems": [
    "C27_exists"
   ],
   "note": ""
  },
  {
   "property": "C28",
   "status": "proved",
   "theorems": [
    "C28_null",
    "C28_null_exists"
   ],
   "note": ""
  },
  {
   "property": "C29",
   "status": "proved",
   "theorems": [
    "C29_scalars"
   ],
   "note": ""
  },
  {
   "property": "C30",
   "status": "proved",
   "theorems": [
    "C30_set_is_or"
   ],
   "note": ""
  },
  {
   "property": "C31",
   "status": "proved",
   "theorems": [
    "C31_similar_is_equal"
   ],
   "note": ""
  },
  {
   "property": "C32",
   "status": "partial",
   "theorems": [
    "C32_exact_comparison_refuted"
   ],
   "note": "REFUTED: 9007199254740993 equals 9007199254740992. See C74 for what holds."
  },
  {
   "property": "C33",
   "status": "proved",
   "theorems": [
    "C33_consistent",
    "C33_not_a_number"
   ],
   "note": ""
  },
  {
   "property": "C34",
   "status": "proved",
   "theorems": [
    "C34_inclusive",
    "C34_is_conjunction",
    "C29_scalars"
   ],
   "note": "Ends of different kinds: see C18."
  },
  {
   "property": "C35",
   "status": "partial",
   "theorems": [
    "C35_exclusive_refuted"
   ],
   "note": "REFUTED: the ends are included (C34)."
  },
  {
   "property": "C36",
   "status": "proved",
   "theorems": [
    "C36_bool",
    "C36_exclusive"
   ],
   "note": ""
  },
  {
   "property": "C37",
   "status": "partial",
   "theorems": [
    "C37_time_line_refuted"
   ],
   "note": "REFUTED: UnixNano wraps outside 1677-2262, so 1500-01-01 is found to be after 2020-01-01. See C75."
  },
  {
   "property": "C38",
   "status": "partial",
   "theorems": [
    "C38_day_refuted"
   ],
   "note": "REFUTED: the end of 2262-04-11 overflows. See C76."
  },
  {
   "property": "C39",
   "status": "proved",
   "theorems": [
    "C39_literal",
    "C39_accepted",
    "C39_intersection",
    "C39_pair",
    "C39_symmetric",
    "C39_plain_address"
   ],
   "note": ""
  },
  {
   "property": "C40",
   "status": "proved",
   "theorems": [
    "C40_malformed",
    "C40_never_match",
    "C40_other_candidates"
   ],
   "note": ""
  },
  {
   "property": "C41",
   "status": "proved",
   "theorems": [
    "C41_compiles",
    "C41_matcher",
    "C41_metacharacters",
    "C42_search",
    "C78_other_search"
   ],
   "note": "C41_metacharacters: ASCII literals without wildcards. Literals with wildcards and literals outside ASCII: C42_search and C78_other_search, where every character but ? and * stands for itself."
  },
  {
   "property": "C42",
   "status": "proved",
   "theorems": [
    "C42_search",
    "C42_one_pattern",
    "C42_letters"
   ],
   "note": ""
  },
  {
   "property": "C43",
   "status": "partial",
   "theorems": [
    "C43_self_refuted",
    "C43_readme_refuted"
   ],
   "note": "REFUTED: a string that does not start and end with a word character does not equal itself, e.g. the README example here!. See C79."
  },
  {
   "property": "C44",
   "status": "proved",
   "theorems": [
    "C44_invalid",
    "C44_valid"
   ],
   "note": ""
  },
  {
   "property": "C45",
   "status": "proved",
   "theorems": [
    "C45_named_members"
   ],
   "note": ""
  },
  {
   "property": "C46",
   "status": "partial",
   "theorems": [
    "C46_top_level_array_refuted"
   ],
   "note": "REFUTED: nothing is found in a document whose root is an array. See C73."
  },
  {
   "property": "C47",
   "status": "proved",
   "theorems": [
    "C47_counts",
    "C47_tally_unique",
    "C47_root"
   ],
   "note": ""
  },
  {
   "property": "C48",
   "status": "proved",
   "theorems": [
    "C48_no_loss",
    "C48_results",
    "C48_progress"
   ],
   "note": "Calls that panic (see C72) are excluded: they end the program. Evaluation reads no shared mutable data, so the steps of a call are fixed beforehand in the model."
  },
  {
   "property": "C49",
   "status": "partial",
   "theorems": [
    "C49_snapshot_refuted"
   ],
   "note": "REFUTED: Stats loads the checked counter first; a Match finishing between the two loads is counted as matched only. See C81 for the counters themselves."
  },
  {
   "property": "C50",
   "status": "partial",
   "theorems": [
    "C50_children_refuted",
    "C50_never"
   ],
   "note": "REFUTED: no node passes its children, so Stats has no children for any query."
  },
  {
   "property": "C51",
   "status": "proved",
   "theorems": [
    "C51_succeeds",
    "C51_keys",
    "C51_counts",
    "C51_scalars"
   ],
   "note": "Documents without blanks around them, an object or an array without scalar elements, decodable names."
  },
  {
   "property": "C52",
   "status": "proved",
   "theorems": [
    "C52_order"
   ],
   "note": "For arbitrary byte strings, as long as no call fails."
  },
  {
   "property": "C53",
   "status": "partial",
   "theorems": [
    "C53_unlimited_refuted",
    "C53_records_nothing"
   ],
   "note": "REFUTED: with a negative depth nothing is recorded at all."
  },
  {
   "property": "C54",
   "status": "partial",
   "theorems": [
    "C54_no_panic_refuted",
    "C54_no_panic",
    "C54_scalar_elements"
   ],
   "note": "REFUTED: empty input, scalars directly in a top-level array, and any sample after an inner error panic. Proved: no panic for texts not starting with [ as long as no call failed before."
  },
  {
   "property": "C55",
   "status": "partial",
   "theorems": [
    "C55_error_keeps_keys_refuted",
    "C55_outer_errors",
    "C55_inner_errors"
   ],
   "note": "REFUTED: an error inside the document sets the map to nil: all keys are lost and the next sample panics. Errors seen from the first and last byte are harmless."
  },
  {
   "property": "C56",
   "status": "proved",
   "theorems": [
    "C56_exact",
    "C56_percent",
    "C56_antitone",
    "C56_all",
    "C56_bound_refuted"
   ],
   "note": "C56_bound_refuted shows that some bound on the number of documents is needed."
  },
  {
   "property": "C57",
   "status": "partial",
   "theorems": [
    "C57_share_of_documents_refuted"
   ],
   "note": "REFUTED: counts are per scalar; {\"a\":[1,2]} and {} put a at 100 percent. See C83 for what holds."
  },
  {
   "property": "C58",
   "status": "partial",
   "theorems": [
    "C58_reset_refuted",
    "C58_reset"
   ],
   "note": "REFUTED: after an inner error the nil map survives Reset. Proved when no call failed."
  },
  {
   "property": "C59",
   "status": "partial",
   "theorems": [
    "C59_array_refuted",
    "C59_dot_refuted",
    "C59_repeated_refuted",
    "C59_syntax_refuted"
   ],
   "note": "REFUTED in four ways. See C84 for what holds."
  },
  {
   "property": "C60",
   "status": "partial",
   "theorems": [
    "C60_window_refuted"
   ],
   "note": "REFUTED: the window ends one past the query when the highlight ends the query and is one shorter than the window. See C85."
  },
  {
   "property": "C61",
   "status": "partial",
   "theorems": [
    "C61_marker_refuted",
    "C61_long_refuted"
   ],
   "note": "REFUTED: byte offsets are used as code point offsets; carets are longer than the displayed text if the highlight is longer than the window. See C86."
  },
  {
   "property": "C62",
   "status": "partial",
   "theorems": [
    "C62_parts_refuted"
   ],
   "note": "REFUTED: a highlight longer than the window makes QueryPost panic. See C86."
  },
  {
   "property": "C63",
   "status": "partial",
   "theorems": [
    "C63_get_refuted"
   ],
   "note": "REFUTED: nothing is returned before the tenth addition. See C87."
  },
  {
   "property": "C64",
   "status": "proved",
   "theorems": [
    "C64_graph"
   ],
   "note": ""
  },
  {
   "property": "C65",
   "status": "partial",
   "theorems": [
    "C65_field_refuted",
    "C65_value_refuted"
   ],
   "note": "REFUTED: a field name or value containing an angle bracket is put into the markup of the label without escaping; the positive part is C89"
  },
  {
   "property": "C66",
   "status": "partial",
   "theorems": [
    "C66_field_string_refuted",
    "C66_field_string_other_refuted"
   ],
   "note": "REFUTED: names such as a:b are printed without quotes. See C71 for what holds."
  },
  {
   "property": "C67",
   "status": "partial",
   "theorems": [
    "C67_kind_refuted"
   ],
   "note": "REFUTED: a:1 and a:1.0 print the same; the positive part is C90"
  },
  {
   "property": "C68",
   "status": "partial",
   "theorems": [
    "C68_start_refuted",
    "C68_end_refuted"
   ],
   "note": "REFUTED: the empty input is marked from -1 to 0, and an unterminated string one past the end. See C91 for the bounds that hold."
  },
  {
   "property": "C69",
   "status": "proved",
   "theorems": [
    "C69_regex_body"
   ],
   "note": ""
  },
  {
   "property": "C70",
   "status": "proved",
   "theorems": [
    "C70_accepted_timestamps"
   ],
   "note": ""
  },
  {
   "property": "C71",
   "status": "proved",
   "theorems": [
    "C71_field_string"
   ],
   "note": ""
  },
  {
   "property": "C72",
   "status": "proved",
   "theorems": [
    "C72_match_returns",
    "C72_panics_exactly"
   ],
   "note": ""
  },
  {
   "property": "C73",
   "status": "proved",
   "theorems": [
    "C73_not_an_object"
   ],
   "note": ""
  },
  {
   "property": "C74",
   "status": "proved",
   "theorems": [
    "C74_rounded_comparison",
    "C74_exact_for_doubles",
    "C74_exact_integers",
    "C74_strict_is_exact"
   ],
   "note": "Uses the axioms of the Coq real numbers."
  },
  {
   "property": "C75",
   "status": "proved",
   "theorems": [
    "C75_time_line",
    "C75_between"
   ],
   "note": ""
  },
  {
   "property": "C76",
   "status": "proved",
   "theorems": [
    "C76_day"
   ],
   "note": ""
  },
  {
   "property": "C77",
   "status": "proved",
   "theorems": [
    "C77_decoding",
    "C77_member_by_text"
   ],
   "note": ""
  },
  {
   "property": "C78",
   "status": "proved",
   "theorems": [
    "C78_other_search"
   ],
   "note": "The language-aware search of x/text is an oracle."
  },
  {
   "property": "C79",
   "status": "proved",
   "theorems": [
    "C79_self"
   ],
   "note": ""
  },
  {
   "property": "C80",
   "status": "partial",
   "theorems": [
    "C80_lone_surrogate_refuted"
   ],
   "note": "REFUTED: the two characters after the first half are not looked at, so \\ud83dzzde00 is read as U+1F600."
  },
  {
   "property": "C81",
   "status": "proved",
   "theorems": [
    "C81_in_order"
   ],
   "note": ""
  },
  {
   "property": "C82",
   "status": "proved",
   "theorems": [
    "C82_same",
    "C82_meaning",
    "C82_layout",
    "C82_values"
   ],
   "note": "jsonparser is modelled from memory of v1.1.1; the model is part of the trusted base."
  },
  {
   "property": "C83",
   "status": "proved",
   "theorems": [
    "C83_share"
   ],
   "note": ""
  },
  {
   "property": "C84",
   "status": "proved",
   "theorems": [
    "C84_path_query",
    "C84_sampled_keys"
   ],
   "note": ""
  },
  {
   "property": "C85",
   "status": "proved",
   "theorems": [
    "C85_window",
    "C85_center",
    "C85_filled"
   ],
   "note": ""
  },
  {
   "property": "C86",
   "status": "proved",
   "theorems": [
    "C86_terminal",
    "C86_parts",
    "C86_positions"
   ],
   "note": ""
  },
  {
   "property": "C87",
   "status": "proved",
   "theorems": [
    "C87_get"
   ],
   "note": ""
  },
  {
   "property": "C88",
   "status": "partial",
   "theorems": [
    "C88_counts",
    "C88_thousandth",
    "C88_survives_refuted",
    "C88_marshal_refuted"
   ],
   "note": "REFUTED: the example lists are nil, so call number 1000 panics when given a string, number or object, and MarshalJson panics. Counts are proved exact for fewer than 1000 calls."
  },
  {
   "property": "C89",
   "status": "proved",
   "theorems": [
    "C89_label"
   ],
   "note": ""
  },
  {
   "property": "C90",
   "status": "proved",
   "theorems": [
    "C90_printed",
    "C90_formatter"
   ],
   "note": "the formatter of floats is an oracle with the documented properties, shown satisfiable by C90_formatter"
  },
  {
   "property": "C91",
   "status": "proved",
   "theorems": [
    "C91_error_range",
    "C91_message_range"
   ],
   "note": ""
  },
  {
   "property": "C92",
   "status": "partial",
   "theorems": [
    "C92_operator_refuted",
    "C92_value_refuted",
    "C92_tree_partial"
   ],
   "note": "REFUTED: encoding/json shows values as empty objects and AND and OR alike; everything else is determined (C92_tree_partial)."
  },
  {
   "property": "C93",
   "status": "proved",
   "theorems": [
    "C93_messages"
   ],
   "note": ""
  },
  {
   "property": "C94",
   "status": "proved",
   "theorems": [
    "C94_names"
   ],
   "note": "The name of every node of the matcher, after any sequence of Match calls; Stats itself shows the root only (see C50)."
  },
  {
   "property": "C95",
   "status": "partial",
   "theorems": [
    "C95_rejected_refuted",
    "C95_star_refuted",
    "C95_other_refuted",
    "C95_float_refuted",
    "C95_reads_back_partial",
    "C95_same_answers_partial"
   ],
   "note": "REFUTED: names of comparisons with control characters, wildcard-only paths or floats of 2^63 and more without a fraction are rejected, and a regular expression with escaped slashes gives a name that is another query. Proved: otherwise (faithfully printed path names, strings without escapes unknown to the grammar, floats with a fraction or in the range of the integers and not -0, expressions without slashes) the name is read back as the same comparison, with floats without a fraction read as integers, and gives the same answers."
  },
  {
   "property": "C96",
   "status": "proved",
   "theorems": [
    "C96_bound",
    "C96_polynomial",
    "C96_flat"
   ],
   "note": "The positive counterpart of C08: all exponential growth comes from parentheses. C132 sharpens this for accepted queries."
  },
  {
   "property": "C97",
   "status": "proved",
   "theorems": [
    "C97_document",
    "C97_depth",
    "C97_injective",
    "C97_html"
   ],
   "note": "encoding/json is modelled (string escaping, indentation, nesting limit); texts of accepted queries are UTF-8, see C98."
  },
  {
   "property": "C98",
   "status": "partial",
   "theorems": [
    "C98_page_refuted",
    "C98_page"
   ],
   "note": "REFUTED: encoding/json refuses to indent values nested more than 10000 deep, so for a chain of 10000 comparisons the page shows no tree but a message without position. Proved: the tree is shown exactly if the document has at most 10000 levels, which are counted on the query (C98_page)."
  },
  {
   "property": "C99",
   "status": "proved",
   "theorems": [
    "C99_answer",
    "C99_success",
    "C99_crash",
    "C99_streams",
    "C99_rejected",
    "C99_argument"
   ],
   "note": "Files and terminal are parameters (which name holds which bytes; the texts of messages). C99_answer asks that strconv.FormatFloat gives ASCII. The crash of C99_crash is the panic characterised in C72."
  }
 ]
}