# Formal model of `aql`: design

Everything lives in `rocq/theories` (logical name `Verif`, Coq 8.16.1). Build: `cd rocq; coq_makefile -f _CoqProject -o Makefile && make -j4`.

## Layers of the development

| files | contents |
|---|---|
| `Bytes`, `Utf8`, `GoStrconv`, `GoTime`, `GoNet`, `GoFloat`, `GoItoa`, `FormatFloat` | byte strings and the parts of the Go standard library that are used |
| `Oracles`, `TestOracle` | record of external behaviour left open; every theorem quantifies over it; one instance for examples |
| `PegSyntax`, `Grammar`, `Actions`, `Engine`, `Expected` | `internal/grammar/parser_gen.go`: types, grammar value (transcribed mechanically), action methods, PEG interpreter |
| `Ast`, `Validators`, `Visitors`, `ParseQuery` | `parser/ast/ast.go`, `parser/validators.go`, `parser/visitors.go`, `parser/message.go`, `parser/parser.go` |
| `Json`, `Values`, `StrMatch`, `Matcher`, `QueryMessages`, `Stats`, `FieldStats` | `jsonmatcher` on the tree of the document; statistics as shared memory with interleaved goroutines |
| `JsonParser`, `MatchBytes` | `buger/jsonparser` and `jsonmatcher/json_values.go` on bytes |
| `Sampler`, `Fmtmsg`, `Graph`, `Wasm`, `CmdTest`, `CmdGraph`, `Marshal` | `sampler`, `parser/fmtmsg`, `aqlgraph`, `wasm/aqlparse`, `cmd/aqltest`, `cmd/aqlgraph`; writing of JSON by `encoding/json` |
| `*Spec`, `Layout`, `MatchApi` | specifications, written without reference to helper functions of the model |
| `*Proofs*`, `CleanEval`, `Bridge`, `Lexer`, `GrammarFacts`, `EngineBasics`, `EnginePositions`, `ParserTop`, `MatcherTop`, `SimpleQuery`, `Viable*`, `Listed` | lemmas |
| `Prop_*` | the property theorems with `Print Assumptions` and concrete `Example`s |
| `Conformance` | the test cases of the repository evaluated on the model (tests of the model, not claims) |

Model files contain total computable functions. Run-time panics and errors are explicit result values. Unbounded
recursion of the Go code is modelled with a fuel argument; running out of fuel is a separate result value, proved not
to occur for the fuel supplied.


## Properties

For each property: its title, the verdict, how it is modelled and proved, the theorems with their file, and remarks. Statements are in `properties.jsonl`.
Theorems marked † depend on the axioms of the real numbers (see the trusted base); all others are closed under the global context.

### C01 Parsing always finishes and is total — proved

`ParseQuery.parse_query` runs the model of the generated parser (`Engine.v`) with a fuel computed from the input length; running out of fuel is a separate result. Proof (`EngineBasics`, `EnginePositions`): the grammar has no left recursion and no repetition of an expression that can succeed on nothing (checked by computation on the grammar value), so rank plus remaining input bounds the depth. The statement excludes the out-of-fuel result and says the result is a tree or an error, for arbitrary visitors.

Theorems: `Prop_Parser.C01_total`.

Remarks: Arbitrary visitors; the fuel of the model is never exhausted.

### C02 Rejected queries never report an internal panic — proved

The recovered-panic error is an explicit error kind of the model. Proof: typing invariant of the engine (each label is bound to a value of the kind its action asserts).

Theorems: `Prop_Grammar.C02_no_panic_text`.

### C03 ParseQuery accepts exactly the documented language and builds the documented tree — proved

`GrammarSpec.query` is a context-free grammar relation between code points, positions and trees, not a PEG. Soundness and completeness of the engine against it go through `CleanEval` (evaluator on code points), `Bridge` (engine = evaluator while no error is recorded), recognisers (`Lexer`), and one file per grammar layer. Uniqueness of the tree is a separate theorem.

Theorems: `Prop_Grammar.C03_language`, `Prop_Grammar.C03_unambiguous`.

Remarks: Acceptance with a tree iff derivable in the written grammar and checked; the tree is unique.

### C04 Rendering a query tree and parsing it gives the tree back — proved

`Layout.render` writes a tree with parentheses only where precedence needs them (specification). Corollary of C03 through `LayoutProofs.derives` for rendered texts.

Theorems: `Prop_Layout.C04_roundtrip`.

Remarks: Any tree of well-formed tokens; parentheses only where needed.

### C05 Whitespace between tokens is irrelevant — proved

`Layout.layout` relates a token list to its texts with arbitrary white space. Any two layouts of the same tokens have the same verdict and the same tree up to positions.

Theorems: `Prop_Layout.C05_accepted`, `Prop_Layout.C05_same_verdict`.

### C06 Reported source positions are exact — proved

Positions in `GrammarSpec` are computed from the whole text (`pos_of`: line and column counted from the start), not incrementally as in the engine.

Theorems: `Prop_Grammar.C06_comparison_positions`, `Prop_Grammar.C06_literal_positions`, `Prop_Grammar.C06_offset`.

### C07 Error positions lie inside the query — proved

Invariant of the engine: every recorded position is the position of a prefix of the input (`EnginePositions`).

Theorems: `Prop_Parser.C07_error_positions`.

Remarks: Offset inside the query, line number exact up to a line feed at the offset.

### C08 Parsing cost is bounded by a polynomial in the query length — refuted as stated

`ExprCnt` is modelled. Lower bound by induction on the number of parentheses: the alternatives of OrClause, AndClause, NotClause and Comparison each re-parse the group.

Theorems: `Prop_Cost.C08_nested_parentheses`, `Prop_Cost.C08_polynomial_refuted`.

Remarks: REFUTED: n nested pairs of parentheses cost at least 4^n expression evaluations. See C96 for what holds, C130 for the option Memoize.

### C09 Integer literals denote exactly their decimal value — proved

`strconv.ParseInt` is modelled; the specification is the positional value of the digit string.

Theorems: `Prop_Literals.C09_integer_literal`, `Prop_Literals.C09_integer_value`, `Prop_Literals.C09_integer_range`.

### C10 Quoted strings can express every Unicode text — proved

`strconv.Unquote` is modelled; the specification is a denotation of escapes (`LiteralSpec`). For every text an explicit literal is constructed.

Theorems: `Prop_Literals.C10_string_literal`, `Prop_Literals.C10_every_text`, `Prop_Literals.C10_every_field_name`, `Prop_Literals.C10_never_rejected`.

Remarks: The field name * is excluded: a quoted star is dropped like an unquoted one (see C15).

### C11 Regular-expression literals keep their body — refuted as stated

Two concrete queries.

Theorems: `Prop_Literals.C11_regex_body_refuted`, `Prop_Literals.C11_edge_slash_refuted`.

Remarks: REFUTED: a body ending in an escaped backslash loses a backslash; escaped slashes at either end are stripped. See C69 for what holds.

### C12 Date and timestamp literals denote the right instant — proved

`time.Parse` is modelled for the two layouts; the specification counts days one by one in a Gregorian calendar (`LiteralSpec`).

Theorems: `Prop_Literals.C12_date_literal`, `Prop_Literals.C12_timestamp_literal`, `Prop_Literals.C12_day_number_unique`, `Prop_Literals.C12_date_accepted`.

### C13 Every timestamp form the grammar admits can be used — refuted as stated

Concrete query `2020-01-01t00:00:00Z`.

Theorems: `Prop_Literals.C13_timestamp_forms_refuted`.

Remarks: REFUTED: lower-case t is in the grammar but rejected by time.Parse. See C70 for the accepted forms.

### C14 Invalid UTF-8 is never accepted — proved

Corollary of C03: an accepted query is the encoding of a list of scalar values.

Theorems: `Prop_Grammar.C14_invalid_utf8`.

### C15 Star path segments are ignored — partial

Model of `removeStars`; the insertion theorem works on the text of the query, not on the helper.

Theorems: `Prop_Paths.C15_star_segments`, `Prop_Paths.C15_quoted_star_refuted`, `Prop_Paths.C15_quoted_segments_partial`.

Remarks: First half proved. REFUTED second half: a quoted star is dropped too; other quoted segments are kept.

### C16 Operators only ever receive the argument kinds and counts they support — proved

Every validator of `validators.go` is modelled; `AstSpec` has a case table per operator.

Theorems: `Prop_Validators.C16_accepted_arguments`, `Prop_Validators.C16_checks_complete`.

Remarks: Both directions: accepted trees satisfy the argument rules; trees satisfying the rules pass the checks.

### C17 Value lists have no duplicates — refuted as stated

Concrete query for the refutation; the positive parts are invariants of the duplicate check lifted to accepted trees. For C17_values: numbers without leading zeros are written in one way, so the same integer or network has one printed text; a double is printed from its value.

Theorems: `Prop_Validators.C17_distinct_printed`, `Prop_Distinct.C17_values`†, `Prop_Validators.C17_no_conflicting_booleans`, `Prop_Validators.C17_duplicate_value_refuted`, `Prop_Distinct.C17_zero_refuted`, `Prop_Distinct.C17_zone_refuted`, `Prop_Distinct.C17_length_refuted`.

Remarks: REFUTED as stated (a:(1,01) is accepted): duplicates are detected by printed text; so also a:(0,-0), an instant written in two zones, and, where Go reads it, a prefix length with a leading zero. Proved: distinct printed texts; no string, boolean, double, integer written without leading zeros, or network (with the current netip) occurs twice (C17_values); no true/false pair in an equality list.

### C18 Accepted ranges are non-empty and of one kind — refuted as stated

Concrete query for the refutation; the positive part case-splits on the kinds of both ends.

Theorems: `Prop_Validators.C18_range_partial`, `Prop_Validators.C18_mixed_range_refuted`.

Remarks: REFUTED as stated: a negative number with a timestamp is accepted. Otherwise both ends are of one kind and increasing.

### C19 Visitors see every node once, in pre-order — proved

Visitors are arbitrary functions on an arbitrary state type. The specification is the pre-order list of nodes with skipped subtrees removed (`AstSpec`).

Theorems: `Prop_Visitors.C19_walk`, `Prop_Visitors.C19_every_node_once`, `Prop_Visitors.C19_parse_query`.

Remarks: Arbitrary stateful visitors.

### C20 Errors on the message tape reject the query — refuted as stated

Concrete visitor for the refutation, and the theorem that the tape never matters for any visitor.

Theorems: `Prop_Visitors.C20_tape_error_refuted`, `Prop_Visitors.C20_tape_never_rejects`.

Remarks: REFUTED: addMsg tests firstErr != nil before setting it, so tape errors are never returned.

### C21 Hints and warnings never affect acceptance — proved

`query_messages.go` is modelled with the regexp syntax tree as an oracle. `MessageSpec` lists the messages of a value as a table; the theorem says the list of messages is the concatenation in text order.

Theorems: `Prop_Match.C21_accepts`, `Prop_Match.C21_same_error`, `Prop_Messages.C21_messages`, `Prop_Messages.C21_text_order`.

### C22 NewMatcher never panics — proved

Panics of the builder are explicit results; an accepted tree never reaches them (uses C16).

Theorems: `Prop_Match.C22_no_panic`.

### C23 Match never panics — refuted as stated

Concrete queries and documents.

Theorems: `Prop_Match.C23_star_path_refuted`, `Prop_Match.C23_empty_segment_refuted`.

Remarks: REFUTED: a field of stars only, or an empty first segment, makes Match panic. See C72 for when it returns.

### C24 Boolean connectives mean what they say — proved

`MatchSpec` defines satisfaction of a query by a document tree without reference to the matcher. `MatchProofs` proves the model decides it.

Theorems: `Prop_Match.C24_meaning`, `Prop_Match.C24_and`, `Prop_Match.C24_or`, `Prop_Match.C24_not`, `Prop_Match.C24_laws`.

Remarks: For documents on which the paths are safe (C72).

### C25 Matching has no memory — proved

Histories of calls as a relation `after`; concurrent histories in `Stats.v`.

Theorems: `Prop_Match.C25_no_memory`, `Prop_Match.C25_one_answer`, `Prop_Stats.C48_results`.

Remarks: Sequential histories: C25_*; concurrent ones, with Stats calls: C48_results.

### C26 Field paths resolve as documented — refuted as stated

`MatchSpec.resolves` is an inductive path relation on JSON trees; `Values.get_values` models `getValues` on top of jsonparser.

Theorems: `Prop_Match.C26_paths`, `Prop_Match.C26_member`, `Prop_Match.C26_hidden_member_refuted`.

Remarks: REFUTED in one corner: a member name that cannot be decoded (lone surrogate escape) hides the members after it. Otherwise resolution is exactly as stated (the first member of a name counts), for paths without index-like segments.

### C27 exists holds exactly when the path resolves — proved

From C24/C26 for single comparisons.

Theorems: `Prop_Match.C27_exists`.

### C28 null holds exactly when every resolution is null — proved

As C27.

Theorems: `Prop_Match.C28_null`, `Prop_Match.C28_null_exists`.

### C29 Value tests look at every scalar the path reaches — proved

As C27, with the inductive relation of tested scalars.

Theorems: `Prop_Match.C29_scalars`.

### C30 An equality set is the OR of its members — proved

On queries, for every value list the language admits.

Theorems: `Prop_Match.C30_set_is_or`.

### C31 The similarity operator is equality — proved

On queries: the two texts differ in the operator only.

Theorems: `Prop_Match.C31_similar_is_equal`.

### C32 Numeric comparison is by numeric value — refuted as stated

Concrete query and document.

Theorems: `Prop_Numbers.C32_exact_comparison_refuted`.

Remarks: REFUTED: 9007199254740993 equals 9007199254740992. See C74 for what holds.

### C33 The ordering operators are mutually consistent — proved

`GoFloat` is binary64 by Coq's SpecFloat, ParseFloat by exact rational rounding. Trichotomy for non-NaN values.

Theorems: `Prop_Numbers.C33_consistent`†, `Prop_Numbers.C33_not_a_number`†.

### C34 Between is an inclusive range test — proved

As C33, for numbers and timestamps.

Theorems: `Prop_Numbers.C34_inclusive`†, `Prop_Numbers.C34_is_conjunction`, `Prop_Match.C29_scalars`.

Remarks: Ends of different kinds: see C18.

### C35 Between excludes its end points — refuted as stated

Concrete query and document.

Theorems: `Prop_Numbers.C35_exclusive_refuted`.

Remarks: REFUTED: the ends are included (C34).

### C36 Boolean equality is strict — proved

From C29.

Theorems: `Prop_Match.C36_bool`, `Prop_Match.C36_exclusive`.

### C37 Timestamp comparisons follow the time line — refuted as stated

Concrete query and document.

Theorems: `Prop_Dates.C37_time_line_refuted`.

Remarks: REFUTED: UnixNano wraps outside 1677-2262, so 1500-01-01 is found to be after 2020-01-01. See C75.

### C38 A date matches the whole UTC day — refuted as stated

Concrete query and document.

Theorems: `Prop_Dates.C38_day_refuted`.

Remarks: REFUTED: the end of 2262-04-11 overflows. See C76.

### C39 Network equality is set intersection — proved

`GoNet` models `netip.ParseAddr`/`ParsePrefix`; the address pattern of `expr_net.go` is modelled as a leftmost-first scanner. The specification is the existence of a common 32-bit address.

Theorems: `Prop_Nets.C39_literal`, `Prop_Nets.C39_accepted`, `Prop_Nets.C39_intersection`, `Prop_Nets.C39_pair`, `Prop_Nets.C39_symmetric`, `Prop_Nets.C39_plain_address`.

### C40 Malformed addresses never match and never fail — proved

A text made of separated parts: malformed parts contribute nothing, the others are found.

Theorems: `Prop_Nets.C40_malformed`, `Prop_Nets.C40_never_match`, `Prop_Nets.C40_other_candidates`.

### C41 Every string can be searched for — proved

The generated pattern is modelled as an abstract syntax of the fragment produced; compilation is total on it.

Theorems: `Prop_Strings.C41_compiles`, `Prop_Strings.C41_matcher`, `Prop_Strings.C41_metacharacters`, `Prop_Strings.C42_search`, `Prop_Strings.C78_other_search`.

Remarks: C41_metacharacters: ASCII literals without wildcards. Literals with wildcards and literals outside ASCII: C42_search and C78_other_search, where every character but ? and * stands for itself.

### C42 String equality is a case-insensitive whole-word search with ? and * — proved

`MatchSpec` defines the word-boundary search directly on texts. ASCII case folding plus the two non-ASCII letters that fold to ASCII are explicit.

Theorems: `Prop_Strings.C42_search`, `Prop_Strings.C42_one_pattern`, `Prop_Strings.C42_letters`.

### C43 A string equals itself — refuted as stated

Concrete strings.

Theorems: `Prop_Strings.C43_self_refuted`, `Prop_Strings.C43_readme_refuted`.

Remarks: REFUTED: a string that does not start and end with a word character does not equal itself, e.g. the README example here!. See C79.

### C44 Invalid JSON is an error and leaves no trace — proved

`Json.parse_json` models `json.Valid` and also returns a tree; `JsonSpec` is RFC 8259 as an inductive grammar; they are proved equivalent.

Theorems: `Prop_Match.C44_invalid`, `Prop_Match.C44_valid`.

### C45 Only the named top-level members matter — proved

From C24: the satisfaction relation only depends on named members.

Theorems: `Prop_Match.C45_named_members`.

### C46 Top-level arrays are traversed like nested ones — refuted as stated

Concrete document.

Theorems: `Prop_Match.C46_top_level_array_refuted`.

Remarks: REFUTED: nothing is found in a document whose root is an array. See C73.

### C47 Statistics count evaluations exactly — proved

Counters are part of the model of nodes. `StatsSpec.tally` is an inductive evaluation trace of the query.

Theorems: `Prop_Stats.C47_counts`, `Prop_Stats.C47_tally_unique`, `Prop_Stats.C47_root`.

### C48 Concurrent matching loses no statistics — proved

`Stats.v`: calls are lists of atomic increments and loads, interleaved by an arbitrary scheduler. Commutation of increments.

Theorems: `Prop_Stats.C48_no_loss`, `Prop_Stats.C48_results`, `Prop_Stats.C48_progress`.

Remarks: Calls that panic (see C72) are excluded: they end the program. Evaluation reads no shared mutable data, so the steps of a call are fixed beforehand in the model.

### C49 Statistics snapshots are consistent — refuted as stated

Concrete schedule: load checked, complete a Match, load matched. The loaded values are labelled with their counter.

Theorems: `Prop_Stats.C49_snapshot_refuted`.

Remarks: REFUTED: Stats loads the checked counter first; a Match finishing between the two loads is counted as matched only. See C81 for the counters themselves.

### C50 Stats() returns the whole tree — refuted as stated

Concrete query, and the theorem that it holds of every query.

Theorems: `Prop_Stats.C50_children_refuted`, `Prop_Stats.C50_never`.

Remarks: REFUTED: no node passes its children, so Stats has no children for any query.

### C51 Sampled keys are exactly the scalar paths — proved

`Sampler.v` on the byte-level `JsonParser.v`; `SamplerSpec.leads` is an inductive relation on JSON trees.

Theorems: `Prop_Sampler.C51_succeeds`, `Prop_Sampler.C51_keys`, `Prop_Sampler.C51_counts`, `Prop_Sampler.C51_scalars`.

Remarks: Documents without blanks around them, an object or an array without scalar elements, decodable names.

### C52 The order of samples is irrelevant — proved

Sampling adds a multiset of keys that does not depend on the state.

Theorems: `Prop_Sampler.C52_order`.

Remarks: For arbitrary byte strings, as long as no call fails.

### C53 A negative depth means no limit — refuted as stated

Concrete sample, and the general theorem that nothing is recorded.

Theorems: `Prop_Sampler.C53_unlimited_refuted`, `Prop_Sampler.C53_records_nothing`.

Remarks: REFUTED: with a negative depth nothing is recorded at all.

### C54 Sample never panics — refuted as stated

Panics are explicit results; concrete byte strings for the refutation.

Theorems: `Prop_Sampler.C54_no_panic_refuted`, `Prop_Sampler.C54_no_panic`, `Prop_Sampler.C54_scalar_elements`.

Remarks: REFUTED: empty input, scalars directly in a top-level array, and any sample after an inner error panic. Proved: no panic for texts not starting with [ as long as no call failed before.

### C55 A failed Sample does not destroy earlier results — refuted as stated

As C54.

Theorems: `Prop_Sampler.C55_error_keeps_keys_refuted`, `Prop_Sampler.C55_outer_errors`, `Prop_Sampler.C55_inner_errors`.

Remarks: REFUTED: an error inside the document sets the map to nil: all keys are lost and the next sample panics. Errors seen from the first and last byte are harmless.

### C56 The threshold comparison is exact — proved

Rounding analysis with Flocq: the double quotient times 100 is compared exactly as long as t times the number of documents is below 2^52 (for percentages: fewer than 2^45 documents); a counterexample shows a bound is needed.

Theorems: `Prop_Threshold.C56_exact`†, `Prop_Threshold.C56_percent`†, `Prop_Threshold.C56_antitone`†, `Prop_Threshold.C56_all`†, `Prop_Threshold.C56_bound_refuted`.

Remarks: C56_bound_refuted shows that some bound on the number of documents is needed.

### C57 The threshold is a share of documents — refuted as stated

Concrete documents.

Theorems: `Prop_Sampler.C57_share_of_documents_refuted`.

Remarks: REFUTED: counts are per scalar; {"a":[1,2]} and {} put a at 100 percent. See C83 for what holds.

### C58 Reset restores the initial state — refuted as stated

Concrete sequence of calls, and the theorem without failed calls.

Theorems: `Prop_Sampler.C58_reset_refuted`, `Prop_Sampler.C58_reset`.

Remarks: REFUTED: after an inner error the nil map survives Reset. Proved when no call failed.

### C59 Sampled keys work as query fields — refuted as stated

Four concrete documents.

Theorems: `Prop_SampledKeys.C59_array_refuted`, `Prop_SampledKeys.C59_dot_refuted`, `Prop_SampledKeys.C59_repeated_refuted`, `Prop_SampledKeys.C59_syntax_refuted`.

Remarks: REFUTED in four ways. See C84 for what holds.

### C60 The display window is a valid slice — refuted as stated

`Fmtmsg.v` models `truncate.go` with integers; slices are checked.

Theorems: `Prop_Fmt.C60_window_refuted`.

Remarks: REFUTED: the window ends one past the query when the highlight ends the query and is one shorter than the window. See C85.

### C61 The marker line points at the right text — refuted as stated

Concrete messages.

Theorems: `Prop_Fmt.C61_marker_refuted`, `Prop_Fmt.C61_long_refuted`.

Remarks: REFUTED: byte offsets are used as code point offsets; carets are longer than the displayed text if the highlight is longer than the window. See C86.

### C62 Pre, highlight and post parts concatenate to the displayed query — refuted as stated

Concrete message.

Theorems: `Prop_Fmt.C62_parts_refuted`.

Remarks: REFUTED: a highlight longer than the window makes QueryPost panic. See C86.

### C63 Example lists return the stored examples — refuted as stated

Concrete list.

Theorems: `Prop_FieldStats.C63_get_refuted`.

Remarks: REFUTED: nothing is returned before the tenth addition. See C87.

### C64 The query graph mirrors the query — proved

`Graph.v` records created nodes and edges; `GraphSpec` describes a drawing by places in the tree.

Theorems: `Prop_Graph.C64_graph`.

### C65 Graph labels are well-formed markup — refuted as stated

Concrete queries; `GraphSpec.markup` is a small grammar of well-formed markup.

Theorems: `Prop_Graph.C65_field_refuted`, `Prop_Graph.C65_value_refuted`.

Remarks: REFUTED: a field name or value containing an angle bracket is put into the markup of the label without escaping; the positive part is C89

### C66 Printed field paths can be parsed back — refuted as stated

Concrete queries.

Theorems: `Prop_Paths.C66_field_string_refuted`, `Prop_Paths.C66_field_string_other_refuted`.

Remarks: REFUTED: names such as a:b are printed without quotes. See C71 for what holds.

### C67 Printed value lists distinguish values — refuted as stated

Concrete query.

Theorems: `Prop_Printed.C67_kind_refuted`.

Remarks: REFUTED: a:1 and a:1.0 print the same; the positive part is C90

### C68 The web front end marks a position inside the input — refuted as stated

Concrete inputs; `Wasm.v` models `errConvert`.

Theorems: `Prop_Wasm.C68_start_refuted`, `Prop_Wasm.C68_end_refuted`.

Remarks: REFUTED: the empty input is marked from -1 to 0, and an unterminated string one past the end. See C91 for the bounds that hold.

### C69 Regular-expression literals keep their body away from the delimiters — proved

`LiteralSpec` describes the body by an inductive reading; the model follows `strings.Trim` and the replacements.

Theorems: `Prop_Literals.C69_regex_body`.

### C70 Accepted timestamp forms — proved

Both directions, for every literal of the timestamp grammar.

Theorems: `Prop_Literals.C70_accepted_timestamps`.

### C71 Printed field paths of ordinary names can be parsed back — proved

Model of `strconv.Quote` with an oracle for IsPrint; `QuoteProofs`, `PathProofs`.

Theorems: `Prop_Paths.C71_field_string`.

### C72 Match returns normally unless a path is empty or starts with an empty segment — proved

Exact characterisation for single comparisons, sufficient condition for all queries.

Theorems: `Prop_Match.C72_match_returns`, `Prop_Match.C72_panics_exactly`.

### C73 Nothing is found in a document that is not an object — proved

From the path relation.

Theorems: `Prop_Match.C73_not_an_object`.

### C74 Numeric comparison is by nearest double — proved

Nearest doubles are characterised by `NumSpec.nearest` over the rationals/reals, proved through Flocq.

Theorems: `Prop_Numbers.C74_rounded_comparison`†, `Prop_Numbers.C74_exact_for_doubles`†, `Prop_Numbers.C74_exact_integers`†, `Prop_Numbers.C74_strict_is_exact`†.

Remarks: Uses the axioms of the Coq real numbers.

### C75 Timestamp comparisons follow the time line near 1970 — proved

64-bit wrap of UnixNano is modelled; no wrap under the hypothesis.

Theorems: `Prop_Dates.C75_time_line`, `Prop_Dates.C75_between`.

### C76 A date matches its whole UTC day near 1970 — proved

As C75.

Theorems: `Prop_Dates.C76_day`.

### C77 JSON strings and names are compared by their decoded text — proved

`DecodeSpec` is RFC 8259 section 7; `Values.unescape` models jsonparser's Unescape.

Theorems: `Prop_Decode.C77_decoding`, `Prop_Decode.C77_member_by_text`.

### C78 Literals outside ASCII are searched for without word boundaries when they contain wildcards — proved

x/text search is an oracle.

Theorems: `Prop_Strings.C78_other_search`.

Remarks: The language-aware search of x/text is an oracle.

### C79 Which strings equal themselves — proved

From C42.

Theorems: `Prop_Strings.C79_self`.

### C80 Only surrogate escapes are joined to a surrogate escape — refuted as stated

Concrete string.

Theorems: `Prop_Decode.C80_lone_surrogate_refuted`.

Remarks: REFUTED: the two characters after the first half are not looked at, so \ud83dzzde00 is read as U+1F600.

### C81 At every moment matched does not exceed checked — proved

Invariant of the interleaving semantics.

Theorems: `Prop_Stats.C81_in_order`.

### C82 Byte scanning finds what the document says — proved

`JsonParser.v` and `MatchBytes.v` scan bytes with offsets; proved equal to the tree model on valid JSON.

Theorems: `Prop_MatchBytes.C82_same`, `Prop_MatchBytes.C82_meaning`, `Prop_MatchBytes.C82_layout`, `Prop_MatchBytes.C82_values`.

Remarks: jsonparser is modelled from memory of v1.1.1; the model is part of the trusted base.

### C83 Threshold as a share of documents when paths do not repeat — proved

From C51 and C56.

Theorems: `Prop_Threshold.C83_share`†.

### C84 Sampled keys of ordinary documents work as query fields — proved

From C51, C71 and C27.

Theorems: `Prop_SampledKeys.C84_path_query`, `Prop_SampledKeys.C84_sampled_keys`.

### C85 The display window, apart from one case — proved

Linear arithmetic on the model of the window.

Theorems: `Prop_Fmt.C85_window`, `Prop_Fmt.C85_center`, `Prop_Fmt.C85_filled`.

### C86 Printed messages mark the right text when it is preceded by ASCII — proved

Rendered text of the terminal template is modelled.

Theorems: `Prop_Fmt.C86_terminal`, `Prop_Fmt.C86_parts`, `Prop_Fmt.C86_positions`.

### C87 What example lists return — proved

Ring buffer model.

Theorems: `Prop_FieldStats.C87_get`.

### C88 Field statistics are exact and survive any number of samples — refuted as stated

Counts by the headings under which they are reported; concrete sequences for the refutations.

Theorems: `Prop_FieldStats.C88_counts`, `Prop_FieldStats.C88_thousandth`, `Prop_FieldStats.C88_survives_refuted`, `Prop_FieldStats.C88_marshal_refuted`.

Remarks: REFUTED: the example lists are nil, so call number 1000 panics when given a string, number or object, and MarshalJson panics. Counts are proved exact for fewer than 1000 calls.

### C89 Graph labels show field, operator and values — proved

From the markup grammar of C65.

Theorems: `Prop_Graph.C89_label`.

### C90 Printed values determine the value up to integer and float — proved

Any formatter with the documented properties (oracle); one is constructed.

Theorems: `Prop_Printed.C90_printed`†, `Prop_Printed.C90_formatter`†.

Remarks: the formatter of floats is an oracle with the documented properties, shown satisfiable by C90_formatter

### C91 Web markers stay within one place of the input — proved

From the positions of C06/C07 plus which errors the grammar records.

Theorems: `Prop_Wasm.C91_error_range`, `Prop_Wasm.C91_message_range`.

### C92 The tree shown on the web page determines the query — refuted as stated

The page shows a projection of the tree.

Theorems: `Prop_Wasm.C92_operator_refuted`, `Prop_Wasm.C92_value_refuted`, `Prop_Wasm.C92_tree_partial`.

Remarks: REFUTED: encoding/json shows values as empty objects and AND and OR alike; everything else is determined (C92_tree_partial).

### C93 Messages of the web page — proved

As C21 for `warnings.go`.

Theorems: `Prop_Wasm.C93_messages`.

### C94 Statistics name every node by its connective or comparison — proved

`friendly_string` follows ast.go; the specification spells the name out.

Theorems: `Prop_Friendly.C94_names`.

Remarks: The name of every node of the matcher, after any sequence of Match calls; Stats itself shows the root only (see C50).

### C95 The name of a comparison can be used as a query — refuted as stated

Concrete queries; the positive part reparses the printed name with C03 and uses Flocq for floats.

Theorems: `Prop_Friendly.C95_rejected_refuted`, `Prop_Friendly.C95_star_refuted`, `Prop_Friendly.C95_other_refuted`, `Prop_Friendly.C95_float_refuted`, `Prop_Friendly.C95_reads_back_partial`†, `Prop_Friendly.C95_same_answers_partial`†.

Remarks: REFUTED: names of comparisons with control characters, wildcard-only paths or floats of 2^63 and more without a fraction are rejected, and a regular expression with escaped slashes gives a name that is another query. Proved: otherwise (faithfully printed path names, strings without escapes unknown to the grammar, floats with a fraction or in the range of the integers and not -0, expressions without slashes) the name is read back as the same comparison, with floats without a fraction read as integers, and gives the same answers.

### C96 Parsing cost is polynomial when the number of parentheses is bounded — proved

Static analysis of the grammar (`CostUpper.poly`, proved sound) gives a polynomial per token rule; the four clause rules are bounded by induction on fuel, length and the number of opening parentheses left.

Theorems: `Prop_Cost.C96_bound`, `Prop_Cost.C96_polynomial`, `Prop_Cost.C96_flat`.

Remarks: The positive counterpart of C08: all exponential growth comes from parentheses. C132 sharpens this for accepted queries.

### C97 Written JSON is valid and faithful — proved

The two passes of encoding/json (compact text, then Indent with its scanner) are shown to give one directly defined layout, which is read back with the JSON grammar of C23.

Theorems: `Prop_Marshal.C97_document`, `Prop_Marshal.C97_depth`, `Prop_Marshal.C97_injective`, `Prop_Marshal.C97_html`.

Remarks: encoding/json is modelled (string escaping, indentation, nesting limit); texts of accepted queries are UTF-8, see C98.

### C98 The web page shows the tree of every accepted query — refuted as stated

A chain of comparisons of any length is accepted and its tree is as deep as it is long; texts of accepted queries are UTF-8. The levels of the document are counted on the query by `nested_levels`.

Theorems: `Prop_Marshal.C98_page_refuted`, `Prop_Marshal.C98_page`.

Remarks: REFUTED: encoding/json refuses to indent values nested more than 10000 deep, so for a chain of 10000 comparisons the page shows no tree but a message without position. Proved: the tree is shown exactly if the document has at most 10000 levels, which are counted on the query (C98_page).

### C99 The program aqltest reports what the matcher answers — proved

All outcomes of the program in turn, from C21, C72 and the printing of messages (C60); the statistics go through C97.

Theorems: `Prop_Cmd.C99_answer`, `Prop_Cmd.C99_success`, `Prop_Cmd.C99_crash`, `Prop_Cmd.C99_streams`, `Prop_Cmd.C99_rejected`, `Prop_Cmd.C99_argument`.

Remarks: Files and terminal are parameters (which name holds which bytes; the texts of messages). C99_answer asks that strconv.FormatFloat gives ASCII. The crash of C99_crash is the panic characterised in C72.

### C100 The program aqlgraph writes the kind of file its name asks for — proved

The extension of a name is characterised by its end; lower-casing through UTF-8 is compared with ASCII lower-casing.

Theorems: `Prop_CmdGraph.C100_written`, `Prop_CmdGraph.C100_refused`, `Prop_CmdGraph.C100_usage`.

Remarks: Writing the file is graphviz; the model says what is written where. Asks that no character outside ASCII has a letter of svg or dot as its lower case (true of Unicode).

### C101 The web page calls a query incomplete exactly if more text could complete it — refuted as stated

Two inputs that no oracle influences; that no query begins with a closing parenthesis follows from C102_form.

Theorems: `Prop_Viable.C101_hopeless_refuted`, `Prop_Viable.C101_beginning_refuted`.

Remarks: REFUTED in both directions: a closing parenthesis is called an incomplete query although no query begins with it; a:(1 and an unfinished string are not called incomplete although they can be completed. What the reported place tells is C102.

### C102 A syntax error is never reported behind the first mistake — proved

The grammar is read as a context-free grammar (`Viable.L`, ordered choice and look-ahead forgotten). Induction on the fuel of the parser: if everything read so far can be continued, the farthest failure and the first recorded error lie behind a text that can be continued. Side conditions (every part of a sequence has a word, look-aheads look at one character) are computed. The context-free language is then compared with `ShapeSpec.query_form`.

Theorems: `Prop_Viable.C102_place`, `Prop_Viable.C102_form`.

Remarks: Errors about the encoding are left out: the parser may have looked ahead past the mistake when it meets them.

### C103 Documents that say the same get the same answer — proved

`OrderSpec.alike` relates the documents; by induction on the resolution of a path every value reached in one document has a counterpart in the other, then C24.

Theorems: `Prop_Order.C103_order`.

Remarks: C103_needed shows by examples that each restriction is needed.

### C104 The operator checks blame the first comparison at fault — proved

`BlameSpec.blamed` says which value of a comparison is refused for what; each check is characterised separately, the tree walk returns the first refusal in the list of comparisons, and the grammar guarantees the number of values of exists, null, equality and similarity.

Theorems: `Prop_Blame.C104_blame`, `Prop_Blame.C104_syntax`, `Prop_Blame.C104_place`.

Remarks: Messages are kinds (verr) with the arguments of the format; the wording is in Texts.v (C116).

### C105 What a syntax error says was expected can be followed — refuted as stated

The invariant of C102 (the furthest failure position is behind a text that can still become a query) is extended: every string in the list of failed terminals is the spelling of a terminal each of whose texts keeps the query completable. Look-aheads (the inverted classes and the end of the text) are handled apart: `Listed.v` shows that their own spellings never are in the list when the parse fails without another error. `ExpectedSpec.stands_for` states independently which texts an entry denotes.

Theorems: `Prop_Expected.C105_suggestions`, `Prop_Expected.C105_order`, `Prop_Expected.C105_text`, `Prop_Expected.C105_anything_refuted`.

Remarks: REFUTED for one entry: the fallback class [^ \n\t\r] is listed wherever a value may begin although most of its characters cannot follow (C105_anything_refuted). Proved for all other entries (C105_suggestions, C105_order). Form means ShapeSpec.query_form: whether values convert and pass the operator checks is a matter of other properties.

### C106 The list of what was expected leaves nothing out — proved

`Complete.v` runs the parser on the rejected text and the grammar semantics of `CleanEval` on the other one side by side. As long as both are before the place they read the same characters. At the place, an attempt that fails in the first run is in the list; if the second run could succeed there its text begins with that entry. Beyond the place the first run cannot fail (`traced`: every failure leaves an entry at least as far as where the attempt began), so it cannot be beyond the place at all when the parse ends in failure.

Theorems: `Prop_Complete.C106_complete`.

Remarks: ExpectedSpec.stands_for is the independent reading of the entries; the fallback class stands for any character but white space. The exception for keywords is part of the statement. Query means GrammarSpec.query with any oracle.

### C107 A query with an error before its end cannot be completed by typing on — proved

The same simulation with the dividing line behind the reported place: then the list plays no role, since its entries belong to an earlier place.

Theorems: `Prop_Complete.C107_no_repair`.

Remarks: The exception occurs: C107_keyword completes a query ending in AN.

### C108 The printed form of a tree determines the tree — refuted as stated

`Prop_TreeText.v` reads the text from the left: the operator ends at the first blank, a field ends before a blank or before the closing parentheses at the end (the number of open parentheses is known to both sides, so a parenthesis inside a name does no harm), a value ends before a comma or bracket that no unquoted value contains. Values with the same text are the same by C90.

Theorems: `Prop_TreeText.C108_printed_tree`†, `Prop_TreeText.C108_regex_refuted`†, `Prop_TreeText.C108_field_refuted`†.

Remarks: REFUTED without conditions: a regular expression with a slash prints like two of them (C108_regex_refuted), and the whole document prints like the member with the empty name (C108_field_refuted). Proved for all other pairs (C108_printed_tree), with formats O: what strconv documents about FormatFloat.

### C109 A syntax error about a value is right about the value and about the place — proved

The simplified evaluator carries the first error recorded (`CBad e`); `Bridge.run_first` proves that the parser model records the same one, or one about the first invalid byte at its place. `Faults.find_origin` finds the rule in which the error arose, and the characterisations of the rules for strings, regular expressions, numbers and lists say what the text there is. `FaultSpec.fault` is the specification, one line for each kind of error.

Theorems: `Prop_Fault.C109_error`, `Prop_Fault.C109_never`.

### C110 A literal whose value cannot be built is marked from its first to its last character — refuted as stated

The actions for strings, regular expressions, floats, addresses and timestamps wrap the error with the token's position; the one for integers does not. `C110_marked` follows from C109, whose specification gives each kind of error its position.

Theorems: `Prop_Fault.C110_marked`, `Prop_Fault.C110_integer_refuted`.

Remarks: REFUTED for integers: the action of IntValue returns the error without the position of the token, so that for 99999999999999999999 one character of twenty is marked (C110_integer_refuted). Proved for strings, regular expressions, floats, addresses and timestamps (C110_marked).

### C111 Queries that mean the same get the same answer — proved

`AlikeSpec.alike` is an inductive relation on trees, each constructor one law. `AlikeProofs.alike_same` proves by induction that related trees build or fail together and have equal denotations for every document, panics included (the order of evaluation matters for these: hence the condition on commutativity).

Theorems: `Prop_Alike.C111_same_answer`, `Prop_Alike.C111_places`.

### C112 The hint that .* is redundant at the start or end of a regular expression is right — refuted as stated

`RegexSpec` describes how regular expressions are written and what they find, independent of the model (the Go package regexp is an oracle of the model). `conforms` says that the oracle agrees with the description for one pattern. `RegexProofs.leading` and `trailing` show by induction on the syntax that .* at either end does not change what is found, also with anchors and word boundaries; C111 carries this to answers.

Theorems: `Prop_Hint.C112_told`, `Prop_Hint.C112_same_texts`, `Prop_Hint.C112_harmless`, `Prop_Hint.C112_redundant_refuted`, `Prop_Hint.C112_nothing_left_refuted`.

Remarks: REFUTED in general: the hint looks at the characters, not at the expression. For /\Qa.*/ the .* is literal text and without it the query accepts more (C112_redundant_refuted); for /a\.*/ the dot is escaped and what would remain is no expression (C112_nothing_left_refuted). Proved: the hint is given only for expressions that begin or end so (C112_told), and where the rest is itself an expression of the documented syntax without counts and inner flags the answers are the same (C112_same_texts, C112_harmless).

### C113 The query proposed in place of an alternation can be used in its place — refuted as stated

From C21_messages the hint is traced to the regular expression it is about. C113_usable builds the derivation of the proposal in GrammarSpec and uses C03_language. The refutations run the model.

Theorems: `Prop_Alternation.C113_told`, `Prop_Alternation.C113_usable`, `Prop_Alternation.C113_no_query_refuted`, `Prop_Alternation.C113_other_field_refuted`, `Prop_Alternation.C113_same_refuted`.

Remarks: REFUTED: the names of the field are joined without quotes, so for a field with a quoted name the proposal may be no query (C113_no_query_refuted) or a query on another field (C113_other_field_refuted); a regular expression searches, a list of strings compares, so the answers differ (C113_same_refuted). Proved: the hint is given for alternatives only and names the field (C113_told); for ordinary names the proposal is a query on the field (C113_usable).

### C114 An error about a value can be repaired where it is reported, and the advice to put an unknown word in quotes works — refuted as stated

The proof of C102 (Viable.v) follows the parser with the invariant that the text read so far can be continued in the context-free grammar. Its language L got words for the places where actions refuse their text and where a closing character is missing; ViableForm shows that this does not enlarge the language of queries, so the invariant also says what could stand in the place of the first error.

Theorems: `Prop_Repair.C114_remedy`, `Prop_Repair.C114_every`, `Prop_Repair.C114_advice`, `Prop_Repair.C114_simple`, `Prop_Shown.C114_shown`, `Prop_Repair.C114_swallow_refuted`, `Prop_Repair.C114_list_refuted`, `Prop_Repair.C114_escape_refuted`.

Remarks: REFUTED for the advice as a whole: the word is taken to reach to the next white space, so in (a:foo) the proposal swallows the closing parenthesis and the query is still refused (C114_swallow_refuted), likewise the comma of a list (C114_list_refuted); control characters are written with escapes the language does not have (C114_escape_refuted). Proved: any value can stand in the place of the error (C114_remedy, C114_every), the proposal for a word of quotable characters is a string with that value and can stand there (C114_advice), and in a single comparison it gives the comparison with the word (C114_simple).

### C115 An error about a value shows the value as it is written where the error is reported — refuted as stated

Texts.v gives the text of every error and message, with the format strings of the code; the texts of regexp errors are a parameter. error_texts_of_the_tests compares them with all error texts in parser_test.go.

Theorems: `Prop_Texts.C115_quotes`, `Prop_Texts.C115_found`, `Prop_Shown.C115_checks`, `Prop_Texts.C115_net_refuted`, `Prop_Texts.C115_regex_refuted`.

Remarks: REFUTED: an address without prefix length is shown with /32 appended (a:256.1.1.1 says [256.1.1.1/32], which does not occur in the query), a regular expression is shown without the backslashes before slashes. Proved: these are the only two differences (C115_quotes), and all other values are shown as written (C115_found).

### C116 The text of an error tells which mistake was made — proved

The kinds are compared through the fixed beginnings of the texts; texts of run-time panics do not occur because parsing does not panic (C01). C116_web relates the symbolic test of Wasm.v to the test on the text that the code makes.

Theorems: `Prop_Texts.C116_kinds`, `Prop_Texts.C116_web`, `Prop_Shown.C116_messages`.

Remarks: Kinds of mistake are the constructors of the errors of the model without the values they carry; plain queries (no registered visitors) for C116_kinds.

### C117 Printed errors and messages tell their place — proved

Digits end at the first other character, so the numbers can be read back; json_int is the decimal writing proved correct for C97.

Theorems: `Prop_Texts.C117_error`, `Prop_Texts.C117_message`, `Prop_Texts.C117_form`.

### C118 A refused time or address is explained by the first part that is wrong — refuted as stated

Reasons.v follows time.Parse and netip.ParseAddr step by step with their error texts; ReasonSpec.v is a list of faults, each a condition on the written parts with its text, of which the first that applies is given.

Theorems: `Prop_Texts.C118_time`, `Prop_Texts.C118_net`, `Prop_Texts.C118_reason_refuted`.

Remarks: REFUTED that there always is a reason: for a lower-case t or z and for a blank between date and time, which the grammar allows, the text ends after the colon (time.ParseError without a message). Proved: which reason is given for every refused time and address; for the cases above it is the empty one.

### C119 The advice of the messages can be followed — refuted as stated

Prop_Advice.v: C75 and C76 say which instants a timestamp and a date match; C16 says what the similarity operator accepts.

Theorems: `Prop_Advice.C119_no_similar_time`, `Prop_Advice.C119_similar_refuted`, `Prop_Advice.C119_short`, `Prop_Advice.C119_day`, `Prop_Advice.C119_day_refuted`, `Prop_Advice.C119_fuzzy`, `Prop_Advice.C119_fuzzy_refuted`.

Remarks: REFUTED: the web page proposes [:~] for times, but no accepted query compares a time with it (C119_no_similar_time, C119_similar_refuted); the short date of a timestamp with an offset may be another day in UTC, so the proposed query does not match the document that the exact one matches (C119_day_refuted); the second string of the proposed fuzzy match is no language but another string to look for, and using it leads to two warnings that the operator is deprecated (C119_fuzzy, C119_fuzzy_refuted). Proved: the short date is accepted (C119_short) and matches what the timestamp matches if the instant lies on the written day in UTC (C119_day).

### C120 The JSON of messages is a document that tells everything about them — refuted as stated

MessageJson.v builds the tree encoding/json sees; the writer is the one of C97, here without indentation. C120_matcher: all texts quoted in messages are parts of the query, which is UTF-8, up to removed backslashes; the text of syntax.Regexp.String is assumed to be UTF-8.

Theorems: `Prop_MessageJson.C120_document`, `Prop_MessageJson.C120_injective`, `Prop_MessageJson.C120_matcher`, `Prop_MessageJson.C120_value_refuted`.

Remarks: REFUTED for messages that are not reached through a pointer: MarshalJSON of the type has a pointer receiver, so that a ParserMessage passed by value is written with the type as a number (C120_value_refuted). Proved for lists of pointers, as Messages() returns them (and, with the number for the type, also for lists of values).

### C121 The server of the web page hands out the five files of the page and nothing else — refuted as stated

Server.v models AddFile, Open and the handler, and of the standard library path.Clean on the parts of a path, filepath.Join, Abs and Base, cleanPath and Handler of ServeMux, and FileServer for plain files. The name of a file under which AddFile lists it is computed from the absolute path; that it is the name in the list is proved for all directories.

Theorems: `Prop_Hops.C121_clean`, `Prop_Hops.C121_clean_leads`, `Prop_Hops.C121_where`, `Prop_Hops.C121_each`, `Prop_Hops.C121_index`, `Prop_Server.C121_lookup`, `Prop_Server.C121_opened`, `Prop_Server.C121_served`, `Prop_Server.C121_closed_partial`, `Prop_Server.C121_closed_refuted`.

Remarks: REFUTED for the last part: index.html is opened for each request of the page and never closed (C121_closed_refuted). Proved: the map of file names has exactly the four names with their places in the directory (C121_lookup), no other file is opened or sent (C121_opened; C121_where, C121_each and C121_index say it by walks through directories, with C121_clean and C121_clean_leads on Clean), which paths are answered with a file (C121_served), all files but the index are closed (C121_closed_partial).

### C122 Truth values of JSON values follow the documented table — refuted as stated

Truthy.v has the two functions of json_values.go that nothing calls. The numbers use the exact reading of C74, the strings the decoding of C77.

Theorems: `Prop_Truthy.C122_other`†, `Prop_Truthy.C122_number`†, `Prop_Truthy.C122_tiny_refuted`†, `Prop_Truthy.C122_string`, `Prop_Truthy.C122_case_refuted`†, `Prop_Truthy.C122_escape_refuted`†.

Remarks: REFUTED for numbers nearer to 0 than to any other double (C122_tiny_refuted), for the word false in capitals (C122_case_refuted) and for strings written with escapes (C122_escape_refuted). Proved: booleans, null, objects and arrays as documented (C122_other); the truth value of a number is that of the nearest double, and numbers out of the range of doubles have none (C122_number); the strings without truth are exactly the empty one, 0 and false in any mixture of small and capital letters, also with a long s (C122_string).

### C123 On a top-level array a first segment in brackets is an index — proved

C26 and C73 leave out top-level arrays with a first segment such as [0]; this property fills the gap. C123_object: for every array and all segments there is such an object, so that the condition of C123_array can always be met.

Theorems: `Prop_Docs.C123_array`, `Prop_Docs.C123_object`.

### C124 A query that asks for something stays satisfied when the document grows — refuted as stated

The relation grows is defined on JSON trees; an element of an array may not itself become an array, since arrays in arrays are not searched.

Theorems: `Prop_Docs.C124_grows`, `Prop_Docs.C124_null_refuted`.

Remarks: REFUTED for null, which asks whether everything found is null: adding data can make it true and false (C124_null_refuted). Proved for queries without null (C124_grows).

### C125 Putting a document into a member and its name before all paths changes nothing; in an array, the query is asked of the elements — refuted as stated

The relation under puts a name before all paths of a tree; both queries are arbitrary texts with related trees.

Theorems: `Prop_Docs.C125_object`, `Prop_Docs.C125_array`, `Prop_Docs.C125_and_refuted`.

Remarks: REFUTED for arrays and queries with AND: the comparisons need not hold for the same element, so a.x:exists AND a.y:exists holds for an array with x in one and y in another object (C125_and_refuted). Proved for members that are objects and all queries (C125_object), and for arrays and single comparisons other than null (C125_array).

### C126 The page shows the tree of every accepted query, and an error exactly for the refused ones — refuted as stated

The script is modelled as a function from the text of the input to what it hands to jQuery and to the highlighter, neither of which is in the repository.

Theorems: `Prop_Page.C126_refused`, `Prop_Page.C126_accepted`, `Prop_Page.C126_error`, `Prop_Page.C126_empty`, `Prop_Page.C126_deep`, `Prop_Page.C126_tree_refuted`, `Prop_Page.C126_kind_refuted`.

Remarks: REFUTED: an accepted query about which there is a hint or a warning has an empty output instead of its tree (C126_tree_refuted), and one nested too deeply gets a message of the class undefined (C126_kind_refuted). Proved: the tree is shown exactly if no value gives rise to a message, else only hints and warnings (C126_accepted); errors are shown exactly for refused queries (C126_refused, C126_error).

### C127 Messages are shown as they are written — refuted as stated

The specification is a small tokenizer after the HTML standard: data, tags with quoted attribute values, references. Comments are read as tags. The theorems assume that strconv.FormatFloat and the errors of regexp add neither < nor &.

Theorems: `Prop_Page.C127_read`, `Prop_Page.C127_error`, `Prop_Page.C127_hint`, `Prop_Page.C127_tag_refuted`, `Prop_Page.C127_escape_refuted`, `Prop_Page.C127_similar_refuted`.

Remarks: REFUTED: the texts are not escaped. A word of the query becomes a tag of the page (C127_tag_refuted), also one written with escapes (C127_escape_refuted), and the warning about similarity contains an angle bracket of its own that swallows the closing tag (C127_similar_refuted). Proved: a text is read as written exactly if it is inert (C127_read); errors are for queries without <, & and backslash (C127_error), the other messages for queries without < and & (C127_hint).

### C128 What the page marks is what the message is about — refuted as stated

Strings are lists of 16-bit units; units is the encoding of code points, lone surrogates are replaced as TextEncoder does.

Theorems: `Prop_Page.C128_string`, `Prop_Page.C128_encoding`, `Prop_Page.C128_ascii`, `Prop_Page.C128_mark_refuted`.

Remarks: REFUTED: the marks are byte offsets but the page counts UTF-16 units, so a character outside ASCII shifts all marks that follow it (C128_mark_refuted). Proved: the marked units are the blamed bytes if all characters up to the end of the mark are ASCII (C128_ascii); every text reaches the parser as its UTF-8 encoding (C128_string), and the error about the encoding never arises on the page (C128_encoding).

### C129 Redirects of the server lead to the place asked for and come to an end — proved

PathSpec.v reads a path from left to right as a walk from a directory; C121_clean and C121_clean_leads prove that path.Clean keeps the place and that a cleaned path from the root is determined by it. Redirects are those of ServeMux (unclean paths), of FileServer for index.html and for files asked for with a slash at the end; an analysis of the chains gives the bound.

Theorems: `Prop_Hops.C129_place`, `Prop_Hops.C129_ends`, `Prop_Hops.C129_found`, `Prop_Hops.C129_only`.

Remarks: PathSpec.v says what paths mean as walks through directories and what following a redirect means. Links in the file system are not followed: places are those the names tell.

### C130 With the option Memoize each expression is evaluated only once at a place, and parsing is linear — proved

Memo.v is a second model of the parse functions, with the table of results. The proof keeps the list of the expressions whose evaluation has begun and not ended: an open expression at the same place has a greater static depth (the measure of C07), so a fresh one is neither open nor in the table; open and finished ones together are as many as evaluations and are all among 312 (n+1) pairs. For C130_errors: an expression that is evaluated records at most six errors by itself, one for each character of the longest literal, and one found in the table none.

Theorems: `Prop_Memo.C130_linear`, `Prop_Memo.C130_once`, `Prop_Memo.C130_nested`, `Prop_MemoErrors.C130_errors`.

Remarks: Memo.v models the parser with its table; the values that failed expressions leave in the table are not modelled, as nothing reads them. The count is that of parseExpr bodies run (ExprCnt). C130_once says nothing of a parse that panics. That the results are the same with the option is not claimed.

### C131 A query from a reader is parsed like the same text, however the reader cuts it — proved

Reader.v models io.ReadAll with its growing buffer; a reader is a transition function. The specification `delivers` is the contract of io.Reader, with a bound on the number of calls. Induction on that bound.

Theorems: `Prop_Reader.C131_pieces`, `Prop_Reader.C131_failure`, `Prop_Reader.C131_query`.

Remarks: Readers that do not end or give more than was asked for are outside the statement (the model says running and panic). Readers are functions of their state and the room in the buffer.

### C132 The cost of an accepted query grows with the depth of its groups, not with their number — proved

`nested` (NestSpec.v) is the grammar with a depth. At each place the results of all subexpressions are known from the completeness of the parser (ClauseProofs), so the alternatives that are tried and fail are known too: AND and OR levels evaluate their last operand twice, everything else once. Induction on the derivation; token rules are bounded by `CostUpper.poly`.

Theorems: `Prop_Nest.C132_depth`, `Prop_Nest.C132_accepted`, `Prop_Nest.C132_factor`.

Remarks: For queries that the grammar accepts; for rejected texts C96 gives a bound by the number of opening parentheses.

### C133 The option MaxExpressions stops a parse exactly at its limit and otherwise changes nothing — proved

`leval` (Limit.v) is the evaluator with the check of the counter. Simulation with `eval`: either the results are equal and the counter within the limit, or the limit is hit in a state that the evaluation without limit comes by, from where errors and counter only grow (`later`). The bounds for depth come from C132 and C08.

Theorems: `Prop_Limit.C133_within`, `Prop_Limit.C133_exceeded`, `Prop_Limit.C133_bound`, `Prop_Limit.C133_off`, `Prop_Limit.C133_depth`, `Prop_Limit.C133_refuses`.

Remarks: The library passes no options to the parser; the option is there for a caller who wants the cost of C08 bounded. The counter is modelled without wrap-around, which it cannot reach below the limit.

### C134 The option AllowInvalidUTF8 takes away the errors about the encoding and nothing else — proved

`aeval` (Allow.v) is the evaluator with the other `read`. It commutes with taking the encoding errors out of the state (`aeval_strip`), since no step looks at the errors recorded; only the end of the parse does. On valid text no read can give such an error (`eval_ok`).

Theorems: `Prop_Allow.C134_valid`, `Prop_Allow.C134_accepted`, `Prop_Allow.C134_errors`, `Prop_Allow.C134_only_encoding`, `Prop_Allow.C134_never`.

Remarks: The library passes no options to the parser (C14: invalid text is an error there).

### C135 The text of a number with at most 15 digits is its plain decimal notation — proved

`documented` is the documentation of FormatFloat: plain notation, fewest digits. `format_float` meets it, and writes the nearest of the shortest texts (`digits_at_spec`; 17 digits always suffice, `near_value`). Two decimals of 15 digits that round to one normal double are equal, since the double lies within 2^-53 of both (`fifteen_apart`). Plain notation is unique (`plain_unique`).

Theorems: `Prop_Decimal.C135_digits`†, `Prop_Decimal.C135_formatter`†, `Prop_Decimal.C135_fifteen`†, `Prop_Decimal.C135_as_written`†, `Prop_Decimal.C135_query`†, `Prop_Decimal.C135_limits`†.

Remarks: C135_limits shows the bound of 15 digits is needed. Zero is not included: it is written 0 or -0.

### C136 Numbers with at most 15 digits are compared exactly — proved

C74 and C34 reduce the comparisons to the nearest doubles. Rounding keeps the order, and different numbers of 15 digits have different doubles (`fifteen_same`, see C135).

Theorems: `Prop_Decimal.C136_exact`†, `Prop_Decimal.C136_between`†.

Remarks: C32 gives two numbers of 16 digits that are not told apart.

### C137 The strings that are compared as numbers are Go's floating point literals — proved

NumberTextSpec.v gives the forms: grouped digits, mantissa, exponent, words. `read_mantissa`, `read_exp_value` and `under_mantissa` follow the scanner and its check of underscores through a text of the form; `back_digits`, `back_mantissa` and `back_exp` recover the form from a text that the scanner accepts, by induction with what underscoreOK saw last as the state. `parse_float_read` shows that the scanner agrees with the simpler one used elsewhere in the model on texts without x and underscore, so only the oracle for the others has to be assumed. The rounding is that of Flocq (`binary_rounds`, `decimal_rounds`).

Theorems: `Prop_NumberText.C137_numeral`†, `Prop_NumberText.C137_word`, `Prop_NumberText.C137_only`†, `Prop_NumberText.C137_decimal`†, `Prop_NumberText.C137_query`†.

Remarks: For the reading of ParseFloat modelled in GoFloatRead.v (hypothesis reads_go; it concerns texts with x or underscore only). Exponents of 100000 and more are cut by ParseFloat, the value is then not claimed.

### C138 A string that is not a decimal number satisfies no comparison with a number — refuted as stated

Three documents, evaluated for all oracles; C138_other combines C33 and C137.

Theorems: `Prop_NumberText.C138_words_refuted`†, `Prop_NumberText.C138_notation_refuted`†, `Prop_NumberText.C138_other`†.

Remarks: REFUTED: the string Inf is greater than 5 (C138_words_refuted), the string 1_000 equals 1000 and 0x1p4 equals 16 (C138_notation_refuted). Proved: strings that are neither numerals of Go nor these words satisfy no comparison (C138_other).

### C139 With example lists, every thousandth call of mark records its values — proved

`mark_value_full` says what one value does to the counters and lists; `marked_full` adds up over all calls, with the number of the call. What Get makes of the additions is C87. The examples are specified by the relation `example` on JSON texts; `example_of_object` reads the members with C82's lemma about ObjectEach.

Theorems: `Prop_FieldExamples.C139_examples`, `Prop_FieldExamples.C139_marshal`.

Remarks: For statistics with example lists (with_lists); those NewFieldStats makes have none, see C88.

### C140 The example of an object lists at most ten of its names, as they are — refuted as stated

One object of twelve members; two objects of one member each.

Theorems: `Prop_FieldExamples.C140_ten_refuted`, `Prop_FieldExamples.C140_decoded_refuted`, `Prop_FieldExamples.C140_shown_refuted`, `Prop_FieldExamples.C140_names`.

Remarks: REFUTED: eleven names are listed, because the count is compared after it was raised (C140_ten_refuted); and the names, which ObjectEach has decoded already, are decoded again, so that the name made of a backslash and n appears as a newline (C140_decoded_refuted) and a lone backslash as an invalid key (C140_shown_refuted). Proved: the first eleven names, if they have no backslash (C140_names).

### C141 Statistics about a field are exact when mark is called concurrently — refuted as stated

FieldStatsConc.v splits a call into its indivisible parts; any call may go on by one part (`cstep`). Invariant `going`: what was counted plus what is still to be counted is constant, and a call that passed its first part has seen the counter not zero. The sequential model is one of the interleavings (C141_one_by_one). The refutations run 998 or 999 calls one after the other and then two calls interleaved.

Theorems: `Prop_FieldConc.C141_counts`, `Prop_FieldConc.C141_one_by_one`, `Prop_FieldConc.C141_missed_refuted`, `Prop_FieldConc.C141_twice_refuted`.

Remarks: REFUTED for the examples: the counter is raised and read in two steps, so of 1001 calls none may leave an example (C141_missed_refuted) and of 1000 calls two may (C141_twice_refuted). Proved for all interleavings: no panic and exact counts, with example lists, or without them for fewer than 1000 calls (C141_counts).

### C142 Sample accepts exactly the JSON objects and arrays — refuted as stated

`collect_rest` repeats the argument of C51 for a text followed by others: ObjectEach and ArrayEach stop at the closing bracket (`object_each_value`, `array_each_value` with a rest). Concrete texts for the refutations, shown to be no documents with the verified reader `parse_json`.

Theorems: `Prop_SampleText.C142_valid_refuted`, `Prop_SampleText.C142_blanks`, `Prop_SampleText.C142_invalid_refuted`, `Prop_SampleText.C142_syntax_refuted`, `Prop_SampleText.C142_rest`.

Remarks: REFUTED both ways: a valid document followed by a newline is refused (C142_valid_refuted), in general every document with blanks around it (C142_blanks); two documents one after the other, wrong numbers, a comma before the closing brace and wrong escapes are accepted (C142_invalid_refuted, C142_syntax_refuted). Proved in general: after a first document, anything that ends with the same bracket is ignored (C142_rest). C51 says that documents without blanks around are accepted, if names can be decoded and arrays at the top hold no scalars.

### C143 The examples of the README behave as the README says — refuted as stated

The examples are run in the model by computation with an arbitrary oracle. Where computation depends on the oracle (a pattern, a network, two floats whose printed forms are compared) acceptance comes from C04 for one comparison (`comparison_accepted`).

Theorems: `Prop_Readme.C143_answers_refuted`, `Prop_Readme.C143_answers`, `Prop_Readme.C143_usage`, `Prop_Readme.C143_queries_refuted`, `Prop_Readme.C143_queries`.

Remarks: REFUTED in two places: the example of the section Paths, level1.level2.level3 compared with the string here!, is answered false by the code (C143_answers_refuted; a string that does not end with a word character does not equal itself, C43), and the query with a time zone offset is rejected, as the README writes the offset with U+2212 instead of a hyphen (C143_queries_refuted). All other answers (C143_answers), the program (C143_usage, if the library recognises the date of its document) and all other queries (C143_queries, if the formatter of floats is right and the pattern of the example compiles) are as the README says.

### C144 The parser does not panic, with or without Recover, and can be entered at any rule — refuted as stated

`option_parse` runs the evaluator of Engine.v from any rule. Termination is the fuel bound of EngineBasics, which holds for every well-formed expression; the comparison of Query with Start goes through the evaluator without positions and errors (Bridge). That a panic is never the first failure is C02.

Theorems: `Prop_Options.C144_no_panic_refuted`, `Prop_Options.C144_panic`, `Prop_Options.C144_accepted`, `Prop_Options.C144_returned`, `Prop_Options.C144_default`, `Prop_Options.C144_ends`, `Prop_Options.C144_unknown`, `Prop_Options.C144_entered`, `Prop_Options.C144_query`, `Prop_Options.C144_query_only_refuted`.

Remarks: REFUTED: a:1.2.3.4/99 makes an action assert the type of a nil value; only the recovery turns that panic into an error (C144_no_panic_refuted). True instead: a panic comes only after a recorded error that is no panic itself, and with recovery it is the last of the errors (C144_panic); accepted texts are accepted without recovery too (C144_accepted); a result returned without recovery is the one with it (C144_returned). The parse ends from every entry point (C144_ends), exactly the names of no rule are refused (C144_unknown), and Query accepts what Start accepts, with the same value (C144_query) - but also texts that go on after the query, whose rest is ignored (C144_query_only_refuted).

### C145 Match goes through the query from the left and stops as soon as the answer is clear — proved

The specification `reads` is a relation with one rule per way to read a node; a comparison that does not break is decided by `holds` of MatchSpec.v on the object the document stands for (`seen_as`, from C123). The proof goes by induction over the tree, for the evaluation without counters.

Theorems: `Prop_Reading.C145_reading`, `Prop_Reading.C145_panics`, `Prop_Reading.C145_error`.

Remarks: No restriction on paths or documents is left, unlike in C24 and C72. Counters after a panic are not part of the claim (the model gives no state after a panic).

### C146 A matcher whose panics are recovered stays usable, and its statistics count the finished parts — proved

`MatchRecover.v` models the evaluation once more with the node as it is after a panic; C146_returns ties it to the model of the calls that return. The specification `finishes` says which parts the reader of C145 finishes and with what answer; the numbers are counted by `tally` of StatsSpec.v.

Theorems: `Prop_Recover.C146_returns`, `Prop_Recover.C146_no_memory`, `Prop_Recover.C146_counts`, `Prop_Recover.C146_root`.

Remarks: Generalises C47 (no restriction on paths or documents). The example shows a comparison that is checked three times while the query is checked once. The recovery itself is done by the caller and not by the package.

### C147 The parser records each fault of a query once — refuted as stated

`ErrorList.v` models dedupe with the text of an error as a parameter. The number is exact: each level of parentheses is parsed four times (OrClause and AndClause both try their operand twice), and an error is never taken back when the parser goes back. The proof follows the failing run of the parser (`fails`), for every state, so it does not need the relation to the clean run that the proofs about accepted queries use. The same happens for natural queries, such as 64 errors for ((a:/x in the example; with the option Memoize it is one.

Theorems: `Prop_ErrorList.C147_recorded`, `Prop_ErrorList.C147_polynomial_refuted`, `Prop_ErrorList.C147_told`, `Prop_ErrorList.C147_one`.

Remarks: REFUTED for the list the parser builds up: the same error 4^n times behind n parentheses (C147_recorded, exact number). Proved for the list the caller gets (C147_told, C147_one). The text of an error, a parameter of dedupe, is left open.

### C148 A call of Match makes at most as many comparisons as the query has literals times the document has values — proved

`MatchCost.v` is the evaluation of Matcher.v with a counter; the first part of C148_bound says that it does the same. The bound goes through `values_size`: getValues never returns overlapping parts of the document. C148_exact keeps the counter honest: a counter that misses comparisons would satisfy the bound but not this. C148_null and C148_exists do the same for the two operators without literals.

Theorems: `Prop_MatchCost.C148_bound`, `Prop_MatchCost.C148_apart`, `Prop_MatchCost.C148_exact`, `Prop_MatchCost.C148_null`, `Prop_MatchCost.C148_exists`.

Remarks: Counts comparisons of one value with one literal; the cost of one comparison (a regular expression, a text search) and of reading the text is not counted.

### C149 The JSON of statistics tells every counter and every example — refuted as stated

`FieldJson.v` writes the structs member by member as encoding/json does, with atomic.Int64 as a number only where its address can be taken, and MarshalJson with its maps sorted by name. The texts are those of Marshal.v (C97), so that the document and the reading back come from C120's lemmas.

Theorems: `Prop_FieldJson.C149_counts`, `Prop_FieldJson.C149_injective`, `Prop_FieldJson.C149_copy`, `Prop_FieldJson.C149_method`, `Prop_FieldJson.C149_report`, `Prop_FieldJson.C149_match_stats`, `Prop_FieldJson.C149_examples_refuted`, `Prop_FieldJson.C149_method_refuted`.

Remarks: REFUTED: encoding/json never calls MarshalJson (it looks for MarshalJSON) and never writes an example; of a copy of a FieldStats it writes no counter. Proved instead: through a pointer all counters are told exactly (types by position), MarshalJson would report all of it if the example lists were made, and the JSON of a MatchStats tells everything.

### C150 The title of a drawing is its query, and labels arrive in full — refuted as stated

`GraphTitle.v` models what graphviz makes of a label that is not HTML (escapes, lines) and the passage through C strings, from memory of the published sources; character references are a parameter that leaves texts without an ampersand alone. Titles are compared line by line with the query by putting the line ends back.

Theorems: `Prop_GraphTitle.C150_title`, `Prop_GraphTitle.C150_label`, `Prop_GraphTitle.C150_title_refuted`, `Prop_GraphTitle.C150_cut_refuted`, `Prop_GraphTitle.C150_label_refuted`.

Remarks: REFUTED: graphviz reads backslashes in the title as escapes, and C strings end at a zero byte, which regular expressions and (escaped) field names may contain. Proved: the title is the query if it has no backslash, ampersand or zero byte; a label arrives in full exactly if no field name and no printed value has a zero byte.

### C151 A message visitor loses no message and changes none — proved

`Tape.v` models the nine methods and NewMessageVisitor on top of `Visitors.v`. The specification (`shows`, `says`) says separately what message a call must leave and which calls a function makes on a list of nodes; the nodes are those of `visits` (C19). Examples `C151_example`, `C151_beside`, `C151_again`.

Theorems: `Prop_Tape.C151_messages`, `Prop_Tape.C151_alone`.

Remarks: The text of a message is what fmt.Sprintf makes of the format and its arguments, taken as given. Visitors are taken to be different objects: one visitor registered twice shares its tape, which is not modelled.

### C152 What Sample says about a text it refuses for its outer form is true and readable — refuted as stated

`SampleErr.v` models the texts of the three errors beside `Sampler.v`, which only says that there is an error; C152_which ties the two together. The specification of the words goes by the first and last character, that of the truth by the JSON grammar of `JsonSpec.v`.

Theorems: `Prop_SampleErr.C152_which`, `Prop_SampleErr.C152_text`, `Prop_SampleErr.C152_true`, `Prop_SampleErr.C152_readable`, `Prop_SampleErr.C152_true_refuted`, `Prop_SampleErr.C152_readable_refuted`.

Remarks: REFUTED: a whole object followed by a line end is called unterminated, an array after a blank is called no array (C152_true_refuted), and a text of more than 100 bytes may be cut within a character (C152_readable_refuted). Proved: exactly when these errors arise and that they leave the sampler as it was (C152_which), their words and quotation (C152_text), that the words are true of JSON values without blanks around them (C152_true), and that the error is UTF-8 for samples of up to 100 bytes (C152_readable).

### C153 A matcher built without statistics answers the same and has no report — refuted as stated

`NoStats.v` is `Matcher.v` with counters that may be missing. A relation between nodes with and without counters is kept by `build` and `result`; the outcome of Match is then that of `C145_reading`. `reads` of C145 is the specification.

Theorems: `Prop_NoStats.C153_built`, `Prop_NoStats.C153_reading`, `Prop_NoStats.C153_no_stats`, `Prop_NoStats.C153_stats_refuted`, `Prop_NoStats.C153_with_stats`.

Remarks: REFUTED for the report: only comparisons look whether they have counters, so Stats of a query with AND, OR or NOT at the top dereferences nil (C153_stats_refuted; C153_no_stats says exactly when). Proved: the rest.

## Properties refuted by the model (findings about the code)

Each is proved by a theorem ending in `_refuted` exhibiting concrete inputs.

* **C08** Parsing cost is bounded by a polynomial in the query length: REFUTED: n nested pairs of parentheses cost at least 4^n expression evaluations. See C96 for what holds, C130 for the option Memoize.
* **C11** Regular-expression literals keep their body: REFUTED: a body ending in an escaped backslash loses a backslash; escaped slashes at either end are stripped. See C69 for what holds.
* **C13** Every timestamp form the grammar admits can be used: REFUTED: lower-case t is in the grammar but rejected by time.Parse. See C70 for the accepted forms.
* **C15** Star path segments are ignored: First half proved. REFUTED second half: a quoted star is dropped too; other quoted segments are kept.
* **C17** Value lists have no duplicates: REFUTED as stated (a:(1,01) is accepted): duplicates are detected by printed text; so also a:(0,-0), an instant written in two zones, and, where Go reads it, a prefix length with a leading zero. Proved: distinct printed texts; no string, boolean, double, integer written without leading zeros, or network (with the current netip) occurs twice (C17_values); no true/false pair in an equality list.
* **C18** Accepted ranges are non-empty and of one kind: REFUTED as stated: a negative number with a timestamp is accepted. Otherwise both ends are of one kind and increasing.
* **C20** Errors on the message tape reject the query: REFUTED: addMsg tests firstErr != nil before setting it, so tape errors are never returned.
* **C23** Match never panics: REFUTED: a field of stars only, or an empty first segment, makes Match panic. See C72 for when it returns.
* **C26** Field paths resolve as documented: REFUTED in one corner: a member name that cannot be decoded (lone surrogate escape) hides the members after it. Otherwise resolution is exactly as stated (the first member of a name counts), for paths without index-like segments.
* **C32** Numeric comparison is by numeric value: REFUTED: 9007199254740993 equals 9007199254740992. See C74 for what holds.
* **C35** Between excludes its end points: REFUTED: the ends are included (C34).
* **C37** Timestamp comparisons follow the time line: REFUTED: UnixNano wraps outside 1677-2262, so 1500-01-01 is found to be after 2020-01-01. See C75.
* **C38** A date matches the whole UTC day: REFUTED: the end of 2262-04-11 overflows. See C76.
* **C43** A string equals itself: REFUTED: a string that does not start and end with a word character does not equal itself, e.g. the README example here!. See C79.
* **C46** Top-level arrays are traversed like nested ones: REFUTED: nothing is found in a document whose root is an array. See C73.
* **C49** Statistics snapshots are consistent: REFUTED: Stats loads the checked counter first; a Match finishing between the two loads is counted as matched only. See C81 for the counters themselves.
* **C50** Stats() returns the whole tree: REFUTED: no node passes its children, so Stats has no children for any query.
* **C53** A negative depth means no limit: REFUTED: with a negative depth nothing is recorded at all.
* **C54** Sample never panics: REFUTED: empty input, scalars directly in a top-level array, and any sample after an inner error panic. Proved: no panic for texts not starting with [ as long as no call failed before.
* **C55** A failed Sample does not destroy earlier results: REFUTED: an error inside the document sets the map to nil: all keys are lost and the next sample panics. Errors seen from the first and last byte are harmless.
* **C57** The threshold is a share of documents: REFUTED: counts are per scalar; {"a":[1,2]} and {} put a at 100 percent. See C83 for what holds.
* **C58** Reset restores the initial state: REFUTED: after an inner error the nil map survives Reset. Proved when no call failed.
* **C59** Sampled keys work as query fields: REFUTED in four ways. See C84 for what holds.
* **C60** The display window is a valid slice: REFUTED: the window ends one past the query when the highlight ends the query and is one shorter than the window. See C85.
* **C61** The marker line points at the right text: REFUTED: byte offsets are used as code point offsets; carets are longer than the displayed text if the highlight is longer than the window. See C86.
* **C62** Pre, highlight and post parts concatenate to the displayed query: REFUTED: a highlight longer than the window makes QueryPost panic. See C86.
* **C63** Example lists return the stored examples: REFUTED: nothing is returned before the tenth addition. See C87.
* **C65** Graph labels are well-formed markup: REFUTED: a field name or value containing an angle bracket is put into the markup of the label without escaping; the positive part is C89
* **C66** Printed field paths can be parsed back: REFUTED: names such as a:b are printed without quotes. See C71 for what holds.
* **C67** Printed value lists distinguish values: REFUTED: a:1 and a:1.0 print the same; the positive part is C90
* **C68** The web front end marks a position inside the input: REFUTED: the empty input is marked from -1 to 0, and an unterminated string one past the end. See C91 for the bounds that hold.
* **C80** Only surrogate escapes are joined to a surrogate escape: REFUTED: the two characters after the first half are not looked at, so \ud83dzzde00 is read as U+1F600.
* **C88** Field statistics are exact and survive any number of samples: REFUTED: the example lists are nil, so call number 1000 panics when given a string, number or object, and MarshalJson panics. Counts are proved exact for fewer than 1000 calls.
* **C92** The tree shown on the web page determines the query: REFUTED: encoding/json shows values as empty objects and AND and OR alike; everything else is determined (C92_tree_partial).
* **C95** The name of a comparison can be used as a query: REFUTED: names of comparisons with control characters, wildcard-only paths or floats of 2^63 and more without a fraction are rejected, and a regular expression with escaped slashes gives a name that is another query. Proved: otherwise (faithfully printed path names, strings without escapes unknown to the grammar, floats with a fraction or in the range of the integers and not -0, expressions without slashes) the name is read back as the same comparison, with floats without a fraction read as integers, and gives the same answers.
* **C98** The web page shows the tree of every accepted query: REFUTED: encoding/json refuses to indent values nested more than 10000 deep, so for a chain of 10000 comparisons the page shows no tree but a message without position. Proved: the tree is shown exactly if the document has at most 10000 levels, which are counted on the query (C98_page).
* **C101** The web page calls a query incomplete exactly if more text could complete it: REFUTED in both directions: a closing parenthesis is called an incomplete query although no query begins with it; a:(1 and an unfinished string are not called incomplete although they can be completed. What the reported place tells is C102.
* **C105** What a syntax error says was expected can be followed: REFUTED for one entry: the fallback class [^ \n\t\r] is listed wherever a value may begin although most of its characters cannot follow (C105_anything_refuted). Proved for all other entries (C105_suggestions, C105_order). Form means ShapeSpec.query_form: whether values convert and pass the operator checks is a matter of other properties.
* **C108** The printed form of a tree determines the tree: REFUTED without conditions: a regular expression with a slash prints like two of them (C108_regex_refuted), and the whole document prints like the member with the empty name (C108_field_refuted). Proved for all other pairs (C108_printed_tree), with formats O: what strconv documents about FormatFloat.
* **C110** A literal whose value cannot be built is marked from its first to its last character: REFUTED for integers: the action of IntValue returns the error without the position of the token, so that for 99999999999999999999 one character of twenty is marked (C110_integer_refuted). Proved for strings, regular expressions, floats, addresses and timestamps (C110_marked).
* **C112** The hint that .* is redundant at the start or end of a regular expression is right: REFUTED in general: the hint looks at the characters, not at the expression. For /\Qa.*/ the .* is literal text and without it the query accepts more (C112_redundant_refuted); for /a\.*/ the dot is escaped and what would remain is no expression (C112_nothing_left_refuted). Proved: the hint is given only for expressions that begin or end so (C112_told), and where the rest is itself an expression of the documented syntax without counts and inner flags the answers are the same (C112_same_texts, C112_harmless).
* **C113** The query proposed in place of an alternation can be used in its place: REFUTED: the names of the field are joined without quotes, so for a field with a quoted name the proposal may be no query (C113_no_query_refuted) or a query on another field (C113_other_field_refuted); a regular expression searches, a list of strings compares, so the answers differ (C113_same_refuted). Proved: the hint is given for alternatives only and names the field (C113_told); for ordinary names the proposal is a query on the field (C113_usable).
* **C114** An error about a value can be repaired where it is reported, and the advice to put an unknown word in quotes works: REFUTED for the advice as a whole: the word is taken to reach to the next white space, so in (a:foo) the proposal swallows the closing parenthesis and the query is still refused (C114_swallow_refuted), likewise the comma of a list (C114_list_refuted); control characters are written with escapes the language does not have (C114_escape_refuted). Proved: any value can stand in the place of the error (C114_remedy, C114_every), the proposal for a word of quotable characters is a string with that value and can stand there (C114_advice), and in a single comparison it gives the comparison with the word (C114_simple).
* **C115** An error about a value shows the value as it is written where the error is reported: REFUTED: an address without prefix length is shown with /32 appended (a:256.1.1.1 says [256.1.1.1/32], which does not occur in the query), a regular expression is shown without the backslashes before slashes. Proved: these are the only two differences (C115_quotes), and all other values are shown as written (C115_found).
* **C118** A refused time or address is explained by the first part that is wrong: REFUTED that there always is a reason: for a lower-case t or z and for a blank between date and time, which the grammar allows, the text ends after the colon (time.ParseError without a message). Proved: which reason is given for every refused time and address; for the cases above it is the empty one.
* **C119** The advice of the messages can be followed: REFUTED: the web page proposes [:~] for times, but no accepted query compares a time with it (C119_no_similar_time, C119_similar_refuted); the short date of a timestamp with an offset may be another day in UTC, so the proposed query does not match the document that the exact one matches (C119_day_refuted); the second string of the proposed fuzzy match is no language but another string to look for, and using it leads to two warnings that the operator is deprecated (C119_fuzzy, C119_fuzzy_refuted). Proved: the short date is accepted (C119_short) and matches what the timestamp matches if the instant lies on the written day in UTC (C119_day).
* **C120** The JSON of messages is a document that tells everything about them: REFUTED for messages that are not reached through a pointer: MarshalJSON of the type has a pointer receiver, so that a ParserMessage passed by value is written with the type as a number (C120_value_refuted). Proved for lists of pointers, as Messages() returns them (and, with the number for the type, also for lists of values).
* **C121** The server of the web page hands out the five files of the page and nothing else: REFUTED for the last part: index.html is opened for each request of the page and never closed (C121_closed_refuted). Proved: the map of file names has exactly the four names with their places in the directory (C121_lookup), no other file is opened or sent (C121_opened; C121_where, C121_each and C121_index say it by walks through directories, with C121_clean and C121_clean_leads on Clean), which paths are answered with a file (C121_served), all files but the index are closed (C121_closed_partial).
* **C122** Truth values of JSON values follow the documented table: REFUTED for numbers nearer to 0 than to any other double (C122_tiny_refuted), for the word false in capitals (C122_case_refuted) and for strings written with escapes (C122_escape_refuted). Proved: booleans, null, objects and arrays as documented (C122_other); the truth value of a number is that of the nearest double, and numbers out of the range of doubles have none (C122_number); the strings without truth are exactly the empty one, 0 and false in any mixture of small and capital letters, also with a long s (C122_string).
* **C124** A query that asks for something stays satisfied when the document grows: REFUTED for null, which asks whether everything found is null: adding data can make it true and false (C124_null_refuted). Proved for queries without null (C124_grows).
* **C125** Putting a document into a member and its name before all paths changes nothing; in an array, the query is asked of the elements: REFUTED for arrays and queries with AND: the comparisons need not hold for the same element, so a.x:exists AND a.y:exists holds for an array with x in one and y in another object (C125_and_refuted). Proved for members that are objects and all queries (C125_object), and for arrays and single comparisons other than null (C125_array).
* **C126** The page shows the tree of every accepted query, and an error exactly for the refused ones: REFUTED: an accepted query about which there is a hint or a warning has an empty output instead of its tree (C126_tree_refuted), and one nested too deeply gets a message of the class undefined (C126_kind_refuted). Proved: the tree is shown exactly if no value gives rise to a message, else only hints and warnings (C126_accepted); errors are shown exactly for refused queries (C126_refused, C126_error).
* **C127** Messages are shown as they are written: REFUTED: the texts are not escaped. A word of the query becomes a tag of the page (C127_tag_refuted), also one written with escapes (C127_escape_refuted), and the warning about similarity contains an angle bracket of its own that swallows the closing tag (C127_similar_refuted). Proved: a text is read as written exactly if it is inert (C127_read); errors are for queries without <, & and backslash (C127_error), the other messages for queries without < and & (C127_hint).
* **C128** What the page marks is what the message is about: REFUTED: the marks are byte offsets but the page counts UTF-16 units, so a character outside ASCII shifts all marks that follow it (C128_mark_refuted). Proved: the marked units are the blamed bytes if all characters up to the end of the mark are ASCII (C128_ascii); every text reaches the parser as its UTF-8 encoding (C128_string), and the error about the encoding never arises on the page (C128_encoding).
* **C138** A string that is not a decimal number satisfies no comparison with a number: REFUTED: the string Inf is greater than 5 (C138_words_refuted), the string 1_000 equals 1000 and 0x1p4 equals 16 (C138_notation_refuted). Proved: strings that are neither numerals of Go nor these words satisfy no comparison (C138_other).
* **C140** The example of an object lists at most ten of its names, as they are: REFUTED: eleven names are listed, because the count is compared after it was raised (C140_ten_refuted); and the names, which ObjectEach has decoded already, are decoded again, so that the name made of a backslash and n appears as a newline (C140_decoded_refuted) and a lone backslash as an invalid key (C140_shown_refuted). Proved: the first eleven names, if they have no backslash (C140_names).
* **C141** Statistics about a field are exact when mark is called concurrently: REFUTED for the examples: the counter is raised and read in two steps, so of 1001 calls none may leave an example (C141_missed_refuted) and of 1000 calls two may (C141_twice_refuted). Proved for all interleavings: no panic and exact counts, with example lists, or without them for fewer than 1000 calls (C141_counts).
* **C142** Sample accepts exactly the JSON objects and arrays: REFUTED both ways: a valid document followed by a newline is refused (C142_valid_refuted), in general every document with blanks around it (C142_blanks); two documents one after the other, wrong numbers, a comma before the closing brace and wrong escapes are accepted (C142_invalid_refuted, C142_syntax_refuted). Proved in general: after a first document, anything that ends with the same bracket is ignored (C142_rest). C51 says that documents without blanks around are accepted, if names can be decoded and arrays at the top hold no scalars.
* **C143** The examples of the README behave as the README says: REFUTED in two places: the example of the section Paths, level1.level2.level3 compared with the string here!, is answered false by the code (C143_answers_refuted; a string that does not end with a word character does not equal itself, C43), and the query with a time zone offset is rejected, as the README writes the offset with U+2212 instead of a hyphen (C143_queries_refuted). All other answers (C143_answers), the program (C143_usage, if the library recognises the date of its document) and all other queries (C143_queries, if the formatter of floats is right and the pattern of the example compiles) are as the README says.
* **C144** The parser does not panic, with or without Recover, and can be entered at any rule: REFUTED: a:1.2.3.4/99 makes an action assert the type of a nil value; only the recovery turns that panic into an error (C144_no_panic_refuted). True instead: a panic comes only after a recorded error that is no panic itself, and with recovery it is the last of the errors (C144_panic); accepted texts are accepted without recovery too (C144_accepted); a result returned without recovery is the one with it (C144_returned). The parse ends from every entry point (C144_ends), exactly the names of no rule are refused (C144_unknown), and Query accepts what Start accepts, with the same value (C144_query) - but also texts that go on after the query, whose rest is ignored (C144_query_only_refuted).
* **C147** The parser records each fault of a query once: REFUTED for the list the parser builds up: the same error 4^n times behind n parentheses (C147_recorded, exact number). Proved for the list the caller gets (C147_told, C147_one). The text of an error, a parameter of dedupe, is left open.
* **C149** The JSON of statistics tells every counter and every example: REFUTED: encoding/json never calls MarshalJson (it looks for MarshalJSON) and never writes an example; of a copy of a FieldStats it writes no counter. Proved instead: through a pointer all counters are told exactly (types by position), MarshalJson would report all of it if the example lists were made, and the JSON of a MatchStats tells everything.
* **C150** The title of a drawing is its query, and labels arrive in full: REFUTED: graphviz reads backslashes in the title as escapes, and C strings end at a zero byte, which regular expressions and (escaped) field names may contain. Proved: the title is the query if it has no backslash, ampersand or zero byte; a label arrives in full exactly if no field name and no printed value has a zero byte.
* **C152** What Sample says about a text it refuses for its outer form is true and readable: REFUTED: a whole object followed by a line end is called unterminated, an array after a blank is called no array (C152_true_refuted), and a text of more than 100 bytes may be cut within a character (C152_readable_refuted). Proved: exactly when these errors arise and that they leave the sampler as it was (C152_which), their words and quotation (C152_text), that the words are true of JSON values without blanks around them (C152_true), and that the error is UTF-8 for samples of up to 100 bytes (C152_readable).
* **C153** A matcher built without statistics answers the same and has no report: REFUTED for the report: only comparisons look whether they have counters, so Stats of a query with AND, OR or NOT at the top dereferences nil (C153_stats_refuted; C153_no_stats says exactly when). Proved: the rest.

## Trusted base

* The Coq kernel (also re-checked with coqchk).
* Axioms. `Print Assumptions` is run on every theorem of the manifest. All are closed under the global context except those
  marked † above, which use the axioms of Coq's real numbers through Flocq: `ClassicalDedekindReals.sig_not_dec`,
  `ClassicalDedekindReals.sig_forall_dec`, `FunctionalExtensionality.functional_extensionality_dep`, `Classical_Prop.classic`.
* The hand translation of the Go code into Gallina; each definition cites its source lines. `Conformance.v` runs the test
  cases of the repository on the model.
* The fidelity of the library models. `strconv`, `time`, `net/netip`, `utf8`, `encoding/json.Valid` and the fragment of `regexp`
  produced by `str_matchers.go` follow the Go sources or documentation. `buger/jsonparser` v1.1.1 is not on disk and is modelled from
  memory of its published source. `strconv.FormatFloat` is modelled by its documented result, not its algorithm.
* Oracles (fields of `Oracles.oracles`, universally quantified): parsing and matching of user regular expressions, `dateparse.ParseAny`,
  formatting of floats, spellings of ParseFloat other than decimal, `unicode.IsPrint`, `strings.ToLower` outside ASCII, `x/text/search`, Unicode case folding outside ASCII, bits of
  strict number parsing. Theorems that need a property of an oracle state it as a hypothesis, and an instance meeting it is given.

### Simplifications

* PEG engine: `Engine.v` is the parser as the callers run it, `Memo.v` the one with the option Memoize. Debug output, statistics other than ExprCnt and the unused state store are omitted. The limit on expressions is not set by the callers.
* `ast.SubdocNode` is never produced by the parser and is omitted. The size limits of `regexp` are not modelled (the oracle may reject).
* Statistics: each atomic increment or load is one step of a sequentially consistent memory; a call that panics ends the program.
  Evaluation reads no shared mutable data, so the steps of a call are fixed beforehand.
* Counters of the sampler, of field statistics and of the graph are unbounded; those of nodes wrap at 64 bits.
* `fmtmsg`: the capacity of a slice is a parameter; a panic inside a template becomes the error of `Execute`, as text/template does.
  Colour codes are not modelled.
* `aqlgraph`: graphviz is represented by the lists of created nodes and edges; colours and shapes are omitted. What graphviz makes of the title is modelled in `GraphTitle.v` (C150).
* `wasm`: of syscall/js the conversion of strings is modelled (`Page.v`), the rest of the glue is not. jQuery and the highlighter are represented by what the script of the page hands to them. The parser and visitors carry errors and messages as symbols; `Texts.v` gives their wording (texts of regexp errors, run-time panics and Go type names are parameters).

### Not modelled

`jsonmatcher/valueprovider.go` (interfaces only); of `wasm/aqlparse/server` only which files are opened and sent (`Server.v`), not HTTP itself.

## Mutation testing

`seeded/LOG.jsonl` has one line per attempt. In a copy of the development one definition of the model is changed like a realistic bug, everything is
rebuilt, broken proofs are admitted so that the build continues, and the property theorems that depend on an admitted proof are recorded as failed.
Survivors are either equivalent (no input is treated differently) or led to a stronger statement; both are recorded.
