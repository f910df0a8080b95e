{"id": "C01", "title": "Parsing always finishes and is total", "statement": "ParseQuery applied to any byte string whatsoever (valid UTF-8 or not) performs finitely many parsing steps and returns exactly one of: a non-nil AST with a nil error, or a nil AST with a *ParseError.", "quantifier": "for every byte string used as query text", "why_tests_cant": "A PEG with a bad repetition or left recursion loops only on particular inputs; tests show termination on the sampled inputs only.", "anchors": ["internal/grammar/parser_gen.go: parser.parse, parseExpr, g", "parser/parser.go: ParseQuery, ParseQueryReader"]}
{"id": "C02", "title": "Rejected queries never report an internal panic", "statement": "When ParseQuery rejects a query, the error it returns describes the query (syntax, literal or validation error); it is never the text of a recovered Go run-time panic (failed type assertion, index out of range) raised inside the parser actions.", "quantifier": "for every byte string used as query text", "why_tests_cant": "Panics occur only after unusual combinations of earlier recoverable errors; no finite list of bad queries covers all combinations.", "anchors": ["internal/grammar/parser_gen.go: parser.parse (recover), on* actions", "internal/grammar/aql.peg: actions"]}
{"id": "C03", "title": "ParseQuery accepts exactly the documented language and builds the documented tree", "statement": "A query text is accepted with tree t if and only if the text can be derived as t in the written grammar: clauses joined by OR, of clauses joined by AND, of optionally negated comparisons, where parentheses group, NOT/! applies to the next comparison only, and AND/OR chains nest to the right; and t also passes the operator checks.", "quantifier": "for every byte string and every tree", "why_tests_cant": "Both inclusions are statements about infinitely many texts and about all ways ordered choice, greedy repetition and leftover errors of abandoned alternatives may interfere.", "anchors": ["internal/grammar/parser_gen.go: g, parseChoiceExpr, parseSeqExpr, parseZeroOrMoreExpr", "internal/grammar/aql.peg: grammar rules", "README.md: Boolean Logic"]}
{"id": "C04", "title": "Rendering a query tree and parsing it gives the tree back", "statement": "For every tree made of AND/OR/NOT and comparisons with well-formed literals that satisfies the operator checks, writing it with parentheses only where precedence needs them and parsing the text returns the same tree (ignoring source positions). Hence AND binds tighter than OR and NOT tighter than both.", "quantifier": "for every query tree of any depth and size", "why_tests_cant": "Unbounded nesting of operators: the interactions between depth, precedence and backtracking cannot be enumerated.", "anchors": ["internal/grammar/aql.peg: OrClause, AndClause, NotClause, Comparison", "parser/parser.go: ParseQuery"]}
{"id": "C05", "title": "Whitespace between tokens is irrelevant", "statement": "Replacing the amount of white space (spaces, tabs, CR, LF) at any place where the grammar allows white space changes neither acceptance nor the resulting tree (ignoring source positions); in particular leading and trailing white space is ignored.", "quantifier": "for every accepted query and every choice of white space at each token boundary", "why_tests_cant": "Exponentially many white-space layouts per query.", "anchors": ["internal/grammar/aql.peg: _, space, Query, Comparison, ValueList"]}
{"id": "C06", "title": "Reported source positions are exact", "statement": "In every tree returned by ParseQuery, each comparison and each literal carries the byte offset where its own text starts, the 1-based line and column (in code points) of that offset, and its length in code points.", "quantifier": "for every accepted query and every comparison and literal in it", "why_tests_cant": "Positions depend on all preceding text, including multi-byte characters and newlines, and on backtracking over them.", "anchors": ["internal/grammar/aql.peg: getpos", "internal/grammar/parser_gen.go: parser.read, parser.restore, parseActionExpr", "parser/ast/ast.go: Pos"]}
{"id": "C07", "title": "Error positions lie inside the query", "statement": "Every *ParseError returned by ParseQuery for a syntax or literal error carries an offset between 0 and the length of the query in bytes and a line number of at least 1.", "quantifier": "for every rejected byte string", "why_tests_cant": "The furthest-failure position and error recovery depend on the whole parse history.", "anchors": ["internal/grammar/parser_gen.go: addErrAt, failAt, parser.parse", "internal/grammar/aql.peg: GetParseError"]}
{"id": "C08", "title": "Parsing cost is bounded by a polynomial in the query length", "statement": "There is a polynomial bound on the number of grammar expressions the parser evaluates for a query of a given length.", "quantifier": "for every query, as the nesting of parentheses grows", "why_tests_cant": "Asymptotic statement; a test only times particular sizes.", "anchors": ["internal/grammar/parser_gen.go: parseExpr (ExprCnt), memoize option unused", "internal/grammar/aql.peg: OrClause, AndClause, Comparison"]}
{"id": "C09", "title": "Integer literals denote exactly their decimal value", "statement": "An integer literal in an accepted query denotes exactly the integer written, and a literal is rejected if and only if that integer does not fit in 64 signed bits.", "quantifier": "for every digit string with optional minus sign", "why_tests_cant": "Infinite set of literals with a boundary at 2^63.", "anchors": ["parser/ast/ast.go: NewIntVal", "internal/grammar/aql.peg: IntValue"]}
{"id": "C10", "title": "Quoted strings can express every Unicode text", "statement": "For every Unicode text there is a quoted literal (writing control characters, quotes and backslashes as escapes) that ParseQuery accepts and that denotes exactly that text, for values and for field names other than a single star; and a quoted literal without surrogate escapes is never rejected.", "quantifier": "for every sequence of Unicode scalar values", "why_tests_cant": "All Unicode texts of all lengths.", "anchors": ["internal/grammar/aql.peg: QuotedValue, EscapeSequence, QuotedFieldPiece", "internal/grammar/parser_gen.go: onQuotedValue2", "parser/ast/ast.go: NewStringVal"]}
{"id": "C11", "title": "Regular-expression literals keep their body", "statement": "The pattern compiled for /body/ is body with each escaped slash \\/ replaced by a plain slash, nothing else being removed or changed.", "quantifier": "for every regular-expression literal", "why_tests_cant": "The defect depends on where slashes and backslashes fall in the body.", "anchors": ["internal/grammar/parser_gen.go: onRegexValue2", "parser/ast/ast.go: NewRegexpVal", "internal/grammar/aql.peg: RegexValue"]}
{"id": "C12", "title": "Date and timestamp literals denote the right instant", "statement": "A YYYY-MM-DD literal is accepted iff it is a valid Gregorian calendar date and denotes midnight UTC of that day; an RFC 3339 timestamp denotes the instant it names, including fraction and zone offset; the same instant written with different offsets is the same value.", "quantifier": "for every date and timestamp literal", "why_tests_cant": "Calendar arithmetic over ten thousand years, leap years and offsets.", "anchors": ["parser/ast/ast.go: NewTimeVal", "internal/grammar/aql.peg: Timestamp, dateTime, fullDate"]}
{"id": "C13", "title": "Every timestamp form the grammar admits can be used", "statement": "Every literal matching the timestamp grammar (date, then T, t or a space, then a time, then Z, z or an offset) with in-range fields is accepted as a timestamp value.", "quantifier": "for every literal matching the timestamp rule with in-range fields", "why_tests_cant": "Combination of separator and zone variants with all field values.", "anchors": ["internal/grammar/aql.peg: dateTime, timeOffset", "parser/ast/ast.go: NewTimeVal"]}
{"id": "C14", "title": "Invalid UTF-8 is never accepted", "statement": "A query that is not valid UTF-8 is rejected by ParseQuery.", "quantifier": "for every byte string that is not valid UTF-8", "why_tests_cant": "Invalid sequences can occur at any place and in any token.", "anchors": ["internal/grammar/parser_gen.go: parser.read, errInvalidEncoding"]}
{"id": "C15", "title": "Star path segments are ignored", "statement": "Removing or inserting unquoted * segments in a field path does not change the parsed path, as long as one other segment remains; and a quoted segment keeps its text.", "quantifier": "for every field path", "why_tests_cant": "All paths of all lengths.", "anchors": ["internal/grammar/aql.peg: removeStars, Field, Star"]}
{"id": "C16", "title": "Operators only ever receive the argument kinds and counts they support", "statement": "In every tree returned by ParseQuery: < <= > >= have exactly one integer, float or timestamp; >< has exactly two of these; ~ has one or more strings, regexes or booleans; == has one or more values; exists and null have none. Conversely a grammatical query whose comparisons satisfy these and the duplicate and range rules is accepted.", "quantifier": "for every query", "why_tests_cant": "Combinations of operator, arity and kinds inside arbitrary trees.", "anchors": ["parser/validators.go: checkValues, checkArity, mustBeOneOf, opValidator"]}
{"id": "C17", "title": "Value lists have no duplicates", "statement": "In every accepted value list no value occurs twice and true/false do not both occur in an equality list; duplicates are detected by value, not by spelling.", "quantifier": "for every accepted value list", "why_tests_cant": "Lists of every length and all spellings of equal values.", "anchors": ["parser/validators.go: checkRVals", "parser/ast/ast.go: String methods"]}
{"id": "C18", "title": "Accepted ranges are non-empty and of one kind", "statement": "In every accepted range a:><(x, y), x and y are both numbers or both timestamps and x is strictly below y.", "quantifier": "for every accepted query containing ><", "why_tests_cant": "All pairs of literals, including mixed kinds and extreme magnitudes.", "anchors": ["parser/validators.go: checkBetween"]}
{"id": "C19", "title": "Visitors see every node once, in pre-order", "statement": "During ParseQuery each registered visitor is called, in registration order and only after all built-in checks accepted the tree, once per node in depth-first pre-order, left before right; Skip omits exactly the subtree below the node, SkipAll ends that visitor's walk without error, and any other error stops parsing with that error and no later visitor runs.", "quantifier": "for every tree, every list of visitors and every behaviour of the visitors", "why_tests_cant": "Visitors are arbitrary stateful functions; trees are unbounded.", "anchors": ["parser/visitors.go: walk, walkr, Skip, SkipAll", "parser/parser.go: ParseQueryReader"]}
{"id": "C20", "title": "Errors on the message tape reject the query", "statement": "If a message visitor puts an error on its tape during an otherwise successful parse, ParseQuery returns the first such error instead of a tree.", "quantifier": "for every message visitor and every query", "why_tests_cant": "Depends on the whole message history of the tape.", "anchors": ["parser/visitors.go: MessageTape.addMsg, MessageTape.Error", "parser/parser.go: ParseQueryReader"]}
{"id": "C21", "title": "Hints and warnings never affect acceptance", "statement": "NewMatcher succeeds on exactly the queries ParseQuery accepts, and its Messages() lists the hints and warnings in the order of the comparisons and values in the query text.", "quantifier": "for every query", "why_tests_cant": "All queries with all combinations of values.", "anchors": ["jsonmatcher/query_messages.go: messageVisitor", "jsonmatcher/jsonmatcher.go: NewMatcher"]}
{"id": "C22", "title": "NewMatcher never panics", "statement": "NewMatcher returns a matcher or an error for every query string; none of the backstop panics of the builder can be reached.", "quantifier": "for every byte string used as query text", "why_tests_cant": "The backstops guard combinations that only the validator excludes.", "anchors": ["jsonmatcher/build_matcher.go: builder.build", "jsonmatcher/expr_eq.go", "jsonmatcher/expr_between.go", "jsonmatcher/expr_numeric.go"]}
{"id": "C23", "title": "Match never panics", "statement": "For every matcher obtained from NewMatcher and every byte slice, Match returns normally.", "quantifier": "for every accepted query and every document", "why_tests_cant": "Pairs of arbitrary queries and documents.", "anchors": ["jsonmatcher/jsonmatcher.go: Matcher.Match", "jsonmatcher/json_values.go: getValues, valuepath.current"]}
{"id": "C24", "title": "Boolean connectives mean what they say", "statement": "On every valid document on which no path of the query is unsafe (C72): p AND q matches iff both match, p OR q iff at least one does, NOT p iff p does not; hence De Morgan, double negation and distribution hold for queries of any size.", "quantifier": "for every pair of accepted queries and every valid document; paths that do not make Match panic (C72) and do not begin with [ on a top-level array (C123)", "why_tests_cant": "Unbounded nesting and all documents.", "anchors": ["jsonmatcher/nodes.go: andNode.result, orNode.result, notNode.result"]}
{"id": "C25", "title": "Matching has no memory", "statement": "The result of Match on a document depends only on the query and that document, never on documents matched earlier or concurrently, nor on whether statistics were read.", "quantifier": "for every sequence of Match and Stats calls", "why_tests_cant": "All histories.", "anchors": ["jsonmatcher/nodes.go: result methods", "jsonmatcher/node_stats.go: nodeStats"]}
{"id": "C26", "title": "Field paths resolve as documented", "statement": "The values a path refers to are exactly: starting at the top-level object, each segment selects the member of that name; arrays in between are traversed transparently into their object elements; anything else ends the branch.", "quantifier": "for every path and every document", "why_tests_cant": "Arbitrary nesting of objects and arrays.", "anchors": ["jsonmatcher/json_values.go: getField, getValues", "README.md: Paths, Array Introspection"]}
{"id": "C27", "title": "exists holds exactly when the path resolves", "statement": "field:exists matches iff the path resolves to at least one value of any kind, null included.", "quantifier": "for every path and valid document; paths that do not make Match panic (C72) and do not begin with [ on a top-level array (C123)", "why_tests_cant": "Arbitrary documents.", "anchors": ["jsonmatcher/expr_exists.go: exprExists.matches", "jsonmatcher/nodes.go: exprNode.result"]}
{"id": "C28", "title": "null holds exactly when every resolution is null", "statement": "field:null matches iff the path resolves to at least one value and all values it resolves to are JSON null; hence it implies exists.", "quantifier": "for every path and valid document; paths that do not make Match panic (C72) and do not begin with [ on a top-level array (C123)", "why_tests_cant": "Universal statement over all resolutions in nested structure.", "anchors": ["jsonmatcher/expr_null.go: exprNull.matches", "jsonmatcher/nodes.go: exprNode.result"]}
{"id": "C29", "title": "Value tests look at every scalar the path reaches", "statement": "A comparison with a value matches iff some scalar satisfies it, the scalars being the non-object, non-array values the path resolves to plus the scalar elements of arrays the path resolves to (not of arrays inside those).", "quantifier": "for every comparison and every valid document; paths that do not make Match panic (C72) and do not begin with [ on a top-level array (C123)", "why_tests_cant": "Arbitrary nesting; order of elements must not matter.", "anchors": ["jsonmatcher/json_values.go: scalarValues", "jsonmatcher/expr_numeric.go: matches", "jsonmatcher/expr_net.go: matches", "jsonmatcher/expr_regexp.go: matches", "jsonmatcher/expr_datetime.go: matches"]}
{"id": "C30", "title": "An equality set is the OR of its members", "statement": "field:(v1, ..., vn) matches a document iff field:v1 OR ... OR field:vn does.", "quantifier": "for every n, all value kinds mixed in any order and every valid document", "why_tests_cant": "All list lengths and kind mixtures.", "anchors": ["jsonmatcher/expr_eq.go: exprEQ", "jsonmatcher/nodes.go: exprNode.result", "README.md: Equality set"]}
{"id": "C31", "title": "The similarity operator is equality", "statement": "field:~v matches exactly the documents field:v matches, for all value lists ~ accepts.", "quantifier": "for every value list accepted by ~ and every document", "why_tests_cant": "All documents.", "anchors": ["jsonmatcher/build_matcher.go: builder.build (SIM)"]}
{"id": "C32", "title": "Numeric comparison is by numeric value", "statement": "field:1, field:<1 and so on compare the exact number in the document with the exact number in the query.", "quantifier": "for every integer or decimal in the query and every JSON number", "why_tests_cant": "Rounding only shows for particular magnitudes.", "anchors": ["jsonmatcher/expr_float.go: exprFloat.matches", "jsonmatcher/expr_eq.go", "jsonmatcher/expr_numeric.go"]}
{"id": "C33", "title": "The ordering operators are mutually consistent", "statement": "For a field holding a single number: exactly one of <v, ==v, >v matches; <=v is <v or ==v; >=v is >v or ==v; and values that are neither numbers nor numeric strings (or are the string NaN) satisfy none of them.", "quantifier": "for every number in the query and every JSON scalar; paths that do not make Match panic (C72) and do not begin with [ on a top-level array (C123)", "why_tests_cant": "All floating point values including the special ones reachable from strings.", "anchors": ["jsonmatcher/expr_float.go: exprFloat.matches", "jsonmatcher/json_values.go: getNumberVal"]}
{"id": "C34", "title": "Between is an inclusive range test", "statement": "For end points of the same kind, field:><(x, y) matches iff some scalar reached is at least x and at most y; for a field with one scalar it equals field:>=x AND field:<=y.", "quantifier": "for every accepted range and every document; paths that do not make Match panic (C72) and do not begin with [ on a top-level array (C123)", "why_tests_cant": "All bounds and documents.", "anchors": ["jsonmatcher/expr_between.go: exprBetween", "jsonmatcher/expr_float.go", "jsonmatcher/expr_datetime.go"]}
{"id": "C35", "title": "Between excludes its end points", "statement": "As the README says, field:><(1, 2) searches for a value greater than 1 and less than 2.", "quantifier": "for every range and document", "why_tests_cant": "Statement about all bounds.", "anchors": ["README.md: Between", "jsonmatcher/expr_float.go: exprFloat.matches"]}
{"id": "C36", "title": "Boolean equality is strict", "statement": "field:true matches iff some scalar reached is the JSON literal true (same for false); strings, numbers and null never match; on a single-valued field true and false never both match.", "quantifier": "for every document; paths that do not make Match panic (C72) and do not begin with [ on a top-level array (C123)", "why_tests_cant": "All documents.", "anchors": ["jsonmatcher/expr_equal_bool.go: exprEqBool.matches", "jsonmatcher/json_values.go: getBoolVal"]}
{"id": "C37", "title": "Timestamp comparisons follow the time line", "statement": "For a document value recognised as an instant, field:<t matches iff the instant is before t, and likewise for the other operators.", "quantifier": "for every timestamp literal and every instant", "why_tests_cant": "Holds on a bounded interval of years only; tests use years near 1970.", "anchors": ["jsonmatcher/expr_datetime.go: exprDatetime.matches", "jsonmatcher/json_values.go: getDatetimeVal"]}
{"id": "C38", "title": "A date matches the whole UTC day", "statement": "field:YYYY-MM-DD matches an instant iff it lies on that calendar day in UTC: from midnight inclusive to the next midnight exclusive, to the nanosecond.", "quantifier": "for every date literal and instant", "why_tests_cant": "Every day and every nanosecond.", "anchors": ["jsonmatcher/expr_eq.go: exprEQ (TimeVal)", "jsonmatcher/expr_datetime.go"]}
{"id": "C39", "title": "Network equality is set intersection", "statement": "A network literal matches a text iff the text contains an address or block (as found left to right) sharing at least one IPv4 address with the literal; a plain address acts as the one-element network, and the test is symmetric.", "quantifier": "for all pairs of IPv4 prefixes and addresses; paths that do not make Match panic (C72) and do not begin with [ on a top-level array (C123)", "why_tests_cant": "2^32 addresses times 33 lengths squared.", "anchors": ["jsonmatcher/expr_net.go: exprNet.matches, getNets", "parser/ast/ast.go: NewNetVal"]}
{"id": "C40", "title": "Malformed addresses never match and never fail", "statement": "Candidate addresses with an octet above 255, with leading zeros, or with a prefix length above 32 are skipped without affecting other candidates in the same or other values.", "quantifier": "for every text; paths that do not make Match panic (C72) and do not begin with [ on a top-level array (C123)", "why_tests_cant": "All texts.", "anchors": ["jsonmatcher/expr_net.go: exprNet.matches"]}
{"id": "C41", "title": "Every string can be searched for", "statement": "For every string literal the internal search pattern compiles, so a matcher is always produced, and regular-expression metacharacters in the literal have no special meaning.", "quantifier": "for every string; paths that do not make Match panic (C72) and do not begin with [ on a top-level array (C123)", "why_tests_cant": "All strings over all metacharacters.", "anchors": ["jsonmatcher/str_matchers.go: stringSearchRegexp, getStringMatcher"]}
{"id": "C42", "title": "String equality is a case-insensitive whole-word search with ? and *", "statement": "For an ASCII literal, field:\"s\" matches a text iff some segment of the text delimited by word boundaries equals s case-insensitively where ? stands for exactly one character (not newline), * for any number of characters (not newline), and \\? \\* for themselves.", "quantifier": "for every ASCII literal and every text; paths that do not make Match panic (C72) and do not begin with [ on a top-level array (C123)", "why_tests_cant": "All patterns against all texts.", "anchors": ["jsonmatcher/str_matchers.go: stringSearchRegexp", "jsonmatcher/expr_regexp.go"]}
{"id": "C43", "title": "A string equals itself", "statement": "field:\"s\" matches a document whose field is exactly the string s.", "quantifier": "for every string s without wildcards", "why_tests_cant": "The defect depends on the first and last character only.", "anchors": ["jsonmatcher/str_matchers.go: stringSearchRegexp", "README.md: Equality"]}
{"id": "C44", "title": "Invalid JSON is an error and leaves no trace", "statement": "Match on a byte slice that is not valid JSON returns an error and does not change the statistics; on valid JSON it never returns an error.", "quantifier": "for every byte slice", "why_tests_cant": "All byte slices.", "anchors": ["jsonmatcher/jsonmatcher.go: Matcher.Match"]}
{"id": "C45", "title": "Only the named top-level members matter", "statement": "Two valid documents that agree on the members named by the first segments of the paths in the query give the same result; in particular member order and unrelated members are irrelevant.", "quantifier": "for every query and pair of documents that are objects", "why_tests_cant": "All pairs of documents.", "anchors": ["jsonmatcher/json_values.go: getValues"]}
{"id": "C46", "title": "Top-level arrays are traversed like nested ones", "statement": "If the document is an array, its object elements are searched like those of any array met on the path.", "quantifier": "for every document whose root is an array", "why_tests_cant": "All documents.", "anchors": ["jsonmatcher/json_values.go: getField", "README.md: Array Introspection"]}
{"id": "C47", "title": "Statistics count evaluations exactly", "statement": "After any sequence of Match calls, every node's TimesChecked is the number of times it was evaluated under short-circuit evaluation and TimesMatched the number of times it was true; the root is checked once per Match on valid JSON; TimesMatched <= TimesChecked.", "quantifier": "for every query and sequence of documents; paths that do not make Match panic (C72) and do not begin with [ on a top-level array (C123)", "why_tests_cant": "All histories.", "anchors": ["jsonmatcher/node_stats.go: nodeStats.mark, toStatsNode", "jsonmatcher/nodes.go: result methods"]}
{"id": "C48", "title": "Concurrent matching loses no statistics", "statement": "If several goroutines call Match on one matcher, then once all have returned the statistics equal those of running the same calls one after another, in whatever order, and every call returns what it returns alone.", "quantifier": "for every interleaving of the atomic steps of any number of goroutines", "why_tests_cant": "Exponentially many schedules.", "anchors": ["jsonmatcher/node_stats.go: nodeStats.mark (atomic)", "jsonmatcher/nodes.go"]}
{"id": "C49", "title": "Statistics snapshots are consistent", "statement": "Stats() taken at any moment, also while other goroutines are matching, reports TimesMatched <= TimesChecked.", "quantifier": "for every interleaving of Match and Stats", "why_tests_cant": "The bad schedule is a three-step window.", "anchors": ["jsonmatcher/node_stats.go: toStatsNode"]}
{"id": "C50", "title": "Stats() returns the whole tree", "statement": "The value returned by Stats() has the shape of the query: an AND or OR node has two children, a NOT node one.", "quantifier": "for every query", "why_tests_cant": "Shape statement for all trees.", "anchors": ["jsonmatcher/nodes.go: stats methods", "jsonmatcher/node_stats.go: toStatsNode"]}
{"id": "C51", "title": "Sampled keys are exactly the scalar paths", "statement": "After sampling valid documents (objects, or arrays without scalar elements, with decodable names and no blanks around them) with depth limit d >= 0, Keys() is the set of dotted paths of at most d segments that lead, through objects and transparently through arrays of non-arrays, to a scalar in at least one document.", "quantifier": "for every list of documents and every d", "why_tests_cant": "Arbitrary nesting.", "anchors": ["sampler/sampler.go: Sampler.Sample, Sampler.sample, Sampler.Keys"]}
{"id": "C52", "title": "The order of samples is irrelevant", "statement": "Sampling the same documents in any order gives the same key counts, Keys, KeysAtThreshold and Scanned.", "quantifier": "for every permutation of every document list", "why_tests_cant": "Factorially many orders.", "anchors": ["sampler/sampler.go: Sampler.Sample"]}
{"id": "C53", "title": "A negative depth means no limit", "statement": "New(n) with n < 0 samples keys at every depth.", "quantifier": "for every n < 0 and every document", "why_tests_cant": "Documented contract over all depths.", "anchors": ["sampler/sampler.go: New, Sampler.sample"]}
{"id": "C54", "title": "Sample never panics", "statement": "Sample returns normally for every byte slice and in every state of the sampler.", "quantifier": "for every history of calls and every input", "why_tests_cant": "The panic needs particular histories.", "anchors": ["sampler/sampler.go: Sampler.Sample, Sampler.sample"]}
{"id": "C55", "title": "A failed Sample does not destroy earlier results", "statement": "If Sample returns an error, Keys and counts collected earlier remain and later samples can be added.", "quantifier": "for every history", "why_tests_cant": "All histories.", "anchors": ["sampler/sampler.go: Sampler.Sample (keys = nil)"]}
{"id": "C56", "title": "The threshold comparison is exact", "statement": "KeysAtThreshold(t) returns exactly the keys whose count c satisfies 100*c >= t*docs, despite being computed in floating point; it is therefore antitone in t and returns all keys for t <= 0.", "quantifier": "for every history of successful samples with fewer than 2^45 documents, counts up to 2^53 and every t from -100 to 100 (more generally while t*docs < 2^52)", "why_tests_cant": "Floating point rounding near equality.", "anchors": ["sampler/sampler.go: KeysAtThreshold"]}
{"id": "C57", "title": "The threshold is a share of documents", "statement": "KeysAtThreshold(t) returns the keys that occur in at least t percent of the documents.", "quantifier": "for every list of documents", "why_tests_cant": "Depends on repeated occurrences within one document.", "anchors": ["sampler/sampler.go: KeysAtThreshold, Sampler.sample"]}
{"id": "C58", "title": "Reset restores the initial state", "statement": "After Reset the sampler behaves as a newly created one with the same depth.", "quantifier": "for every history before and after Reset", "why_tests_cant": "All histories.", "anchors": ["sampler/sampler.go: Reset"]}
{"id": "C59", "title": "Sampled keys work as query fields", "statement": "For every key k reported after sampling a document, the query k:exists is accepted and matches that document.", "quantifier": "for every document and every key reported", "why_tests_cant": "Joint statement about sampler, parser and matcher.", "anchors": ["sampler/sampler.go: Sampler.sample", "internal/grammar/aql.peg: Field", "jsonmatcher/json_values.go: getValues"]}
{"id": "C60", "title": "The display window is a valid slice", "statement": "For every query, message position inside the query and width limit, the displayed window of the query is a valid slice of it, no longer than the limit, containing the start of the highlighted text and all of it when it fits.", "quantifier": "for all query lengths, positions and widths", "why_tests_cant": "Integer case analysis over four unbounded parameters.", "anchors": ["parser/fmtmsg/truncate.go: truncate, findCenterSubstring"]}
{"id": "C61", "title": "The marker line points at the right text", "statement": "In terminal output the carets are exactly below the highlighted code points of the displayed query.", "quantifier": "for every query, position and width", "why_tests_cant": "All queries including multi-byte text.", "anchors": ["parser/fmtmsg/formatter.go: HLStrOffset, Query, terminalTmpl"]}
{"id": "C62", "title": "Pre, highlight and post parts concatenate to the displayed query", "statement": "For every message with a position, QueryPre + QueryHL + QueryPost equals Query.", "quantifier": "for every query, position and width", "why_tests_cant": "All parameters.", "anchors": ["parser/fmtmsg/formatter.go: QueryPre, QueryHL, QueryPost, Query"]}
{"id": "C63", "title": "Example lists return the stored examples", "statement": "ExampleList.Get returns the (up to ten) most recently added examples.", "quantifier": "for every sequence of additions", "why_tests_cant": "All sequences and lengths.", "anchors": ["jsonmatcher/field_stats.go: ExampleList.addExample, ExampleList.Get"]}
{"id": "C64", "title": "The query graph mirrors the query", "statement": "QueryGraph produces one node per tree node plus a start node, all with distinct names, and exactly one incoming edge for each tree node, from its parent (or start), left edge before right edge; edge names are distinct from each other and from node names.", "quantifier": "for every accepted query", "why_tests_cant": "Unbounded trees.", "anchors": ["aqlgraph/graph.go: visitNodes, namegraph, namer"]}
{"id": "C65", "title": "Graph labels are well-formed markup", "statement": "The HTML label of a comparison is well formed for every query: field text and values are escaped.", "quantifier": "for every accepted query", "why_tests_cant": "All field names and values.", "anchors": ["aqlgraph/node_html.go: labelTmpl", "aqlgraph/graph.go: visitNodes"]}
{"id": "C66", "title": "Printed field paths can be parsed back", "statement": "The text FieldString prints for a path, used as the field of a query, parses to the same path.", "quantifier": "for every path", "why_tests_cant": "All field names.", "anchors": ["parser/ast/ast.go: FieldString", "internal/grammar/aql.peg: Field"]}
{"id": "C67", "title": "Printed value lists distinguish values", "statement": "Two values of an accepted query print to the same String() only if they have the same kind and denote the same value.", "quantifier": "for all pairs of values of accepted queries", "why_tests_cant": "All pairs.", "anchors": ["parser/ast/ast.go: String methods"]}
{"id": "C68", "title": "The web front end marks a position inside the input", "statement": "For every rejected input, the start and end positions passed to the page satisfy 0 <= start <= end <= length of the input.", "quantifier": "for every rejected input", "why_tests_cant": "All inputs, including the empty one.", "anchors": ["wasm/aqlparse/main.go: errConvert"]}
{"id": "C69", "title": "Regular-expression literals keep their body away from the delimiters", "statement": "The pattern compiled for /body/ is body with each escaped slash replaced by a plain slash, and the literal is accepted iff that pattern compiles, provided the body does not end in an escaped backslash and neither starts nor ends with an escaped slash.", "quantifier": "for every regular-expression literal outside the named exceptions", "why_tests_cant": "Depends on where slashes and backslashes fall in bodies of every length.", "anchors": ["internal/grammar/parser_gen.go: onRegexValue2", "parser/ast/ast.go: NewRegexpVal"]}
{"id": "C70", "title": "Accepted timestamp forms", "statement": "A literal of the timestamp grammar is accepted iff the separator is T, the date is valid, hour, minute and second are in range and the zone is Z or an offset of at most 24 hours and 60 minutes.", "quantifier": "for every literal matching the timestamp rule", "why_tests_cant": "All combinations of fields, fractions and zones.", "anchors": ["parser/ast/ast.go: NewTimeVal", "internal/grammar/aql.peg: dateTime, timeOffset"]}
{"id": "C71", "title": "Printed field paths of ordinary names can be parsed back", "statement": "If every segment of a path is a non-empty name of letters, digits, underscore and minus, or contains a space, dot or quote and only characters that Quote writes with JSON escapes, and none is a single star, then the text FieldString prints, used as the field of a query, parses to the same path.", "quantifier": "for every such path", "why_tests_cant": "All field names of all lengths.", "anchors": ["parser/ast/ast.go: FieldString", "internal/grammar/aql.peg: Field"]}
{"id": "C72", "title": "Match returns normally unless a path is empty or starts with an empty segment", "statement": "Match panics on a valid document, for a query of one comparison, exactly when the path after dropping stars is empty, or when its first segment is the empty string and the document is an array; for any query, if no path is of that kind for the document, Match returns normally, whatever was matched before.", "quantifier": "for every accepted query and every document", "why_tests_cant": "All documents and paths.", "anchors": ["jsonmatcher/json_values.go: getValues", "jsonmatcher/jsonmatcher.go: Match"]}
{"id": "C73", "title": "Nothing is found in a document that is not an object", "statement": "On a valid document whose root is not an object, every comparison is false (unless a segment written as an index such as [1] addresses an element of a top-level array).", "quantifier": "for every comparison and every scalar or array document", "why_tests_cant": "All documents.", "anchors": ["jsonmatcher/json_values.go: getValues"]}
{"id": "C74", "title": "Numeric comparison is by nearest double", "statement": "A comparison of a JSON number with a number in the query behaves as the comparison of the two nearest IEEE doubles (ties to even), and fails if the number in the document overflows; hence it is exact when both numbers are doubles (all integers up to 2^53), and a strict comparison that matches is exactly true.", "quantifier": "for every integer or decimal in the query, every operator and every JSON number with an exponent below 100000; paths that do not make Match panic (C72) and do not begin with [ on a top-level array (C123)", "why_tests_cant": "All decimals of any length; rounding ties.", "anchors": ["jsonmatcher/json_values.go: getNumberVal", "jsonmatcher/expr_numeric.go: exprNumeric", "jsonmatcher/expr_float.go: exprFloat.matches", "parser/ast/ast.go: NewIntVal, NewFloatVal"]}
{"id": "C75", "title": "Timestamp comparisons follow the time line near 1970", "statement": "If the literal and all instants found lie within 2^63 nanoseconds of 1970, an ordering comparison, a range, or an equality with a full timestamp matches iff some instant found stands in that relation to the instant the literal names.", "quantifier": "for every timestamp or date literal and every document whose instants are in that range; paths that do not make Match panic (C72) and do not begin with [ on a top-level array (C123)", "why_tests_cant": "All instants and offsets.", "anchors": ["jsonmatcher/expr_datetime.go: exprDatetime.matches", "jsonmatcher/json_values.go: getDatetimeVal"]}
{"id": "C76", "title": "A date matches its whole UTC day near 1970", "statement": "For every date from 106751 days before to 106750 days after 1970-01-01 and documents whose instants are representable, field:YYYY-MM-DD matches iff some instant found lies on that UTC day.", "quantifier": "for every such date and document; paths that do not make Match panic (C72) and do not begin with [ on a top-level array (C123)", "why_tests_cant": "All days and nanoseconds.", "anchors": ["jsonmatcher/expr_eq.go: date literals", "jsonmatcher/expr_datetime.go: exprDatetime.matches"]}
{"id": "C77", "title": "JSON strings and names are compared by their decoded text", "statement": "A string value or member name is decoded as RFC 8259 prescribes: two-character escapes, \\uXXXX outside the surrogate range and surrogate pairs become the UTF-8 of the code point they denote, everything else is kept; a member is found by the decoded text of its name.", "quantifier": "for every string whose surrogate escapes are properly paired", "why_tests_cant": "All strings and escapes.", "anchors": ["jsonmatcher/json_values.go: getValues", "jsonmatcher/expr_regexp.go: matches"]}
{"id": "C78", "title": "Literals outside ASCII are searched for without word boundaries when they contain wildcards", "statement": "field:\"s\" with s not ASCII matches iff some text tested passes the language-aware search (no wildcard in s), or contains a match of the lower-cased pattern, at word boundaries exactly when the lower-cased literal is ASCII.", "quantifier": "for every literal that is not ASCII and every document; paths that do not make Match panic (C72) and do not begin with [ on a top-level array (C123)", "why_tests_cant": "All literals and texts.", "anchors": ["jsonmatcher/str_matchers.go: getStringMatcher, stringSearchRegexp"]}
{"id": "C79", "title": "Which strings equal themselves", "statement": "For an ASCII s without wildcards, field:\"s\" matches a document whose only tested text is s iff s starts and ends with a word character.", "quantifier": "for every ASCII string without wildcards; paths that do not make Match panic (C72) and do not begin with [ on a top-level array (C123)", "why_tests_cant": "All strings.", "anchors": ["jsonmatcher/str_matchers.go: stringSearchRegexp"]}
{"id": "C80", "title": "Only surrogate escapes are joined to a surrogate escape", "statement": "A member name or string in which an escaped high surrogate is not followed by an escaped low surrogate is never taken for a text with a character made of the two halves.", "quantifier": "for every string with an unpaired surrogate escape", "why_tests_cant": "Needs a particular escape followed by particular characters.", "anchors": ["jsonmatcher/json_values.go: getValues", "github.com/buger/jsonparser escape.go: decodeUnicodeEscape"]}
{"id": "C81", "title": "At every moment matched does not exceed checked", "statement": "At every moment of every concurrent execution, the matched counter of every node is at most its checked counter (so a reader loading matched before checked would always be consistent).", "quantifier": "for every query, every number of goroutines calling Match and Stats, and every interleaving", "why_tests_cant": "Exponentially many schedules.", "anchors": ["jsonmatcher/node_stats.go: nodeStats.mark"]}
{"id": "C82", "title": "Byte scanning finds what the document says", "statement": "Match, which scans the bytes of a document with jsonparser and never builds a tree, gives on every valid document the same answer as the same query on the parsed tree; blanks between the tokens are irrelevant, escapes and text inside values that looks like members do not mislead the scan, and the raw bytes handed to comparisons are those of the values the path refers to.", "quantifier": "for every query tree and every byte string accepted by json.Valid; paths that do not make Match panic (C72) and do not begin with [ on a top-level array (C123)", "why_tests_cant": "Unbounded nesting and arbitrary text inside strings.", "anchors": ["jsonmatcher/json_values.go: getValues", "jsonmatcher/jsonmatcher.go: Match", "github.com/buger/jsonparser v1.1.1: Get, ArrayEach, ObjectEach"]}
{"id": "C83", "title": "Threshold as a share of documents when paths do not repeat", "statement": "If no sampled document has two scalars with the same reported path, KeysAtThreshold(t) returns exactly the keys that occur in at least t percent of the documents.", "quantifier": "for every list of documents, every depth, every t from -100 to 100", "why_tests_cant": "Unbounded document lists, floating point.", "anchors": ["sampler/sampler.go: KeysAtThreshold, Sampler.sample"]}
{"id": "C84", "title": "Sampled keys of ordinary documents work as query fields", "statement": "If every sampled document is an object, no object repeats a member name, and every name consists of letters, digits, _ and - or contains a space and no quotes, backslashes or control characters, then for every reported key k the query k:exists is accepted and matches a sampled document; moreover it matches every sampled document in which the path leads to a scalar.", "quantifier": "for every list of such documents and every reported key", "why_tests_cant": "Joint statement about sampler, parser and matcher.", "anchors": ["sampler/sampler.go: Sampler.sample", "internal/grammar/aql.peg: Field", "jsonmatcher/json_values.go: getValues"]}
{"id": "C85", "title": "The display window, apart from one case", "statement": "For every query of n code points, window 0 < w < n and highlight from s to e within it, the displayed window starts at or before the highlight, has w-1 or w code points, covers the whole highlight when that fits, and ends within the query unless the highlight ends the query and the window is exactly one longer than the highlight. If the highlight and one more code point fill it, it begins with the highlight and has w code points. Otherwise it has w code points exactly if the highlight lies near an end of the query, and the highlight is in its middle, up to one code point, as far as the ends of the query allow.", "quantifier": "for all lengths, positions and widths", "why_tests_cant": "Integer case analysis over four unbounded parameters.", "anchors": ["parser/fmtmsg/truncate.go: findCenterSubstring"]}
{"id": "C86", "title": "Printed messages mark the right text when it is preceded by ASCII", "statement": "If the text before the highlighted part is ASCII and the highlight fits the window (outside the case excluded in C85), the terminal output is the type and message, then a line with a part of the query around the highlight, with ... exactly where text was cut off, then carets exactly below the highlighted code points; and the three parts for templates concatenate to the displayed query.", "quantifier": "for every query, highlight, width and message", "why_tests_cant": "All queries and positions.", "anchors": ["parser/fmtmsg/formatter.go: HLStrOffset, Query, QueryPre, QueryHL, QueryPost", "parser/fmtmsg/truncate.go: getPrintData"]}
{"id": "C87", "title": "What example lists return", "statement": "ExampleList.Get returns nothing before the tenth addition of a non-empty example, and from then on exactly the ten most recently added examples, in some order.", "quantifier": "for every sequence of additions of non-empty examples", "why_tests_cant": "All sequences and lengths.", "anchors": ["jsonmatcher/field_stats.go: ExampleList.addExample, ExampleList.Get"]}
{"id": "C88", "title": "Field statistics are exact and survive any number of samples", "statement": "After any sequence of calls of mark, the number of samples and the number of values of each type, in arrays and outside, are exact; no call panics; and MarshalJson reports them.", "quantifier": "for every sequence of calls", "why_tests_cant": "The failure appears at the thousandth call.", "anchors": ["jsonmatcher/field_stats.go: FieldStats.mark, newFieldStats, MarshalJson"]}
{"id": "C89", "title": "Graph labels show field, operator and values", "statement": "If no field name and no printed value of a query contains <, > or &, then the label of the graph node drawn for each comparison is well-formed markup whose displayed text contains the field path, the operator and, per value, its kind and printed form.", "quantifier": "for every tree without these characters", "why_tests_cant": "All trees, names and values.", "anchors": ["aqlgraph/node_html.go: labelTmpl", "aqlgraph/graph.go: visitNodes"]}
{"id": "C90", "title": "Printed values determine the value up to integer and float", "statement": "Two values of accepted queries with the same String() denote the same value of the same kind, except that an integer and a float may print alike, and then the float is the double nearest to the integer.", "quantifier": "for all pairs of values of accepted queries, given a formatter with the documented behaviour of FormatFloat", "why_tests_cant": "All pairs of strings, numbers, networks and timestamps.", "anchors": ["parser/ast/ast.go: String methods"]}
{"id": "C91", "title": "Web markers stay within one place of the input", "statement": "For a rejected input the page gets exactly one message, with -1 <= start <= end <= length + 1; start is -1 only for the empty input and end is past the input only for an unterminated string or regular expression. For an accepted query (nested at most 10000 deep, see C98) every message lies inside the input.", "quantifier": "for every input", "why_tests_cant": "All inputs, over all kinds of errors.", "anchors": ["wasm/aqlparse/main.go: errConvert, msgConvert, pWrap"]}
{"id": "C92", "title": "The tree shown on the web page determines the query", "statement": "Two accepted queries for which the page shows the same tree have the same structure, operators, fields and values.", "quantifier": "for all pairs of accepted queries", "why_tests_cant": "All pairs of queries.", "anchors": ["wasm/aqlparse/main.go: parseAQL", "parser/ast/ast.go: node and value types"]}
{"id": "C93", "title": "Messages of the web page", "statement": "For an accepted query (nested at most 10000 deep, see C98) the page shows, per value from left to right, exactly the messages called for by that value, each once and in a fixed order, the similarity warning at the comparison and the others at the value.", "quantifier": "for every accepted query", "why_tests_cant": "All queries.", "anchors": ["wasm/aqlparse/warnings.go: warningVisitor"]}
{"id": "C94", "title": "Statistics name every node by its connective or comparison", "statement": "In Stats() a node made from AND, OR or NOT is named so, and a comparison is named by its field, operator and values; matching never changes names.", "quantifier": "for every accepted query, every node and every sequence of Match calls", "why_tests_cant": "Names are built for every tree shape; tests look at a few.", "anchors": ["jsonmatcher/nodes.go:boolNode", "jsonmatcher/build_matcher.go", "jsonmatcher/node_stats.go:toStatsNode", "parser/ast/ast.go:FriendlyString"]}
{"id": "C95", "title": "The name of a comparison can be used as a query", "statement": "The text that names a comparison in the statistics is itself a query and means the same comparison.", "quantifier": "for every comparison of every accepted query", "why_tests_cant": "The printed forms of strings, numbers, expressions and paths each have corner cases that no sample covers.", "anchors": ["parser/ast/ast.go:FriendlyString", "parser/ast/ast.go:FieldString", "jsonmatcher/build_matcher.go"]}
{"id": "C96", "title": "Parsing cost is polynomial when the number of parentheses is bounded", "statement": "For every k there is a polynomial that bounds the number of grammar expressions evaluated for any byte string (accepted or not) with at most k opening parentheses, by its length; without parentheses its degree is four.", "quantifier": "all byte strings", "why_tests_cant": "The bound is about all inputs, also rejected ones; tests measure a few", "anchors": ["internal/grammar/aql.peg"]}
{"id": "C97", "title": "Written JSON is valid and faithful", "statement": "The indented JSON that the programs write is a JSON document with exactly the texts, numbers, lists and members written, whatever characters the texts contain; different values give different documents; it contains no character with a meaning in HTML and no control character but the end of line; and writing fails only for values nested more than 10000 deep.", "quantifier": "all values, all texts (texts that are not UTF-8: still a document, faithful up to replacement characters)", "why_tests_cant": "All texts, including quotes, control characters and line separators; all nestings", "anchors": ["wasm/aqlparse/main.go: parseAQL", "cmd/aqltest/main.go: main"]}
{"id": "C98", "title": "The web page shows the tree of every accepted query", "statement": "For every accepted query the page gets its tree as a JSON document.", "quantifier": "all accepted queries", "why_tests_cant": "The only failing queries are longer than any test", "anchors": ["wasm/aqlparse/main.go: parseAQL, pWrap"]}
{"id": "C99", "title": "The program aqltest reports what the matcher answers", "statement": "Called with a query (or the name of a file ending in .aql that holds one) and the name of a document, aqltest exits with status 0 exactly if the query and the document get an answer; it then prints the answer and, as a JSON document, the statistics of the query (its name, checked once, matched once or never), and on standard error every message of the query with carets under the place it is about. Status 2 (a crash) occurs exactly where Match panics; otherwise the status is 1 and nothing is printed on standard output. A rejected query gives the matcher's error, without reading the document. A query given as argument is never taken for a file name.", "quantifier": "all arguments, files and documents", "why_tests_cant": "All queries, file contents and documents", "anchors": ["cmd/aqltest/main.go: main"]}
{"id": "C100", "title": "The program aqlgraph writes the kind of file its name asks for", "statement": "aqlgraph writes a drawing exactly if its first argument is an accepted query and the second, if any, ends in .svg or .dot in any case; the drawing is that of the query (C64), under the given name (query_graph.svg if none is given) and in the format of the ending. A rejected query is reported whatever the name; a name with another ending (or a dot only in a directory) is refused; without arguments only the usage line appears.", "quantifier": "all arguments", "why_tests_cant": "All queries and file names", "anchors": ["cmd/aqlgraph/main.go: main"]}
{"id": "C101", "title": "The web page calls a query incomplete exactly if more text could complete it", "statement": "The web page answers a rejected input with the message incomplete query exactly if the input is the beginning of an accepted query.", "quantifier": "all rejected inputs", "why_tests_cant": "All beginnings of all queries; that no continuation is accepted cannot be tested", "anchors": ["wasm/aqlparse/main.go: errConvert", "internal/grammar/aql.peg"]}
{"id": "C102", "title": "A syntax error is never reported behind the first mistake", "statement": "If a query is rejected by the parser, other than for its encoding, the text before the reported place can be continued to a text that has the form of a query (the grammar without conversion of values, number of values and checks); every accepted query has this form.", "quantifier": "all rejected queries, valid UTF-8 or not", "why_tests_cant": "All queries, and the existence of a continuation for each", "anchors": ["internal/grammar/parser_gen.go: failAt, parse", "internal/grammar/aql.peg"]}
{"id": "C103", "title": "Documents that say the same get the same answer", "statement": "If two documents differ only in the order of object members (all names decodable and distinct), in the order and repetition of array elements, and in the spelling of names, numbers and strings (a string spelled like a number stays spelled like that number), Match gives the same answer for both, errors and panics included; only an index into a top-level array can see the difference.", "quantifier": "all accepted queries, all pairs of such documents", "why_tests_cant": "All pairs of documents and all queries", "anchors": ["jsonmatcher/json_values.go: getValues, getScalars", "jsonmatcher/jsonmatcher.go: Match"]}
{"id": "C104", "title": "The operator checks blame the first comparison at fault", "statement": "The parser reports a syntax error exactly for texts without a tree. Otherwise, if some comparison is at fault, the error is about the first such comparison in reading order: about the first value of a wrong kind; else about the comparison if the number of values is wrong; else about the first value that prints like an earlier one or is the opposite boolean of an earlier one in an equality list; else about the second end of a range of mixed kind or not above the first end. The reported place is exactly that comparison or value, and the message names the operation, the printed value, its number in the list and the length of the list.", "quantifier": "all byte strings", "why_tests_cant": "All queries and all combinations of faults, in both directions", "anchors": ["parser/validators.go: opValidator, checkValues, checkArity, checkRVals, checkBetween", "parser/visitors.go: walk", "parser/parser.go: ParseQueryReader"]}
{"id": "C105", "title": "What a syntax error says was expected can be followed", "statement": "When a query is rejected with a list of what was expected, then for every entry of the list (the end of the query, a keyword or sign, a set of characters) the part of the query before the reported place, followed by the entry, followed by some further text, has the form of a query; for the entry EOF that part is one itself. The entries are not repeated and are sorted, EOF last; the text of the error lists them in this order. One entry is excepted: the one for any character but white space, which comes from the fallback alternative of a value; after a colon it suggests for example a closing parenthesis, and no query begins like that.", "quantifier": "all byte strings", "why_tests_cant": "All rejected queries; the list comes from the interplay of all alternatives the parser tried at the furthest place", "anchors": ["internal/grammar/parser_gen.go:3020-3058 parse, listJoin", "internal/grammar/aql.peg:21-31 (TODO: state what is expected), 36-60 GetParseError", "internal/grammar/aql.peg: Value (fallback alternative)"]}
{"id": "C106", "title": "The list of what was expected leaves nothing out", "statement": "When a query is rejected with a list of what was expected, then every query that agrees with the rejected one up to the reported place goes on there with something from the list: it ends there and EOF is listed, or it continues with a text that an entry of the list stands for, or a keyword of the language (AND, OR, NOT, exists, ...) begins before the place and ends behind it.", "quantifier": "all byte strings rejected with such a list, all texts that begin like them", "why_tests_cant": "All continuations of all rejected queries; the list is collected from failed attempts of a backtracking parser, so leaving an entry out only shows for the right pair of queries", "anchors": ["internal/grammar/parser_gen.go:2850-2867 failAt", "internal/grammar/parser_gen.go:3020-3047 parse", "internal/grammar/aql.peg:36-60 GetParseError"]}
{"id": "C107", "title": "A query with an error before its end cannot be completed by typing on", "statement": "When a query is rejected with a list of what was expected and the reported place is before its end, then no text can be appended to make it a query, except that the appended text completes a keyword the rejected query ends with a part of. The same holds of any part of the rejected query that reaches beyond the place: together with C102 the place is the end of the longest part that can be completed.", "quantifier": "all byte strings rejected with such a list, all appended texts", "why_tests_cant": "All appended texts are quantified; a counterexample is a pair of queries", "anchors": ["internal/grammar/parser_gen.go:2850-2867 failAt", "internal/grammar/parser_gen.go:3020-3047 parse"]}
{"id": "C108", "title": "The printed form of a tree determines the tree", "statement": "If two accepted queries have trees whose String() is the same text, then the trees have the same shape: the same AND, OR and NOT nodes, and comparisons with the same operator, the same field and the same number of values, each value being of the same kind with the same content (or an integer on one side and the float nearest to it on the other). This requires that no regular expression contains a slash and no comparison has the single empty name as its field; without these two conditions the claim is false.", "quantifier": "all pairs of accepted byte strings", "why_tests_cant": "The claim is about pairs of trees of any size: a quoted name may contain parentheses, an unquoted one may too, and the text must still be cut at the same places", "anchors": ["parser/ast/ast.go:41-103 String", "parser/ast/ast.go:474-500 FieldString"]}
{"id": "C109", "title": "A syntax error about a value is right about the value and about the place", "statement": "The first syntax error of a rejected query is a list of expected tokens, or it points at the first byte that is not UTF-8, or it is about a value and true of it: the query splits into a text before, the value's own text and what follows, such that the own text has the form the message speaks of (string, regular expression, number, address, date) and has no value, and the text that the message shows is the own text (in a regular expression with escaped slashes as slashes, an address without prefix length completed by /32); or it is a word up to the next white space at which no literal starts, quoted in full by the message; or a closing parenthesis where a value is missing; or one value alone in parentheses; or a string or regular expression that is never closed, broken off at the place reported. The errors for an impossible boolean, an empty field and an internal panic never occur.", "quantifier": "all byte strings, all errors", "why_tests_cant": "The first error may arise in any of the alternatives the parser tries and abandons; that each of them is justified by the text is a claim about every rejected input", "anchors": ["internal/grammar/aql.peg:36-60 GetParseError", "internal/grammar/parser_gen.go:1884-2243 actions", "internal/grammar/parser_gen.go:2600-3486 parser engine"]}
{"id": "C110", "title": "A literal whose value cannot be built is marked from its first to its last character", "statement": "If the first syntax error says that a literal cannot be converted, the position reported (line, column, offset, length) is that of the whole literal.", "quantifier": "all byte strings, all errors about the conversion of a literal", "why_tests_cant": "Every literal in every place of a query of any length, with characters of several bytes before it", "anchors": ["internal/grammar/aql.peg:36-60 GetParseError", "internal/grammar/parser_gen.go:2093-2181 actions of literals"]}
{"id": "C111", "title": "Queries that mean the same get the same answer", "statement": "Two accepted queries whose trees can be turned into each other by the laws of the language give the same answer (match, no match, error or panic) for every document. The laws: places in the text do not count; integers and floats with the same double are equal, as are zeros of both signs; the case of letters of ASCII strings does not count; regular expressions may be exchanged for others that find the same texts; the order and repetition of list members do not count; a list is the OR of its parts; :~ is :; a day is the range from its first to its last nanosecond; double negation, De Morgan, associativity, idempotence, distributivity; commutativity if no path makes Match panic.", "quantifier": "all pairs of queries related by the laws, all documents, all regular-expression and text-search implementations", "why_tests_cant": "Infinitely many pairs of queries, nested to any depth, and all documents", "anchors": ["jsonmatcher/build_matcher.go:27-123", "jsonmatcher/nodes.go:19-114", "jsonmatcher/expr_eq.go:15-71 exprEQ", "jsonmatcher/str_matchers.go"]}
{"id": "C112", "title": "The hint that .* is redundant at the start or end of a regular expression is right", "statement": "If a query is told that one of its regular expressions need not begin or end with .*, the expression does begin or end so (perhaps after the flag for ignoring case), and taking the .* away changes no answer of the query for any document.", "quantifier": "all queries given the hint, all documents, all implementations of regular expressions that follow the documented syntax and meaning", "why_tests_cant": "A statement about all regular expressions and all texts", "anchors": ["jsonmatcher/query_messages.go:28-36", "parser/ast/ast.go:340-351 NewRegexpVal", "jsonmatcher/expr_eq.go:27-31"]}
{"id": "C113", "title": "The query proposed in place of an alternation can be used in its place", "statement": "If a query is told that a list of strings could stand in place of the alternatives of a regular expression, the regular expression has alternatives at its top, and the proposed query is a query on the same field that accepts the same documents when the alternatives are the words one and two.", "quantifier": "all queries given the hint, all fields", "why_tests_cant": "All field names, quoted names with any characters included", "anchors": ["jsonmatcher/query_messages.go:44-46", "parser/ast/ast.go:474-485 FieldString"]}
{"id": "C114", "title": "An error about a value can be repaired where it is reported, and the advice to put an unknown word in quotes works", "statement": "Where a syntax error about a value is reported, any value could stand instead (any string where a string is refused, any value or list where one value in parentheses is refused, the closing quote or slash where it is missing): the text before the place, followed by it, can be continued to a text of the form of a query. If the error proposes the word in quotes, the proposal is a string with the word as its value, and putting it in the place of the word repairs the query.", "quantifier": "all rejected queries, all values", "why_tests_cant": "All texts before the error and all values in its place; the property says that the query can be continued, which a test cannot observe", "anchors": ["internal/grammar/parser_gen.go:2080-2085 onValue8", "internal/grammar/parser_gen.go:2041-2160", "internal/grammar/aql.peg"]}
{"id": "C115", "title": "An error about a value shows the value as it is written where the error is reported", "statement": "If a value of a query is refused (regular expression, time, address, number, unknown word), the text of the error has, in the first pair of brackets, the value exactly as it stands at the reported offset.", "quantifier": "all rejected queries", "why_tests_cant": "All values; the tests compare the complete texts of ten queries, where no value is shown differently from how it is written", "anchors": ["parser/ast/ast.go:184-206", "parser/ast/ast.go:376-445", "internal/grammar/parser_gen.go:2080-2085 onValue8", "parser/parser_test.go:205-307"]}
{"id": "C116", "title": "The text of an error tells which mistake was made", "statement": "Two rejected queries with the same error text made the same kind of mistake (and, for the checks of operators, used the same operation). The web page, which tests the first words of the text, turns exactly the errors with a list of expected characters into its message for incomplete queries.", "quantifier": "all pairs of rejected queries", "why_tests_cant": "Pairs of arbitrary queries, whose values are quoted in the texts", "anchors": ["parser/validators.go:36-160", "parser/ast/ast.go:184-445", "internal/grammar/parser_gen.go:53-78", "wasm/aqlparse/main.go:27-46"]}
{"id": "C117", "title": "Printed errors and messages tell their place", "statement": "Two errors that print the same (Error()) have the same line, column, offset and text; two messages that print the same (String()) have the same type and text, and the same line, column and offset unless both have no place. The printed form is the place, a colon and the text; for a message the word HINT, WARNING or ERROR, the place in brackets if it has one, a colon and the text.", "quantifier": "all positions and texts", "why_tests_cant": "All numbers and texts, including texts with colons and parentheses", "anchors": ["internal/grammar/parser_gen.go:76-78", "parser/message.go:26-58"]}
{"id": "C118", "title": "A refused time or address is explained by the first part that is wrong", "statement": "The reason in the error for a refused time is the first of its parts that is out of range, in the order of the format, with the day of the month checked last; for an address it is the first octet from the left that is too large or has a leading zero, then the prefix length. There always is a reason.", "quantifier": "all rejected queries with a time or an address", "why_tests_cant": "All combinations of wrong parts; the tests have one wrong part at a time", "anchors": ["parser/ast/ast.go:376-392", "parser/ast/ast.go:429-445"]}
{"id": "C119", "title": "The advice of the messages can be followed", "statement": "Where a message proposes another way to write a comparison of times or strings, the proposed query is accepted and matches (at least) what the query was meant to match: a short date in place of a timestamp, [:~] for times (web page), a fuzzy match with a language.", "quantifier": "all queries with such messages, all documents; paths that do not make Match panic (C72) and do not begin with [ on a top-level array (C123)", "why_tests_cant": "All timestamps with all offsets, all documents; no test follows the advice", "anchors": ["jsonmatcher/query_messages.go:28-60", "wasm/aqlparse/warnings.go:25-58", "parser/validators.go:18-34"]}
{"id": "C120", "title": "The JSON of messages is a document that tells everything about them", "statement": "Marshalling the list of messages of a matcher gives a JSON document that shows, in order, position with line, column, offset and length, text and type name of each message; different lists have different JSON, as far as their texts are UTF-8, which the texts of the messages of a matcher are.", "quantifier": "all lists of messages, all accepted queries", "why_tests_cant": "All positions, texts and lists; no test marshals a message", "anchors": ["parser/message.go:12-16", "parser/message.go:46-51", "parser/ast/ast.go:136-145", "jsonmatcher/jsonmatcher.go:44"]}
{"id": "C121", "title": "The server of the web page hands out the five files of the page and nothing else", "statement": "Whatever the path of a request, no file is opened or sent but index.html, wasm_exec.js, hwt.css, style.css and aqlparse.wasm in the given directory; apart from CONNECT requests each is sent for exactly one path; every file that is opened is closed.", "quantifier": "all request paths, directories and file systems", "why_tests_cant": "All paths, with dots, doubled and trailing slashes, and all directory arguments", "anchors": ["wasm/aqlparse/server/main.go:16-31", "wasm/aqlparse/server/main.go:39-58"]}
{"id": "C122", "title": "Truth values of JSON values follow the documented table", "statement": "Booleans are their own truth value, numbers other than 0 are true, strings other than the empty one, false and 0 are true, null is false; objects and arrays have none.", "quantifier": "all JSON values", "why_tests_cant": "All numbers, small and large, and all texts with all their spellings; the function is not called anywhere and has no test", "anchors": ["jsonmatcher/json_values.go:173-213"]}
{"id": "C123", "title": "On a top-level array a first segment in brackets is an index", "statement": "If the document is an array, a query gives the answer it gives on an object whose members are named by the indices in brackets and hold the elements; the index may have a sign and leading zeros.", "quantifier": "all accepted queries without empty first segments, all documents that are arrays", "why_tests_cant": "All queries, arrays and spellings of indices; no test matches a top-level array by index", "anchors": ["jsonmatcher/json_values.go:23-28", "jsonmatcher/json_values.go:77-112"]}
{"id": "C124", "title": "A query that asks for something stays satisfied when the document grows", "statement": "If every comparison stands under an even number of NOTs and the query satisfies the document, it still does after members are added behind the others, elements are added to arrays or a value is put into an array with others; under odd numbers of NOTs the converse holds.", "quantifier": "all such queries, all documents and all ways of growing", "why_tests_cant": "Two documents of any shape related by any number of additions at any depth", "anchors": ["jsonmatcher/json_values.go:30-112", "jsonmatcher/field_expr.go:1-5", "jsonmatcher/nodes.go:1-60"]}
{"id": "C125", "title": "Putting a document into a member and its name before all paths changes nothing; in an array, the query is asked of the elements", "statement": "A query with a name put before every path gives on an object with that member the answer of the query on the member; if the member is an array, it holds exactly if it holds for one of the objects in the array.", "quantifier": "all accepted queries, all documents", "why_tests_cant": "Pairs of queries and documents of any shape", "anchors": ["jsonmatcher/json_values.go:77-112", "jsonmatcher/nodes.go:1-60"]}
{"id": "C126", "title": "The page shows the tree of every accepted query, and an error exactly for the refused ones", "statement": "For every input the script of the page gets an answer; it shows the tree if the query is accepted and one message of class error, with a mark, if it is refused.", "quantifier": "all inputs, including lone surrogates", "why_tests_cant": "All strings of JavaScript; the repository has no test of the page", "anchors": ["wasm/aqlparse/index.html:42-93", "wasm/aqlparse/main.go:66-86"]}
{"id": "C127", "title": "Messages are shown as they are written", "statement": "A browser reads the markup of a message as the frame of the template with the text of the message in it, whatever the query.", "quantifier": "all inputs", "why_tests_cant": "All queries and all messages; that one text of the repository itself breaks the markup shows only in a browser", "anchors": ["wasm/aqlparse/index.html:47-49", "wasm/aqlparse/index.html:68-84", "wasm/aqlparse/warnings.go:19-57"]}
{"id": "C128", "title": "What the page marks is what the message is about", "statement": "The range handed to the highlighter covers the characters of the input that the parser blames, and the input reaches the parser unchanged.", "quantifier": "all inputs", "why_tests_cant": "All strings of JavaScript with all code points and all marks", "anchors": ["wasm/aqlparse/index.html:62-77", "wasm/aqlparse/wasm_exec.js:400-407", "wasm/aqlparse/main.go:27-64"]}
{"id": "C129", "title": "Redirects of the server lead to the place asked for and come to an end", "statement": "A redirect leads to the place the request named, or from an index.html to its directory; after at most five redirects comes another answer; whoever asks for a file of the page gets it however the path is written, and whoever gets a file has named it or an index.html below it.", "quantifier": "all request paths other than those of CONNECT requests, all directories and file systems", "why_tests_cant": "All paths with dots, doubled slashes and slashes at the end, all chains of redirects", "anchors": ["wasm/aqlparse/server/main.go:28-31", "wasm/aqlparse/server/main.go:45-58"]}
{"id": "C130", "title": "With the option Memoize each expression is evaluated only once at a place, and parsing is linear", "statement": "With Memoize(true), which no caller sets, every parse ends; no expression of the grammar is evaluated twice at the same place of the text, so that a text of n bytes takes at most 312 (n+1) evaluations, also nested parentheses that take 4^d evaluations without the option, and records at most 1874 (n+1) errors.", "quantifier": "all byte strings, valid UTF-8 or not, accepted or not", "why_tests_cant": "All texts; without the option the cost of some grows exponentially, and no test shows that none is left", "anchors": ["internal/grammar/parser_gen.go:2346-2358", "internal/grammar/parser_gen.go:2953-2975", "internal/grammar/parser_gen.go:3061-3153"]}
{"id": "C131", "title": "A query from a reader is parsed like the same text, however the reader cuts it", "statement": "ParseQueryReader returns what ParseQuery returns for all the bytes the reader delivers, whatever pieces they come in, and the visitors see the same; if reading fails, the error of the reader is returned without a place, whatever was read before, and no visitor runs.", "quantifier": "all readers that keep the contract of io.Reader, all growth of the buffer, all visitors", "why_tests_cant": "All ways to cut a text into pieces, with empty reads and an end that comes together with the last bytes or after them", "anchors": ["parser/parser.go:16-32", "internal/grammar/parser_gen.go:2434-2448", "internal/grammar/parser_gen.go:49-73"]}
{"id": "C132", "title": "The cost of an accepted query grows with the depth of its groups, not with their number", "statement": "An accepted query of n-1 bytes in which every comparison stands inside at most d pairs of parentheses is parsed with at most 8400 n^3 4^d evaluations of grammar expressions, however many groups stand side by side. Every accepted query has such a depth, at most the number of its opening parentheses. The factor 4 is exact: for every d a query of 2d+8 bytes and depth d takes at least 4^d.", "quantifier": "all accepted queries, all depths", "why_tests_cant": "A test measures single queries; the bound is for every depth and every number of groups at once", "anchors": ["internal/grammar/aql.peg:195-249", "internal/grammar/parser_gen.go:3088-3160"]}
{"id": "C133", "title": "The option MaxExpressions stops a parse exactly at its limit and otherwise changes nothing", "statement": "A parse with MaxExpressions(m) whose evaluations without the option number at most m gives the same result as without it. If they number more, it ends with the error of the limit at evaluation m+1, and the errors returned before that one are the first errors of the parse without the limit. 0 and the largest uint64 mean no limit. A limit of 8400(1+n)^3 4^d refuses no accepted query of at most n bytes and depth d; a limit below 4^d refuses d pairs of parentheses around a:exists.", "quantifier": "all texts, all limits", "why_tests_cant": "Tests try single limits on single texts; the claim is for every text and every limit, including the one where the count is met exactly", "anchors": ["internal/grammar/parser_gen.go:2272-2283", "internal/grammar/parser_gen.go:2658-2660", "internal/grammar/parser_gen.go:3102-3105", "internal/grammar/parser_gen.go:2993-3009"]}
{"id": "C134", "title": "The option AllowInvalidUTF8 takes away the errors about the encoding and nothing else", "statement": "With AllowInvalidUTF8(true) a text in UTF-8 is parsed as without it, and so is every accepted text. A text with an error of another kind has exactly its other errors, in the same order. A text whose only errors are about the encoding is accepted, or has the one error that nothing matches. No error of a parse with the option is about the encoding.", "quantifier": "all byte strings", "why_tests_cant": "The claim is about every byte string, and that the option changes no step of the parse; tests see single texts", "anchors": ["internal/grammar/parser_gen.go:2360-2372", "internal/grammar/parser_gen.go:2869-2886"]}
{"id": "C135", "title": "The text of a number with at most 15 digits is its plain decimal notation", "statement": "String, regular-expression, network and date comparisons see a JSON number as a text. If the number has at most 15 significant digits and lies in the normal range of doubles, that text is its exact value in plain notation (no exponent, no needless zeros), however the document writes it; so a number already in plain notation is seen as written. A string literal in that notation finds the number exactly if it is positive. With 16 digits, or below 2^-1022, the text may be another number.", "quantifier": "all numbers, queries and documents; every formatter that meets the documentation of strconv.FormatFloat with precision -1; paths that do not make Match panic (C72) and do not begin with [ on a top-level array (C123)", "why_tests_cant": "A claim about every decimal number of 15 digits and its rounding; tests look at a few numbers", "anchors": ["jsonmatcher/json_values.go:112-132", "jsonmatcher/json_values.go:123-129"]}
{"id": "C136", "title": "Numbers with at most 15 digits are compared exactly", "statement": "If the literal and the number in the document have at most 15 significant digits each, and are zero or at least 2^-1022 in absolute value, then the comparisons equal, less, greater and between hold exactly if they hold of the exact decimal values, although both are rounded to doubles first.", "quantifier": "all queries with one numeric comparison, all documents in which it meets one number; paths that do not make Match panic (C72) and do not begin with [ on a top-level array (C123)", "why_tests_cant": "A claim about all pairs of decimal numbers; the rounding of either could make them equal", "anchors": ["jsonmatcher/json_values.go:134-144"]}
{"id": "C137", "title": "The strings that are compared as numbers are Go's floating point literals", "statement": "A string of a document counts as a number in comparisons exactly if it is a decimal number (optional sign, digits, point, exponent), possibly with single underscores between digits, or a hexadecimal number with a power of two, or one of the words inf, infinity, nan in any case; a numeral whose exponent is less than 100000 in size counts as the nearest double, and not at all if it is too large for one; the words inf and infinity count as the infinity of the sign written before them, nan as no number; a comparison with a numeral compares the nearest doubles of both sides.", "quantifier": "all texts of strings with exponents below 100000, all queries with one numeric comparison; paths that do not make Match panic (C72) and do not begin with [ on a top-level array (C123)", "why_tests_cant": "All texts; which of them count is decided by a scanner of the standard library with special cases for underscores and prefixes", "anchors": ["jsonmatcher/json_values.go:134-144 getNumberVal"]}
{"id": "C138", "title": "A string that is not a decimal number satisfies no comparison with a number", "statement": "If the value of a field is a string that is not written as a decimal number, then no comparison of the field with a number matches.", "quantifier": "all strings, all numeric comparisons; paths that do not make Match panic (C72) and do not begin with [ on a top-level array (C123)", "why_tests_cant": "All texts; the exceptions are words and notations that nobody puts into a test of a comparison", "anchors": ["jsonmatcher/json_values.go:134-144 getNumberVal"]}
{"id": "C139", "title": "With example lists, every thousandth call of mark records its values", "statement": "If the example lists of the statistics about a field are there, as NewFieldStats means to make them, then no sequence of calls of mark makes it panic, the counts are exact, and for strings, numbers and objects, in arrays and outside, Get returns the examples of the last ten values of that type in the calls number 1000, 2000 and so on, and nothing while there were fewer than ten. The example of a string is its decoded text, or the words empty string; of a number its text; of an object its names.", "quantifier": "all sequences of calls; values written as JSON, names without backslash", "why_tests_cant": "Examples appear only after a thousand calls and are returned only after ten examples", "anchors": ["jsonmatcher/field_stats.go:101-170 FieldStats.mark", "jsonmatcher/field_stats.go:184-205 ExampleList"]}
{"id": "C140", "title": "The example of an object lists at most ten of its names, as they are", "statement": "The example recorded of an object is the list of its decoded names in quotes, separated by commas, of the first fieldMapMaxKeys (ten) of them if there are more.", "quantifier": "all objects written as JSON", "why_tests_cant": "Objects of more than ten members, and names with escapes that stand for a backslash", "anchors": ["jsonmatcher/field_stats.go:145-167 FieldStats.mark", "jsonmatcher/field_stats.go:13-17 fieldMapMaxKeys"]}
{"id": "C141", "title": "Statistics about a field are exact when mark is called concurrently", "statement": "However concurrent calls of mark interleave, none panics, after all calls the number of samples and of values of each type are exact, and exactly the values of every thousandth call are recorded as examples.", "quantifier": "all interleavings of any number of calls", "why_tests_cant": "All interleavings; a test sees the few that happen to occur", "anchors": ["jsonmatcher/field_stats.go:101-170 FieldStats.mark"]}
{"id": "C142", "title": "Sample accepts exactly the JSON objects and arrays", "statement": "Sample returns no error exactly if its argument is a valid JSON document whose value is an object or an array.", "quantifier": "all texts", "why_tests_cant": "All texts; the reader is lenient in places a test does not think of", "anchors": ["sampler/sampler.go:40-73 Sample", "sampler/sampler.go:75-122 sample"]}
{"id": "C143", "title": "The examples of the README behave as the README says", "statement": "Every example of README.md that gives a query, a document and an answer gets that answer, the program of the section Usage prints true, and every query of the tables of operators is accepted.", "quantifier": "all examples of the README, for every behaviour of the libraries", "why_tests_cant": "The examples of a README are not run by tests", "anchors": ["README.md:14-40 Usage", "README.md:49-58 text", "README.md:63-73 Paths", "README.md:78-111 Array Introspection", "README.md:116-131 Boolean Logic", "README.md:158-225 Operators"]}
{"id": "C144", "title": "The parser does not panic, with or without Recover, and can be entered at any rule", "statement": "With the option Recover(false) no text makes the generated parser panic, and the result is the one with recovery. With Entrypoint set to the name of a rule the parse ends for every text; only the names of no rule are refused. Entered at Query the parser accepts the same texts as at Start.", "quantifier": "all byte strings, all names of entry points, every behaviour of the libraries", "why_tests_cant": "A panic that is recovered looks like any other error to a test, and entry points other than the first are never used by the tests", "anchors": ["internal/grammar/parser_gen.go:2285-2301 Entrypoint", "internal/grammar/parser_gen.go:2364-2377 Recover", "internal/grammar/parser_gen.go:2984-3048 parse", "internal/grammar/parser_gen.go:2159-2166 onIPValue1", "internal/grammar/parser_gen.go:2070-2072 onValue2"]}
{"id": "C145", "title": "Match goes through the query from the left and stops as soon as the answer is clear", "statement": "For every accepted query and every text, Match does what a reader does who goes through the query from the left and stops as soon as the answer is clear: an AND whose left side fails and an OR whose left side holds are not read further. A comparison whose path is empty, or begins with an empty segment on a top-level array, breaks the call if and only if the reader comes to it; every other comparison is answered by its meaning, where a top-level array stands for an object with its indices as names. A text that is no JSON document is an error.", "quantifier": "all accepted queries, all texts, all earlier calls, every behaviour of the libraries", "why_tests_cant": "Which comparisons are reached depends on the document and on all comparisons to the left", "anchors": ["jsonmatcher/nodes.go:18-24 andNode.result", "jsonmatcher/nodes.go:35-41 orNode.result", "jsonmatcher/nodes.go:52-58 notNode.result", "jsonmatcher/nodes.go:98-114 exprNode.result", "jsonmatcher/jsonmatcher.go:37-42 Match"]}
{"id": "C146", "title": "A matcher whose panics are recovered stays usable, and its statistics count the finished parts", "statement": "If the caller recovers the panics of Match, every later call has the outcome its own text has by the reading of C145, whatever was matched before. After any calls, the counters of each part of the query are the number of documents for which the reader came to that part and finished it, and the number of those for which the part held; the part that broke and the parts around it do not count the document. The report of Stats therefore counts the documents whose reading did not break.", "quantifier": "all accepted queries, all lists of texts shorter than 2^63, all parts of the query, every behaviour of the libraries", "why_tests_cant": "A panic in the middle of an evaluation leaves some parts counted and others not; which ones depends on the whole query and on all texts", "anchors": ["jsonmatcher/nodes.go:18-24 andNode.result", "jsonmatcher/nodes.go:35-41 orNode.result", "jsonmatcher/nodes.go:52-58 notNode.result", "jsonmatcher/nodes.go:98-114 exprNode.result", "jsonmatcher/node_stats.go:22-27 mark", "jsonmatcher/jsonmatcher.go:37-42 Match"]}
{"id": "C147", "title": "The parser records each fault of a query once", "statement": "The list of errors that the parser builds up for a query is not much longer than the query, and the caller is told each error once. REFUTED in the first part: for n opening parentheses and one byte that is not UTF-8 the same error is recorded 4^n times, so no polynomial in the length of the query bounds the list, and with it the memory. The second part holds: the list given to the caller has no text twice, loses no text, keeps the order, and begins with the first error recorded.", "quantifier": "all numbers of parentheses, all polynomials, all lists of errors, all wordings of the errors", "why_tests_cant": "The repetitions are removed before the list is returned, so no test of the result sees them", "anchors": ["internal/grammar/parser_gen.go:2577-2579 errList.add", "internal/grammar/parser_gen.go:2581-2587 errList.err", "internal/grammar/parser_gen.go:2589-2599 dedupe", "internal/grammar/parser_gen.go:2869-2886 read", "internal/grammar/parser_gen.go:2826-2848 addErrAt"]}
{"id": "C148", "title": "A call of Match makes at most as many comparisons as the query has literals times the document has values", "statement": "Whatever was matched before, a call of Match compares a value of the document with a literal of the query at most as often as the number of literals times the number of values in the document, and so at most the length of the query times the length of the text; the values one comparison looks at do not overlap. A comparison for equality that fails takes exactly the number of its literals times the number of scalar values of its field. A question for null that is answered with yes looks at every value of its field, one that is answered with no stops at the first value that is not null, and a question whether the field exists compares nothing.", "quantifier": "all accepted queries, all texts, all earlier calls, every behaviour of the libraries", "why_tests_cant": "A bound for all queries and all documents", "anchors": ["jsonmatcher/nodes.go:98-114 exprNode.result", "jsonmatcher/json_values.go:84-112 getValues", "jsonmatcher/json_values.go:30-53 scalarValues", "jsonmatcher/jsonmatcher.go:37-42 Match", "jsonmatcher/expr_eq.go:16-71 exprEQ"]}
{"id": "C149", "title": "The JSON of statistics tells every counter and every example", "statement": "json.Marshal on a FieldStats writes what its method MarshalJson returns: a document with the number of calls, and for each type of value met the number of values and the examples kept; two different statistics have different texts. json.Marshal on a MatchStats likewise tells everything in it.", "quantifier": "all sequences of calls of mark, all lists of expected types, all statistics", "why_tests_cant": "Which method encoding/json calls and what it can reach depend on names and on how the value is passed, for all statistics", "anchors": ["jsonmatcher/field_stats.go:61-65 FieldStats", "jsonmatcher/field_stats.go:79-97 MarshalJson", "jsonmatcher/field_stats.go:172-182 EncounteredStats, ExampleList", "jsonmatcher/node_stats.go:5-10 MatchStats"]}
{"id": "C150", "title": "The title of a drawing is its query, and labels arrive in full", "statement": "The title shown by graphviz for the drawing of a query is the text of the query, so that drawings of different queries have different titles; and the label of every node arrives in graphviz as it was made.", "quantifier": "all accepted queries", "why_tests_cant": "All queries, over all characters that graphviz or C strings treat specially", "anchors": ["aqlgraph/graph.go:59-94 QueryGraph", "aqlgraph/graph.go:96-189 visitNodes", "aqlgraph/node_html.go:41-64 labelTmpl"]}
{"id": "C151", "title": "A message visitor loses no message and changes none", "statement": "After ParseQuery, Messages() of a message visitor gives the messages its tape held before, followed by one message for each call of Hint, Warning, Error and their With and At forms its function made, in the order of the calls, with the word of the method, the text, and the position given (or none for the plain forms); the other visitors registered with it make no difference to this. The function is called on every node its own verdicts leave to be visited; it is not called only if the query is rejected by then. The tape is never emptied: a visitor used for a second query keeps the messages of the first in front.", "quantifier": "all message functions, all visitors beside them, all tapes so far, all queries", "why_tests_cant": "All functions and combinations of visitors; the tests register one visitor at a time", "anchors": ["parser/visitors.go:70-104 MessageVisitor, Messages, NewMessageVisitor", "parser/visitors.go:106-173 the methods of MessageTape", "parser/parser.go:44-62 ParseQuery", "parser/message.go:47-81 ParserMessage, newMessage"]}
{"id": "C152", "title": "What Sample says about a text it refuses for its outer form is true and readable", "statement": "If Sample refuses a text for its first or last character, it leaves the sampler as it was, and the error names the mistake and quotes the text up to 100 bytes; what it says is true of the text, and the error is text in UTF-8 if the sample is.", "quantifier": "all texts", "why_tests_cant": "All texts of all lengths, with all characters at byte 100; the tests have no refused samples", "anchors": ["sampler/sampler.go:40-73 Sample"]}
{"id": "C153", "title": "A matcher built without statistics answers the same and has no report", "statement": "The builder can be told to leave the statistics out. A matcher is then still made of every accepted query, every call of Match has the outcome of reading the query from the left (C145), whatever was matched before, and Stats returns nil. With statistics the report is that of NewMatcher.", "quantifier": "all accepted queries, both values of the flag, all texts, all earlier calls", "why_tests_cant": "The flag is always true in NewMatcher, so no test through the public interface takes the other branch; the claim is about every query, text and history", "anchors": ["jsonmatcher/build_matcher.go:9-25 newBuilder", "jsonmatcher/build_matcher.go:27-123 build", "jsonmatcher/nodes.go:19-121 result, stats", "jsonmatcher/node_stats.go:29-42 toStatsNode"]}
