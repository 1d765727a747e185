{"id": "C01", "title": "Percent-encoding round trip through urlDecode / urlDecodeUni", "statement": "For every byte string s, encoding every byte of s as %XX (any mix of upper/lower case hex digits) and passing it to utils.UrlDecode or utils.UrlDecodeUni returns exactly s with error count 0.", "quantifier": "all byte strings s of any length, all hex-case choices", "why_tests_cant": "tests decode a handful of literals; the claim is about all byte strings", "anchors": ["utils/urlencode.go: UrlDecode, UrlDecodeUni, urldecode, IsHex, UnHex"]}
{"id": "C02", "title": "urlDecode implements exactly the left-to-right percent grammar and never fails", "statement": "For every byte string, UrlDecode/UrlDecodeUni terminate without an index panic and return the output and error count given by the left-to-right grammar: valid %XX -> one byte; (Uni only) valid %uXXXX -> the UTF-8 of that code point (full-width FFxx folded to ASCII); any other '%' -> itself, counted as one error; '+' -> space; any other byte unchanged. Output is never longer than the input; text without '%' and '+' is unchanged; on text without %u the two variants agree.", "quantifier": "all byte strings", "why_tests_cant": "index arithmetic near the end of the string and malformed tails have unboundedly many shapes", "anchors": ["utils/urlencode.go: urldecode", "modsecurity/transforms/urldecode.go", "modsecurity/transforms/urldecode_uni.go"]}
{"id": "C03", "title": "lowercase transform", "statement": "On every ASCII string t:lowercase maps each byte A-Z to a-z and leaves every other byte alone, keeps the length, and is idempotent; on every byte string the output contains no ASCII upper case letter.", "quantifier": "all byte strings / all ASCII strings, all Unicode lower-case tables for non-ASCII runes", "why_tests_cant": "finite samples cannot cover all strings", "anchors": ["modsecurity/transforms/lowercase.go: Trans"]}
{"id": "C04", "title": "removeNulls / removeWhitespace / replaceNulls delete or replace exactly the named character", "statement": "For every valid UTF-8 string the transform result is the input with every NUL (resp. space) removed (resp. NUL replaced by space), all other bytes kept in order; for every byte string whatsoever the output contains no NUL (resp. no space, no NUL).", "quantifier": "all byte strings", "why_tests_cant": "invalid UTF-8 and arbitrary placement cannot be enumerated", "anchors": ["modsecurity/transforms/map_rune.go: replaceRune, NewTransRemoveNulls, NewTransRemoveWhitespace, NewTransReplaceNulls, Trans"]}
{"id": "C05", "title": "compressWhitespace squeezes runs of spaces", "statement": "For every byte string the output of t:compressWhitespace has no two adjacent spaces and the transform is idempotent; for valid UTF-8 input it only deletes spaces: removing all spaces from input and output gives the same string, and each maximal run of spaces becomes exactly one space.", "quantifier": "all byte strings", "why_tests_cant": "runs of arbitrary length in arbitrary context", "anchors": ["modsecurity/transforms/compress_whitespace.go: Trans"]}
{"id": "C06", "title": "Whitespace transforms treat every whitespace character", "statement": "removeWhitespace removes, and compressWhitespace squeezes, all whitespace characters (tab, newline, carriage return, vertical tab, form feed as well as space), as the SecLang reference says.", "quantifier": "all byte strings", "why_tests_cant": "a universally quantified claim; found false", "anchors": ["modsecurity/transforms/map_rune.go: NewTransRemoveWhitespace", "modsecurity/transforms/compress_whitespace.go"]}
{"id": "C07", "title": "Transformations are applied left to right to every inspected value", "statement": "The value an operator sees is the fetched value after applying the rule's transformations in the listed order, each exactly once, for every value and list of transformations; appending transformations composes.", "quantifier": "all rules, all transformation lists, all values", "why_tests_cant": "needs induction over the pipeline", "anchors": ["modsecurity/sec_rule.go: TransformString, TransformVariable, FetchAllTransformedVariables"]}
{"id": "C08", "title": "t:none resets the transformation pipeline", "statement": "In SecLang t:none clears all previously listed transformations, so the value after 't:X,t:none' is the raw value for every X.", "quantifier": "all transformation lists, all values", "why_tests_cant": "universally quantified; found false (none is the identity)", "anchors": ["modsecurity/transforms/none.go: Trans", "modsecurity/sec_rule.go: TransformString"]}
{"id": "C09", "title": "Numeric comparison operators are exact on int64", "statement": "For all int64 values a and v, @eq/@ge/@gt/@le/@lt built from the decimal text of a (optionally surrounded by white space) match the decimal text of v (optionally surrounded by white space) iff v =,>=,>,<=,< a.", "quantifier": "all pairs of 64-bit integers, all surrounding white space", "why_tests_cant": "2^128 pairs", "anchors": ["modsecurity/operators/compare.go: newOperatorCompare, Match"]}
{"id": "C10", "title": "Numeric operators form a total order on all input strings", "statement": "For every argument and every input string (numeric or not) exactly one of @lt, @eq, @gt matches; @ge is the negation of @lt and @le the negation of @gt; input that is not a decimal int64 behaves exactly like \"0\".", "quantifier": "all arguments accepted by the constructor, all byte strings", "why_tests_cant": "all strings", "anchors": ["modsecurity/operators/compare.go: Match"]}
{"id": "C11", "title": "Numeric operator constructors accept exactly the decimal int64 literals", "statement": "NewOperatorEq/Ge/Gt/Le/Lt return an error iff the white-space-trimmed argument is not an optionally signed non-empty run of decimal digits whose value lies in [-2^63, 2^63-1].", "quantifier": "all byte strings", "why_tests_cant": "all strings, overflow boundary", "anchors": ["modsecurity/operators/compare.go: newOperatorCompare"]}
{"id": "C12", "title": "Numeric comparison is monotone for arbitrarily large decimal inputs", "statement": "If the decimal input denotes a number greater than the argument then @gt matches, whatever its magnitude.", "quantifier": "all decimal strings", "why_tests_cant": "universally quantified; found false above 2^63-1 (out-of-range input is treated as 0)", "anchors": ["modsecurity/operators/compare.go: Match"]}
{"id": "C13", "title": "Collection selectors: which names are inspected", "statement": "After any sequence of Include/Exclude calls on a collection variable, Fetch returns, up to order, exactly the values of the entries whose name is in the exact-include list (if any exact include was given), matches some include regex (if any was given), is not in the exact-exclude list and matches no exclude regex; multiplicities are preserved. Names returns each such name exactly once.", "quantifier": "all collections, all Include/Exclude call sequences, all regexes, all map iteration orders", "why_tests_cant": "map iteration order is random in Go and the selectors range over all names", "anchors": ["modsecurity/variables/filter.go: Include, Exclude, Fetch, Names, FetchWithNames", "utils/strings.go: StringInSlice, StringInRegexSlice"]}
{"id": "C14", "title": "Several selectors on one collection inspect the union", "statement": "SecRule ARGS:a|ARGS:/re/ ... inspects every argument that is named a or matches re (and ARGS|ARGS:a inspects all arguments).", "quantifier": "all collections and selector lists", "why_tests_cant": "universally quantified; found false (exact and regex includes are intersected, and a bare collection name is narrowed by a sibling selector)", "anchors": ["modsecurity/variables/filter.go: FetchWithNames", "seclang/variable.go: applyVariables"]}
{"id": "C15", "title": "Excluded names are never inspected", "statement": "A name excluded with Exclude (exactly or by regex) contributes no value to Fetch/Names no matter which Include calls precede or follow, and adding an Exclude never adds a value.", "quantifier": "all collections, all Include/Exclude call sequences", "why_tests_cant": "all interleavings of selector calls", "anchors": ["modsecurity/variables/filter.go: FetchWithNames", "modsecurity/variables/merge.go: Include, Exclude"]}
{"id": "C16", "title": "ARGS is ARGS_GET followed by ARGS_POST; &VAR counts the values", "statement": "ARGS (ARGS_NAMES) fetches exactly the values of ARGS_GET then ARGS_POST (resp. the names) under the same selectors, and a counted variable &V yields exactly one value: the decimal number of values V yields.", "quantifier": "all transactions, all selectors", "why_tests_cant": "all requests", "anchors": ["modsecurity/variables/args.go", "modsecurity/variables/args_names.go", "modsecurity/variables/merge.go: Fetch", "modsecurity/variables/count.go: Fetch"]}
{"id": "C17", "title": "Query-string arguments round trip into ARGS_GET", "statement": "If the raw query is the form-encoding of a list of name/value byte-string pairs, ARGS_GET yields exactly the values (with multiplicity) and ARGS_GET_NAMES exactly the distinct names.", "quantifier": "all lists of name/value pairs, any bytes", "why_tests_cant": "all byte strings in names and values", "anchors": ["modsecurity/variables/args_gets.go: Fetch", "modsecurity/variables/args_get_names.go: Fetch"]}
{"id": "C18", "title": "Cookies are all visible", "statement": "If the Cookie header lines are built from name/value pairs joined with ';' and arbitrary spacing, REQUEST_COOKIES yields exactly the values and REQUEST_COOKIES_NAMES exactly the distinct names; a part without '=' is a name with empty value.", "quantifier": "all lists of cookie pairs over bytes other than ';' (and '=' in names), untrimmed", "why_tests_cant": "all header contents", "anchors": ["modsecurity/variables/request_cookies.go: readCookie", "modsecurity/variables/request_cookies_names.go"]}
{"id": "C19", "title": "REQUEST_BASENAME is the last path segment", "statement": "For every path, REQUEST_BASENAME is the last non-empty segment when the path is split at '/' and '\\\\', or \"/\" when there is none; it never contains a separator unless it is \"/\" and is never empty.", "quantifier": "all byte strings as path", "why_tests_cant": "all strings; loop boundaries", "anchors": ["modsecurity/variables/request_basename.go: basename, isPathSeparator"]}
{"id": "C20", "title": "Request body is only inspected when the guard holds, and then completely", "statement": "REQUEST_BODY yields the whole body as one value iff method is POST/PUT/PATCH, request body access is on, the body is non-empty, the media type is exactly application/x-www-form-urlencoded and the body fits in memory; if only the last condition fails the transaction is aborted with status 413 and disruptive; in every other case nothing is fetched and nothing changes.", "quantifier": "all transactions, engines and bodies", "why_tests_cant": "combinations of guards and sizes", "anchors": ["modsecurity/variables/request_body.go: Fetch", "modsecurity/buffer.go: String"]}
{"id": "C21", "title": "ARGS_POST sees every well-formed pair of a urlencoded body", "statement": "With body access on and an in-memory urlencoded body, ARGS_POST yields every well-formed name/value pair of the body whenever it is evaluated, independent of what was evaluated before.", "quantifier": "all bodies, all histories of earlier evaluations", "why_tests_cant": "history-dependent; found false: the first evaluation of a body containing one malformed escape yields nothing, later ones yield the pairs", "anchors": ["modsecurity/variables/request_body_parser.go: requestBodyParse", "modsecurity/variables/args_posts.go"]}
{"id": "C22", "title": "Evaluating variables never panics", "statement": "No request makes variable evaluation panic.", "quantifier": "all requests, all rule sets, all orders of evaluation", "why_tests_cant": "found false: a malformed multipart body evaluated twice, the second time by ARGS_POST_NAMES/ARGS_NAMES, dereferences a nil form", "anchors": ["modsecurity/variables/args_post_names.go: Fetch", "modsecurity/variables/request_body_parser.go"]}
{"id": "C23", "title": "Body parse results are cached coherently", "statement": "Once the request body has been parsed, later evaluations of ARGS_POST/ARGS_POST_NAMES in the same transaction return the same content; the parse result always reflects the current body.", "quantifier": "all sequences of AppendRequestBody and evaluations", "why_tests_cant": "history property; first half holds after a clean parse, second half found false (appends after a parse are ignored)", "anchors": ["modsecurity/variables/request_body_parser.go: requestBodyParse"]}
{"id": "C24", "title": "REQUEST_URI ignores scheme, host, user and opaque part, and reading it does not change the transaction URL", "statement": "For every URL, REQUEST_URI depends only on path, query and fragment, and fetching any variable leaves the URL, method, headers, protocol and client address of the transaction unchanged.", "quantifier": "all URLs, all variables, all transactions", "why_tests_cant": "aliasing property for all inputs", "anchors": ["modsecurity/variables/request_uri.go: Fetch"]}
{"id": "C25", "title": "Rule match is 'some value satisfies the (possibly negated) operator'", "statement": "When no abort happens, a rule matches iff at least one fetched and transformed value v has Operator(v) != Not; in particular a rule whose variables yield no value never matches, also when negated.", "quantifier": "all rules, all transactions", "why_tests_cant": "all value lists", "anchors": ["modsecurity/sec_rule.go: Match"]}
{"id": "C26", "title": "Rule outcomes do not depend on Go's map iteration order", "statement": "Processing any sequence of API calls gives the same transaction state and results whatever order Go iterates the collection maps in.", "quantifier": "all API call sequences, all per-iteration permutations", "why_tests_cant": "map order is random per iteration; tests see one schedule", "anchors": ["modsecurity/variables/filter.go: Fetch, Names", "modsecurity/sec_rule.go: Match"]}
{"id": "C27", "title": "A loaded rule set means the same on every load", "statement": "Loading the same SecLang text twice gives rules that reach the same verdict on every request.", "quantifier": "all rule texts, all requests, all map iteration orders at load time", "why_tests_cant": "found false when a rule names two body collections and the body is malformed; holds when the rule has at most one body variable or the body parses", "anchors": ["seclang/variable.go: applyVariables"]}
{"id": "C28", "title": "Chained rules fire only together", "statement": "A rule with chained sub-rules executes actions iff the rule itself and every sub-rule match; then the actions of the rule run first and those of the sub-rules after it in order; otherwise no action of any of them runs.", "quantifier": "all rules, all sub-rule lists, all transactions", "why_tests_cant": "all chain lengths", "anchors": ["modsecurity/sec_rule.go: Do"]}
{"id": "C29", "title": "Actions run grouped: metadata, data, non-disruptive, disruptive, flow; stable inside a group", "statement": "ActionsExecute runs each given action exactly once, ordered by action group, and actions of the same group keep their relative order.", "quantifier": "all action lists", "why_tests_cant": "all permutations", "anchors": ["modsecurity/sec_rule.go: ActionsExecute"]}
{"id": "C30", "title": "Every phase runs at most once and phases never go back", "statement": "For every sequence of Process* calls in any order, the current phase never decreases and the rules of a phase are run by at most one call, provided no rule executes allow:request at or after the response-header phase.", "quantifier": "all API call sequences, all rule sets", "why_tests_cant": "all call orders", "anchors": ["modsecurity/transaction.go: ProcessPhase, JumpToPhase, processPhase"]}
{"id": "C31", "title": "Rules of a phase run in order, each at most once, and skip skips exactly the next rule", "statement": "In one phase run the evaluated rule indexes are strictly increasing from 0; without skip every rule is evaluated until one is disruptive; after a rule whose actions include skip the next evaluated index is exactly two higher.", "quantifier": "all rule sets and transactions", "why_tests_cant": "all rule lists", "anchors": ["modsecurity/transaction.go: Next, JumpTo, processPhase", "modsecurity/actions/skip.go"]}
{"id": "C32", "title": "Processing a phase terminates", "statement": "Every Process* call returns.", "quantifier": "all rule sets and requests", "why_tests_cant": "non-termination; found false: allow in the logging phase and allow:request in the response-header phase re-enter the same phase forever, and block inside the default actions recurses forever; holds otherwise", "anchors": ["modsecurity/transaction.go: processPhase, JumpToPhase", "modsecurity/actions/allow.go: Do", "modsecurity/actions/block.go: Do"]}
{"id": "C33", "title": "deny makes the result disruptive with an HTTP error status", "statement": "After a matching rule with deny (and no pass after it), Result() reports Disruptive with status = the last status set by a status action if that lies in 100..599, else 403.", "quantifier": "all transactions and action lists", "why_tests_cant": "all statuses and histories", "anchors": ["modsecurity/actions/deny.go: Do", "modsecurity/actions/status.go: Do"]}
{"id": "C34", "title": "Result is one-shot unless aborted", "statement": "Result() returns the accumulated intervention and resets it: an immediately following Result() is status 200, not disruptive, empty log. After an abort Result() is stable.", "quantifier": "all transactions", "why_tests_cant": "all histories", "anchors": ["modsecurity/transaction.go: Result, Intervention, Reset, Copy"]}
{"id": "C35", "title": "Abort is final", "statement": "Once the transaction is aborted (body too large or AbortWithStatus) no later sequence of Process*/Append*/Result calls runs any rule action, and every Result() keeps reporting the same disruptive status.", "quantifier": "all later API call sequences", "why_tests_cant": "all continuations", "anchors": ["modsecurity/transaction.go: AbortWithError, AbortWithStatus, processPhase, Result", "modsecurity/sec_rule.go: Match"]}
{"id": "C36", "title": "After a disruptive rule nothing else runs until Result is read", "statement": "Once a rule has denied, no further rule is evaluated in this or a later phase before the caller reads Result().", "quantifier": "all rule sets and call sequences", "why_tests_cant": "found false across phases: the first rule of each later phase still runs (and a pass there erases the denial); holds within the phase", "anchors": ["modsecurity/transaction.go: processPhase", "modsecurity/actions/pass.go"]}
{"id": "C37", "title": "allow semantics", "statement": "allow:phase skips only the rest of the current phase, allow:request skips the remaining request phases, allow skips everything but logging.", "quantifier": "all rule sets, phases and call sequences", "why_tests_cant": "found false: the phase jumped to is skipped as well (allow also skips logging, allow:phase also skips the next phase)", "anchors": ["modsecurity/actions/allow.go: Do", "modsecurity/transaction.go: ProcessPhase, JumpToPhase"]}
{"id": "C38", "title": "Engine mode is honoured", "statement": "With SecRuleEngine Off no rule runs and with DetectionOnly no transaction becomes disruptive.", "quantifier": "all rule sets and requests", "why_tests_cant": "found false: the flags are never read; the verdict is independent of the mode", "anchors": ["modsecurity/engine.go: Enable, NewTransaction", "modsecurity/transaction.go: processPhase"]}
{"id": "C39", "title": "Intervention status stays a valid HTTP status", "statement": "In every reachable state the intervention status is in 100..599, and it is 200 whenever the intervention is neither disruptive nor was a denial left standing.", "quantifier": "all API call sequences and rule sets", "why_tests_cant": "all histories", "anchors": ["modsecurity/transaction.go", "modsecurity/actions/deny.go"]}
{"id": "C40", "title": "status applies only to the rule that sets it", "statement": "A status action affects only the denial of its own rule.", "quantifier": "all rule lists", "why_tests_cant": "found false: the status stays in the transaction data and is used by later denials of other rules", "anchors": ["modsecurity/actions/status.go: Do", "modsecurity/actions/deny.go: Do"]}
{"id": "C41", "title": "Concurrent transactions do not influence each other", "statement": "For any interleaving of API calls on any number of transactions sharing one engine, each transaction ends in the state it would reach running its own calls alone.", "quantifier": "all interleavings, any number of transactions", "why_tests_cant": "schedules", "anchors": ["modsecurity/engine.go: NewTransaction", "modsecurity/transaction.go"]}
{"id": "C42", "title": "Rule registration keeps order and drops only rules outside the processing phases", "statement": "After any sequence of AddRules calls the rules of phase p are exactly the added rules with phase p, in order of addition, for p in 1..6; rules with any other phase are never run.", "quantifier": "all AddRules sequences", "why_tests_cant": "all histories", "anchors": ["modsecurity/sec_rule.go: AddRules, Process"]}
{"id": "C43", "title": "block runs the rule set's default actions", "statement": "block has exactly the effect of executing the default action list; with an empty default list it does nothing at all.", "quantifier": "all rule sets and transactions", "why_tests_cant": "all default lists", "anchors": ["modsecurity/actions/block.go: Do", "modsecurity/sec_rule.go: ExecuteDefaultActions"]}
{"id": "C44", "title": "Every log entry is attributed", "statement": "Every string in Result().Log starts with [client <ip>:<port>] (phase <n>) carrying the client address and the phase current when it was written.", "quantifier": "all API call sequences and rule sets", "why_tests_cant": "all histories", "anchors": ["modsecurity/transaction.go: Logf"]}
{"id": "C45", "title": "Body size limit", "statement": "For every sequence of buffer operations and every pattern of file-system failures the accepted length never exceeds the configured limit; a write that would exceed it is rejected with ErrOutOfFileLimit and changes nothing.", "quantifier": "all operation sequences, all write sizes, all fault patterns", "why_tests_cant": "all histories and faults", "anchors": ["modsecurity/buffer.go: Write, Len"]}
{"id": "C46", "title": "In-memory body content is exact", "statement": "While the body fits in memory, String/Bytes/WriteTo return exactly the concatenation of the accepted writes, Len is its length, whatever reads are interleaved.", "quantifier": "all operation sequences", "why_tests_cant": "all histories", "anchors": ["modsecurity/buffer.go: Write, String, Bytes, WriteTo, Len, initRead"]}
{"id": "C47", "title": "Spilled body: String reports the limit and the exact in-memory prefix", "statement": "Once accepted writes exceed the memory limit (and no file-system failure), String/Bytes return ErrOutOfMemLimit with exactly the first memLimit bytes of the accepted stream; before that they return no error.", "quantifier": "all operation sequences", "why_tests_cant": "all histories and split points", "anchors": ["modsecurity/buffer.go: Write, String, Bytes"]}
{"id": "C48", "title": "Spilled body content is exact", "statement": "WriteTo after a spill returns exactly the concatenation of the accepted writes.", "quantifier": "all operation sequences", "why_tests_cant": "found false: the bytes that complete the memory buffer are written to the file twice; exact characterisation proved", "anchors": ["modsecurity/buffer.go: Write, WriteTo"]}
{"id": "C49", "title": "Reading advances", "statement": "Repeated Read calls deliver the successive bytes of the body and then EOF (io.Reader contract).", "quantifier": "all read sequences", "why_tests_cant": "found false: every Read restarts at the beginning, so a non-empty body never reaches EOF", "anchors": ["modsecurity/buffer.go: Read, initRead"]}
{"id": "C50", "title": "Writes and reads do not interfere", "statement": "Reading a buffer between two writes does not change what is stored (or the later write is refused with ErrBufferReaded).", "quantifier": "all interleavings of reads and writes", "why_tests_cant": "found false once spilled: a read rewinds the shared file offset and the next write overwrites the beginning; the guard flag is never set", "anchors": ["modsecurity/buffer.go: Write, initRead"]}
{"id": "C51", "title": "Response body evaluation never aborts", "statement": "RESPONSE_BODY never aborts the transaction: for every sequence of AppendResponseBody calls it yields the exact accepted body when access is on and the body is non-empty, else nothing.", "quantifier": "all append sequences, all limits", "why_tests_cant": "all histories", "anchors": ["modsecurity/variables/response_body.go", "modsecurity/transaction.go: NewTransaction"]}
{"id": "C52", "title": "Quoted argument round trip", "statement": "Every byte string can be written as a quoted (single or double) SecLang argument by escaping, and ReadString returns exactly that string and stops right behind the closing quote.", "quantifier": "all byte strings, both quote characters, any following text", "why_tests_cant": "all strings", "anchors": ["seclang/parser/scanner.go: ReadString, readString, SkipBlank"]}
{"id": "C53", "title": "Parsing terminates", "statement": "Parsing any text terminates with directives or an error.", "quantifier": "all byte strings", "why_tests_cant": "found false: a backslash outside quotes that is not followed by a newline makes blank skipping loop forever; exact condition proved", "anchors": ["seclang/parser/scanner.go: SkipBlank, AllDirective"]}
{"id": "C54", "title": "Patterns are used as written", "statement": "The argument of @rx written in quotes reaches the operator byte for byte.", "quantifier": "all patterns", "why_tests_cant": "found false: backslash sequences are rewritten (\\\\d becomes d, \\\\b becomes a backspace); holds for patterns without backslash, quote and newline", "anchors": ["seclang/parser/scanner.go: readString, ReadOperator"]}
{"id": "C55", "title": "Variable list syntax", "statement": "Writing any non-empty list of variables (name, optional selector free of ',' and '|', optional ! or &) separated by '|' or ',' and reading it back yields exactly that list; the splitter never loses or invents bytes and never indexes out of range.", "quantifier": "all variable lists, all selectors", "why_tests_cant": "all lists and strings", "anchors": ["seclang/parser/scanner.go: ReadVariables", "seclang/parser/utils.go: splitMulti"]}
{"id": "C56", "title": "Operator syntax", "statement": "'@name arg' with a known name yields that operator with the argument after the first space; a leading ! sets negation; text not starting with @ is an @rx pattern; unknown names are errors.", "quantifier": "all argument strings", "why_tests_cant": "all strings", "anchors": ["seclang/parser/scanner.go: ReadOperator"]}
{"id": "C57", "title": "Action list syntax", "statement": "Reading a comma-separated action list yields id, phase, chain flag, transformations and actions in order; values outside the documented domains (phase not 1..5 or alias, severity not 0..7 or name, unknown action or transformation) are errors.", "quantifier": "all action lists without ',' in arguments", "why_tests_cant": "all lists", "anchors": ["seclang/parser/scanner.go: ReadActions, processAction, parseAction, actionProcessors"]}
{"id": "C58", "title": "Quoted action arguments may contain commas", "statement": "msg:'a,b' is one action with argument a,b.", "quantifier": "all argument strings", "why_tests_cant": "found false: the list is split at every comma", "anchors": ["seclang/parser/scanner.go: ReadActions"]}
{"id": "C59", "title": "Directive file round trip", "statement": "For every list of supported directives, printing it in SecLang syntax and parsing the text with AllDirective yields exactly the same list.", "quantifier": "all lists of directives", "why_tests_cant": "all files", "anchors": ["seclang/parser/scanner.go: AllDirective, ReadDirective, RuleDirectiveScaner, BoolArgDirectiveFactory, TriBoolArgDirectiveFactory"]}
{"id": "C60", "title": "Directive names and On/Off values are case-insensitive; everything else is rejected", "statement": "A directive is recognised iff its word equals a registered name up to ASCII case, and its flag value iff it equals On/Off(/DetectionOnly) up to ASCII case.", "quantifier": "all words and values", "why_tests_cant": "all strings", "anchors": ["seclang/parser/seclang_token.go: DirectiveFromString, RegisterDir, RegisterValue", "seclang/parser/scanner.go: ReadValue"]}
{"id": "C61", "title": "SecLang phase numbers select the documented processing phase", "statement": "A rule with phase:1..5 runs at request headers, request body, response headers, response body, logging respectively.", "quantifier": "all rules and call sequences", "why_tests_cant": "found false: numbers are off by one against the engine's phases (phase:2 runs with the request headers, before the body; no SecLang rule runs in the logging phase)", "anchors": ["seclang/parser/seclang_token.go: PhaseRequestHeaders", "modsecurity/sec_rule.go: PhaseConnection", "seclang/actions.go: applyActions"]}
{"id": "C62", "title": "Chain assembly", "statement": "In every directive sequence a rule flagged chain and the following rules up to and including the first unflagged one become one top-level rule whose sub-rules are the followers in order; all other rules stay top level; nothing is lost or reordered.", "quantifier": "all directive sequences", "why_tests_cant": "all lengths and flag patterns", "anchors": ["seclang/rule_set.go: AddSecLangString"]}
{"id": "C63", "title": "Loading is all-or-nothing on syntax errors", "statement": "If AddSecLangString fails, the directive set is unchanged; NewDireSetFromSecLangString returns no set.", "quantifier": "all texts", "why_tests_cant": "holds for syntax errors; found false for unsupported features (directives before the failing one stay, including truncated chains)", "anchors": ["seclang/rule_set.go: AddSecLangString, NewDireSetFromSecLangString"]}
{"id": "C64", "title": "Documented features load", "statement": "Every variable, operator, action and transformation listed as supported loads without error.", "quantifier": "all rules built from documented names", "why_tests_cant": "found false for XML, severity, logdata, setvar, capture and pass; exact accepted set proved", "anchors": ["seclang/variable.go: variableFactorys", "seclang/actions.go: actionFactorys", "seclang/trans.go", "seclang/operators.go", "README.md"]}
{"id": "C65", "title": "Executing directives configures the engine as written", "statement": "After Execute the body-access flags and engine mode are those of the last directive of each kind (unchanged if none), and the rules of each phase are the loaded rules in file order after the rules present before.", "quantifier": "all directive lists, all engines", "why_tests_cant": "all sequences", "anchors": ["seclang/rule_set.go: Execute", "seclang/rules.go", "seclang/sec_rule.go: Execute"]}
{"id": "C66", "title": "End to end: a deny rule blocks exactly the matching requests", "statement": "Loading the text of one rule 'SecRule REQUEST_METHOD/REQUEST_URI... \"@rx P\" \"id:N,phase:2,deny\"' and processing a request yields a disruptive 403 iff the pattern matches the (transformed) value, else status 200.", "quantifier": "all patterns free of escapes, all requests, all regex engines", "why_tests_cant": "all patterns and requests", "anchors": ["seclang/rule_set.go", "modsecurity/transaction.go", "modsecurity/sec_rule.go"]}
{"id": "C67", "title": "SameStringSlice is multiset equality", "statement": "utils.SameStringSlice(x, y) is true iff y is a permutation of x.", "quantifier": "all pairs of string slices", "why_tests_cant": "all lists", "anchors": ["utils/strings.go: SameStringSlice"]}
{"id": "C68", "title": "New transactions start clean", "statement": "NewTransaction fails iff engine or rule set is nil or the buffer directory is unusable; otherwise the first Result() of a transaction on which no rule ran is status 200, not disruptive, empty log, and the limits are those of the engine.", "quantifier": "all engines and rule sets", "why_tests_cant": "all configurations", "anchors": ["modsecurity/transaction.go: NewTransaction", "modsecurity/buffer.go: newBuffer, makeBufferDir"]}
{"id": "C69", "title": "Variables of a rule are the ones written", "statement": "The variables of a loaded rule are one per name and count mark in the text, each with exactly the selectors written for it in order; two loads give the same variables up to order.", "quantifier": "all variable lists, all map iteration orders", "why_tests_cant": "all lists of names and selectors", "anchors": ["seclang/variable.go: applyVariables"]}
{"id": "C70", "title": "A loaded rule is the one written", "statement": "The id, phase, chain flag, negation, transformations, operator with its argument, actions in order and metadata values of a loaded rule are those of the text.", "quantifier": "all rules that load", "why_tests_cant": "all rules", "anchors": ["seclang/sec_rule.go: FromSecLang", "seclang/actions.go", "seclang/operators.go", "seclang/trans.go"]}
{"id": "C71", "title": "Scalar variables show the data of the latest call", "statement": "REMOTE_ADDR, QUERY_STRING, REQUEST_BASENAME, REQUEST_FILENAME, REQUEST_METHOD, REQUEST_PROTOCOL, REQUEST_URI, RESPONSE_STATUS, RESPONSE_PROTOCOL, RESPONSE_CONTENT_LENGTH and RESPONSE_CONTENT_TYPE, read between calls or by a rule in the middle of a phase, have the value given by the latest ProcessConnection, ProcessRequestURL or ProcessResponseHeaders call (defaults if there was none), whatever rules ran before.", "quantifier": "all rule sets, call sequences and points of evaluation", "why_tests_cant": "all histories", "anchors": ["modsecurity/variables/", "modsecurity/transaction.go: ProcessConnection, ProcessRequestURL, ProcessResponseHeaders"]}
{"id": "C72", "title": "Header collections show the headers of the latest call", "statement": "REQUEST_HEADERS, REQUEST_HEADERS_NAMES, RESPONSE_HEADERS and RESPONSE_HEADERS_NAMES hold the selected entries of the headers of the latest ProcessRequestHeader or ProcessResponseHeaders call, each once; the request header names are empty as long as no URL was given.", "quantifier": "all rule sets, call sequences, selectors and points of evaluation", "why_tests_cant": "all histories", "anchors": ["modsecurity/variables/request_headers.go", "modsecurity/variables/response_headers.go", "modsecurity/transaction.go"]}
{"id": "C73", "title": "Header selectors ignore case", "statement": "A selector such as REQUEST_HEADERS:user-agent selects the header whatever the case of its letters, as HTTP header names are case-insensitive.", "quantifier": "all headers and selectors", "why_tests_cant": "all names", "anchors": ["modsecurity/variables/request_headers.go", "modsecurity/variables/filter.go"]}
{"id": "C74", "title": "A new engine has the documented default limits", "statement": "NewDefaultLimits gives the limits its comments state: 128kb in memory, 1gb of request body, 512kb of response body; a new engine has no rules, looks at no bodies and is not enabled.", "quantifier": "the default engine", "why_tests_cant": "reads the constants against their comments", "anchors": ["modsecurity/engine.go: NewDefaultLimits, NewEngine"]}
{"id": "C75", "title": "REQUEST_BODY is what AppendRequestBody accepted", "statement": "For a form body REQUEST_BODY, read at any point of evaluation, is the concatenation of the pieces accepted so far if it fits in memory; if not, reading it aborts with 413. A piece is refused iff it would exceed the limit, and then leaves no trace.", "quantifier": "all rule sets and call sequences without file system failures", "why_tests_cant": "all histories", "anchors": ["modsecurity/transaction.go: AppendRequestBody", "modsecurity/buffer.go", "modsecurity/variables/request_body.go"]}
{"id": "C76", "title": "Under rules that only deny, a phase denies iff some denying rule matches", "statement": "If no rule of a phase skips, passes or allows and none looks at a body, then running the phase leaves a denial exactly if one stood before or every rule of some chain with deny (directly or by way of block) matches the transaction data.", "quantifier": "all rule sets, phases and transaction states", "why_tests_cant": "all rule sets and states", "anchors": ["modsecurity/transaction.go: ProcessPhase, ProcessRule", "modsecurity/sec_rule.go", "modsecurity/actions/deny.go"]}
{"id": "C77", "title": "The verdict depends on the calls' data and the set of rules only", "statement": "Under such rules the first Result says to intervene exactly if some call entered its phase for the first time with data that a denying rule of that phase matches; the data is what the calls so far brought. The order and repetition of rules make no difference, and more rules never block less.", "quantifier": "all rule sets and call sequences", "why_tests_cant": "all histories, all permutations of rules", "anchors": ["modsecurity/transaction.go", "modsecurity/sec_rule.go"]}
{"id": "C78", "title": "Calls on a transaction never panic", "statement": "No sequence of calls on a new transaction panics; with rules that do not allow backwards, every sequence is answered.", "quantifier": "all engines, rule sets and call sequences", "why_tests_cant": "all histories", "anchors": ["modsecurity/transaction.go", "modsecurity/buffer.go: Write", "modsecurity/sec_rule.go: Match", "modsecurity/variables/args_post_names.go"]}
{"id": "C79", "title": "A file of denying rules blocks exactly the requests matching some line", "statement": "A file whose lines are rules SecRule VARIABLES \"@rx PATTERN\" \"id:N,phase:2,t:...,deny\" on request scalars loads, and the engine so configured answers connection, URL, headers and any further calls; it blocks, with status 403, exactly if some named value matches the pattern of some line after its transformations, and otherwise reports status 200.", "quantifier": "all such files, requests and later calls", "why_tests_cant": "all texts and requests, from text to verdict", "anchors": ["seclang/parser", "seclang/rule_set.go", "modsecurity/transaction.go"]}
{"id": "C80", "title": "Loaded objects report the names and values they were written with", "statement": "The Name methods of the transformations, operators, actions and variables of a loaded rule return the words the rule text used; names are distinct; Args of an operator and Value of an action, written back as text, give the same object.", "quantifier": "all loaded rules, operators and actions", "why_tests_cant": "all rule texts", "anchors": ["modsecurity/transforms", "modsecurity/operators: Name, Args", "modsecurity/actions: Name, Value", "modsecurity/variables: Name", "seclang/operators.go"]}
{"id": "C81", "title": "Directive registries return the latest registration", "statement": "After any registrations DirectiveFromString answers a word with the latest descriptor registered for the token last registered under that word, whatever the letter case, and with an error iff no name equals it; RegisterDire panics iff a token is registered twice, and otherwise every token answers with its own type; the tables built at start-up give the four directives.", "quantifier": "all sequences of registrations, all words", "why_tests_cant": "all registration histories", "anchors": ["seclang/parser/directive.go", "seclang/rules.go"]}
{"id": "C82", "title": "A string-argument directive holds exactly its argument", "statement": "StringArgDirectiveFactory yields the token and exactly the argument text that follows, in each of its quoted forms, and passes every error of the scanner on.", "quantifier": "all texts", "why_tests_cant": "all texts", "anchors": ["seclang/parser/directive.go: StringArgDirectiveFactory", "seclang/parser/scanner.go: ReadString"]}
{"id": "C83", "title": "StartsWith finds a prefix whatever its letter case and leaves the scanner alone otherwise", "statement": "StartsWith reports true exactly if the text ahead begins with the word up to letter case, moves what it read to the buffer without losing text, and on failure leaves the scanner as it was.", "quantifier": "all words and texts", "why_tests_cant": "all texts", "anchors": ["seclang/parser/scanner.go: StartsWith, SaveAndAdvance"]}
{"id": "C84", "title": "The rule cursor counts through a phase", "statement": "After JumpToPhase, successive calls of Next yield 0, 1, 2, ... up to the last rule of the phase and then StatusEndOfRules for ever; CurrentRule is the number last returned; JumpTo(i) makes i the next; the phase stays within the known phases.", "quantifier": "all rule sets, phases and numbers of calls", "why_tests_cant": "all call sequences", "anchors": ["modsecurity/transaction.go: Next, JumpTo, JumpToPhase, NextPhase", "modsecurity/sec_rule.go"]}
{"id": "C85", "title": "The log lists what the rules did, in order, naming each rule", "statement": "The log after a phase is the log before followed, rule by rule in evaluation order, by the lines of the log and deny actions of the rules that fired (and the messages of a body that could not be read), each line naming the client and the phase, a log line naming its rule, and a deny line the status.", "quantifier": "all rule sets without backward allow, phases and transactions", "why_tests_cant": "all rule sets and runs", "anchors": ["modsecurity/transaction.go: Logf", "modsecurity/actions/log.go", "modsecurity/actions/deny.go", "modsecurity/actions/pass.go"]}
{"id": "C86", "title": "With a readable body, a phase denies exactly if some rule matches", "statement": "If the actions a phase can run neither skip nor pass nor allow, and the bodies of the transaction can be read without error, processing the phase never aborts and the transaction is denied afterwards exactly if it was before or if some rule of the phase that denies matches with its whole chain in the state the phase began with - whatever variables the rules inspect, request and response bodies included.", "quantifier": "all rule sets, phases and transactions", "why_tests_cant": "all rule sets and bodies", "anchors": ["modsecurity/transaction.go: processPhase", "modsecurity/sec_rule.go", "modsecurity/variables", "modsecurity/request_body_processor.go"]}
{"id": "C87", "title": "A request with an orderly body is blocked exactly if some call's rules match", "statement": "For any calls of the API by a request whose body arrives before the body phase and is absent, a well-formed form, or of an unparsed type, with rules that only deny or log and look at bodies from the body phase on, the result is disruptive exactly if, at some call reaching its phase, a denying rule of the phase matches the data then present; and in those states the body variables show exactly the decoded pairs and the text of the form.", "quantifier": "all rule sets, call sequences, bodies and forms", "why_tests_cant": "all requests and rule sets", "anchors": ["modsecurity/transaction.go", "modsecurity/sec_rule.go", "modsecurity/variables/args.go", "modsecurity/variables/request.go"]}
{"id": "C88", "title": "Seek moves the read position of a body buffer", "statement": "After Seek(offset, whence) returned position q, the next Read starts at byte q; Seek fails exactly for negative positions or unknown origins, and changes neither content nor length.", "quantifier": "all buffers, offsets and origins", "why_tests_cant": "all offsets and contents", "anchors": ["modsecurity/buffer.go: Seek, Read, initRead, Write"]}
{"id": "C89", "title": "The text of the rules decides the verdict", "statement": "For every rule text that loads and whose rules say neither skip nor allow, the engine it configures blocks a request exactly if, at some API call that reaches its phase, a chain written for that phase contains deny and every rule of the chain, as written (variables with their selectors, transformations, operator, negation), matches a value present at that call; and every request gets an answer.", "quantifier": "all rule texts and call sequences", "why_tests_cant": "all rule texts and requests", "anchors": ["seclang/parser", "seclang/rule_set.go", "seclang/sec_rule.go", "modsecurity/sec_rule.go", "modsecurity/transaction.go"]}
{"id": "C90", "title": "Rule texts about form fields block exactly the forms they describe", "statement": "A text that switches body access on and lists ARGS_POST or ARGS_POST:name rules with a pattern, transformations and deny for the body phase loads, and blocks a POST/PUT/PATCH form (sent in any pieces, up to the memory limit) exactly if some decoded field with that name (or any field) matches the pattern after the transformations.", "quantifier": "all such texts, patterns, names, forms and splittings", "why_tests_cant": "all forms and patterns", "anchors": ["seclang", "modsecurity/variables/args_posts.go", "modsecurity/variables/request_body_parser.go", "modsecurity/buffer.go"]}
{"id": "C91", "title": "A failing write stores what it reports", "statement": "When a write to a body buffer fails because of the file system after n bytes, exactly the first n bytes were added to the body.", "quantifier": "all buffers, writes and file-system failures", "why_tests_cant": "every failure point", "anchors": ["modsecurity/buffer.go: Write"]}
{"id": "C92", "title": "A body buffer can be closed", "statement": "Close on any body buffer removes the temporary file if there is one and reports the first error; it never panics.", "quantifier": "all histories of buffer operations and failures", "why_tests_cant": "all histories", "anchors": ["modsecurity/buffer.go: Close"]}
{"id": "C93", "title": "What a phase adds to the answer is what its matching rules spell out", "statement": "A phase whose rules do not skip, pass or allow changes the transaction's status, denial, log lines and the status of the next denial exactly as the actions of its matching rules say, applied rule by rule in order up to the first rule after which the transaction is denied.", "quantifier": "all rule sets without skip, pass and allow, all states with readable bodies (or rules that look at none)", "why_tests_cant": "all combinations of matching rules and actions", "anchors": ["modsecurity/transaction.go: processPhase", "modsecurity/rules.go", "modsecurity/actions"]}
{"id": "C94", "title": "The first result is the full answer the rules spell out", "statement": "After any calls that only feed data, the first fetched result is, in every field, the one obtained by letting the rules of each newly reached phase react to the data that call brought; it asks for no pause and no redirect, and it is the only such answer.", "quantifier": "all call histories, rule sets without skip, pass and allow, readable bodies", "why_tests_cant": "all histories", "anchors": ["modsecurity/transaction.go"]}
{"id": "C95", "title": "The first result is the full answer the text spells out", "statement": "For a loaded text without skip and allow, the first fetched result is in every field the one obtained by reading the text: its chains in order, the phase each names, what each matches, the actions each takes.", "quantifier": "all loadable texts without skip and allow, all call histories, readable bodies", "why_tests_cant": "all texts", "anchors": ["seclang", "modsecurity/transaction.go", "modsecurity/rules.go"]}
{"id": "C96", "title": "The first matching rule of the text decides the status", "statement": "If each rule of a text denies with its own status (100 to 599, not 200), the first fetched result carries the status of the first rule in the text that matches at the first call at which any rule of the phase matches, and is the untouched 200 result if there is none.", "quantifier": "all such texts and all call histories", "why_tests_cant": "all texts and histories", "anchors": ["seclang", "modsecurity/actions/status.go", "modsecurity/actions/deny.go"]}
{"id": "C97", "title": "A result that was handed out stays as it was", "statement": "Whatever calls follow, every result handed out earlier still reads, in every field and every log line, as it did when it was returned, although its log shares an array with the log of the transaction.", "quantifier": "all call histories, all rule sets, every growth policy of append", "why_tests_cant": "aliasing shows only at certain lengths and capacities", "anchors": ["modsecurity/transaction.go: Result, Copy, Logf, Reset"]}
{"id": "C98", "title": "What callers do with a result does not reach the transaction or other results", "statement": "A caller who edits, extends or drops the log of a result it was given changes neither what the transaction reports later nor any other result.", "quantifier": "all call histories and all edits between the calls, every growth policy of append", "why_tests_cant": "aliasing shows only at certain lengths and capacities", "anchors": ["modsecurity/transaction.go: Result, Copy, Logf"]}
{"id": "C99", "title": "Engines loaded from a text answer every call", "statement": "Whatever text the engine was loaded from, every sequence of API calls on a transaction is answered: no call hangs or panics.", "quantifier": "all rule texts that load, all call sequences and requests", "why_tests_cant": "non-termination; found false: one line with phase:4,allow:request hangs every transaction it matches. True for texts in which no chain leads back to its own phase, in particular if no allow:request stands in phases 4 and 5", "anchors": ["modsecurity/actions/allow.go: Do", "modsecurity/transaction.go: JumpToPhase, nextPhase, processPhase", "seclang/rule_set.go"]}
