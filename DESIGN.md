# Formal model of senghoo/ModSecurity-Go in Rocq (Coq 8.16.1)

## How the code is modelled

The model is a set of total, computable Gallina functions over `list ascii` (Go strings and byte
slices), `Z` (Go integers), association lists (Go maps) and records (Go structs). Mutation through a
pointer is a function returning the new value. Go error returns are values; a Go panic is the explicit
outcome `Panic`; a loop that is not structurally bounded runs on fuel and returns the explicit
outcome `Timeout` when the fuel is used up, so "terminates" is `exists fuel, result <> Timeout` and
"hangs" is `forall fuel, result = Timeout`.

Everything outside the repository whose behaviour is not fixed by the repository is a field of the
record `oracles` (Types.v); theorems quantify over every value of it:

* regular expressions (`regexp.Compile`, `MatchString`); PropRegex has theorems under the hypothesis `library` that on
  the commonly used fragment (Regex.v: literals, escapes, classes, groups `(…)` `(?:…)` `(?i:…)`, alternatives, `*` `+` `?` and their lazy forms, `{n,m}` after one character, `^` `$` `\A` `\z` `\b` `\B`, a leading `(?i)`) they
  behave as Go's library does, and shows that such oracles exist,
* `mime.ParseMediaType`, `mime/multipart` form reading, `url.URL.String`; PropUri and PropMedia have theorems under the
  hypotheses `uri_library` (URLs are written as in Uri.v) and `media_library` (content types are read as in Media.v), PropMulti under `multipart_library` (multipart forms of up to 2000
  bytes are read as in Multi.v, where it says how), PropMultiLf under `multipart_lf_library` (the same for forms whose first delimiter ends with LF alone, as in MultiLf.v), and show that
  such oracles exist,
* `unicode.ToLower` on runes from 128 up,
* the Go release's choice whether `;` separates query pairs (`net/url`),
* the order of every single map iteration (`ord n m`, restricted to permutations by `ord_valid`).

File-system failures are arguments of the buffer operations (`wfault`, the flags of `buf_close`, and
`dir_ok` for the directory check of a new transaction).

## Layout (rocq/theories)

* Model, definitions only, each citing file and lines: `Base GoStrings Utils Buffer Types Transforms
  Operators Transaction Variables Rules Engine Scanner Loader Names Registry Slices Custom`.
  `Custom` is rule evaluation again with the variables, transformations, operators and actions left open, as the Go
  interfaces leave them; PropCustom proves that `Rules` and `Engine` are its instance for the repository's own parts.
  `World` puts engines, rule sets, directive sets and transactions behind pointers, so that a
  program can change engines and rules while transactions are under way; each operation is one step of it.
  `Shared` adds the `Limits` of engines as objects that several engines may point to; PropShared proves that a program that
  never assigns them is one of `World`.
  `Held` adds the URLs and header maps the program hands over by reference and may write into later.
  `Dirs` is `makeBufferDir` on a small file system of files and directories with permissions; `Closed` is a body
  buffer that may be closed and used on. Threads.v has goroutines in small steps, without fuel. Regex.v is a
  fragment of regular expressions and the registered flag words. Uri.v reads request targets and writes URLs, Media.v reads
  content types, Multi.v multipart forms, MultiLf.v those with lines that LF alone ends. Index.v has the functions that go through strings and slices by index once more, with the
  indexes, slices and shifts of the source and a panic for each access out of range; PropIndex proves them equal to the
  models without indexes.
  SpecFilter.v takes a request as its texts (request line, header, body) and says which rules of a text hold of it; PropFilter
  proves that exactly those decide the verdict, so that neither side of the statement mentions the state of a transaction.
  SpecExchange.v and PropExchange.v do the same for a whole exchange, request and response, with every phase and the answer in
  full (status, log lines, denial) at any moment of it. SpecCourse.v and PropCourse.v let the rules take any
  actions (skip, allow, pass): the answer is the one the course of the exchange through the text gives. PropTotal.v adds that such calls always return, by comparing
  the multipart reader with one that never fails or hangs: while the bodies can be read no phase can tell them apart.
* Independent specifications: `Spec*.v`. They use the types of the model, not its functions, except
  where a property is about a function of the model as such (for example `fetch` inside "the rule
  matches"; what `fetch` returns is specified in SpecVars.v and proved in PropVars.v).
* Lemmas: `*Facts.v`, `VarText.v`, `ParseLists.v`, `ParseFiles.v`, `ParsePrint.v`.
* Property theorems with their examples and `Print Assumptions`: `Prop*.v`.
* `Witness.v`: a concrete oracle and concrete requests used by examples and counterexamples.
  `RepoTests.v`: the repository's own test cases, run on the model by computation.

## Properties

Statements are in properties.jsonl, theorem names and remarks in MANIFEST.json. "partial" always means:
the statement as given is false of the code (theorem `..._refuted` with a concrete witness), and the
strongest true variant found is proved (`..._partial`).

| property | title | status | file |
|---|---|---|---|
| C01 | Percent-encoding round trip through urlDecode / urlDecodeUni | proved | PropText |
| C02 | urlDecode implements exactly the left-to-right percent grammar and never fails | proved | PropText, PropIndex |
| C03 | lowercase transform | proved | PropText |
| C04 | removeNulls / removeWhitespace / replaceNulls delete or replace exactly the named character | proved | PropText |
| C05 | compressWhitespace squeezes runs of spaces | proved | PropText |
| C06 | Whitespace transforms treat every whitespace character | partial | PropText |
| C07 | Transformations are applied left to right to every inspected value | proved | PropText, PropCustom |
| C08 | t:none resets the transformation pipeline | partial | PropText |
| C09 | Numeric comparison operators are exact on int64 | proved | PropText |
| C10 | Numeric operators form a total order on all input strings | proved | PropText |
| C11 | Numeric operator constructors accept exactly the decimal int64 literals | proved | PropText |
| C12 | Numeric comparison is monotone for arbitrarily large decimal inputs | partial | PropText |
| C13 | Collection selectors: which names are inspected | proved | PropVars, PropRegex |
| C14 | Several selectors on one collection inspect the union | partial | PropVars, PropQuery |
| C15 | Excluded names are never inspected | proved | PropVars |
| C16 | ARGS is ARGS_GET followed by ARGS_POST; &VAR counts the values | proved | PropVars, PropQuery |
| C17 | Query-string arguments round trip into ARGS_GET | proved | PropVars, PropQuery |
| C18 | Cookies are all visible | proved | PropVars, PropQuery, PropIndex |
| C19 | REQUEST_BASENAME is the last path segment | proved | PropVars, PropIndex |
| C20 | Request body is only inspected when the guard holds, and then completely | proved | PropVars, PropMedia |
| C21 | ARGS_POST sees every well-formed pair of a urlencoded body | partial | PropVars, PropQuery |
| C22 | Evaluating variables never panics | partial | PropVars |
| C23 | Body parse results are cached coherently | partial | PropVars |
| C24 | REQUEST_URI ignores scheme, host, user and opaque part, and reading it does not change the transaction URL | proved | PropVars, PropUri |
| C25 | Rule match is 'some value satisfies the (possibly negated) operator' | proved | PropRules, PropCustom |
| C26 | Rule outcomes do not depend on Go's map iteration order | proved | PropRules |
| C27 | A loaded rule set means the same on every load | partial | PropTwice, PropScript |
| C28 | Chained rules fire only together | proved | PropRules, PropCustom |
| C29 | Actions run grouped: metadata, data, non-disruptive, disruptive, flow; stable inside a group | proved | PropRules, PropCustom |
| C30 | Every phase runs at most once and phases never go back | proved | PropPhases, PropCustom, PropWorld |
| C31 | Rules of a phase run in order, each at most once, and skip skips exactly the next rule | partial | PropPhases, PropCustom |
| C32 | Processing a phase terminates | partial | PropPhases, PropHang, PropCustom, PropComplete, PropChronicle, PropAnnals, PropThreads, PropCourse |
| C33 | deny makes the result disruptive with an HTTP error status | partial | PropTxn |
| C34 | Result is one-shot unless aborted | proved | PropTxn |
| C35 | Abort is final | proved | PropTxn, PropCustom |
| C36 | After a disruptive rule nothing else runs until Result is read | partial | PropPhases |
| C37 | allow semantics | partial | PropPhases |
| C38 | Engine mode is honoured | partial | PropTxn |
| C39 | Intervention status stays a valid HTTP status | partial | PropTxn |
| C40 | status applies only to the rule that sets it | partial | PropTxn |
| C41 | Concurrent transactions do not influence each other | proved | PropTxn, PropWorld, PropHeld, PropProgram, PropAnnals, PropThreads, PropShared |
| C42 | Rule registration keeps order and drops only rules outside the processing phases | proved | PropRules |
| C43 | block runs the rule set's default actions | proved | PropRules |
| C44 | Every log entry is attributed | proved | PropTxn |
| C45 | Body size limit | proved | PropBuffer |
| C46 | In-memory body content is exact | proved | PropBuffer |
| C47 | Spilled body: String reports the limit and the exact in-memory prefix | proved | PropBuffer, PropIndex |
| C48 | Spilled body content is exact | partial | PropBuffer, PropTape |
| C49 | Reading advances | partial | PropBuffer, PropReader |
| C50 | Writes and reads do not interfere | partial | PropBuffer, PropTape |
| C51 | Response body evaluation never aborts | proved | PropTxn |
| C52 | Quoted argument round trip | proved | PropParse |
| C53 | Parsing terminates | partial | PropParse |
| C54 | Patterns are used as written | partial | PropParse |
| C55 | Variable list syntax | proved | PropParse, PropIndex |
| C56 | Operator syntax | proved | PropParse, PropIndex |
| C57 | Action list syntax | proved | PropParse, PropIndex |
| C58 | Quoted action arguments may contain commas | partial | PropParse |
| C59 | Directive file round trip | proved | PropParse |
| C60 | Directive names and On/Off values are case-insensitive; everything else is rejected | proved | PropParse, PropRegex |
| C61 | SecLang phase numbers select the documented processing phase | partial | PropLoad |
| C62 | Chain assembly | proved | PropLoad |
| C63 | Loading is all-or-nothing on syntax errors | partial | PropLoad |
| C64 | Documented features load | partial | PropLoad |
| C65 | Executing directives configures the engine as written | proved | PropLoad, PropWorld, PropProgram, PropShared |
| C66 | End to end: a deny rule blocks exactly the matching requests | proved | PropEnd, PropRegex, PropUri |
| C67 | SameStringSlice is multiset equality | proved | PropText |
| C68 | New transactions start clean | partial | PropTxn, PropWorld, PropDirs, PropProgram, PropShared |
| C69 | Variables of a rule are the ones written | proved | PropLoad, PropIndex |
| C70 | A loaded rule is the one written | proved | PropLoad |
| C71 | Scalar variables show the data of the latest call | proved | PropData, PropHeld, PropUri |
| C72 | Header collections show the headers of the latest call | proved | PropData, PropHeld |
| C73 | Header selectors ignore case | partial | PropData |
| C74 | A new engine has the documented default limits | partial | PropData |
| C75 | REQUEST_BODY is what AppendRequestBody accepted | proved | PropData |
| C76 | Under rules that only deny, a phase denies iff some denying rule matches | proved | PropGate |
| C77 | The verdict depends on the calls' data and the set of rules only | proved | PropGate |
| C78 | Calls on a transaction never panic | partial | PropFile, PropSafe, PropChronicle, PropAnnals, PropThreads, PropTotal |
| C79 | A file of denying rules blocks exactly the requests matching some line | proved | PropFile, PropRegex |
| C80 | Loaded objects report the names and values they were written with | partial | PropNames |
| C81 | Directive registries return the latest registration | proved | PropRegistry |
| C82 | A string-argument directive holds exactly its argument | proved | PropRegistry |
| C83 | StartsWith finds a prefix whatever its letter case and leaves the scanner alone otherwise | partial | PropRegistry |
| C84 | The rule cursor counts through a phase | partial | PropRegistry, PropIndex |
| C85 | The log lists what the rules did, in order, naming each rule | partial | PropLog |
| C86 | With a readable body, a phase denies exactly if some rule matches | proved | PropBody |
| C87 | A request with an orderly body is blocked exactly if some call's rules match | proved | PropBody |
| C88 | Seek moves the read position of a body buffer | partial | PropBuffer |
| C89 | The text of the rules decides the verdict | proved | PropVerdict, PropFilter, PropTotal |
| C90 | Rule texts about form fields block exactly the forms they describe | proved | PropVerdict, PropRegex, PropMedia, PropMulti, PropMultiLf, PropTotal |
| C91 | A failing write stores what it reports | partial | PropBuffer |
| C92 | A body buffer can be closed | partial | PropBuffer, PropClosed |
| C93 | What a phase adds to the answer is what its matching rules spell out | proved | PropAnswer, PropAccount |
| C94 | The first result is the full answer the rules spell out | proved | PropAnswer, PropAccount, PropComplete, PropChronicle, PropTotal |
| C95 | The first result is the full answer the text spells out | proved | PropReply, PropAccount, PropComplete, PropScript, PropExchange, PropTotal, PropCourse |
| C96 | The first matching rule of the text decides the status | proved | PropReply, PropExchange, PropCourse |
| C97 | A result that was handed out stays as it was | proved | PropAlias |
| C98 | What callers do with a result does not reach the transaction or other results | partial | PropAlias |
| C99 | Engines loaded from a text answer every call | partial | PropReturn |

Techniques: induction on inputs and on parsed structure for text functions, parsers and loaders (with
independent inductive grammars and round trips); invariants over lists of API calls (`steps`) for the
buffer and the transaction; `vm_compute` for witnesses; permutation reasoning for map order.

## What is modelled, file by file

| Go file | modelled | not modelled |
|---|---|---|
| utils/urlencode.go, utils/strings.go | all functions (`IsHex`, `UnHex` by their tables) | |
| utils/pprint.go | | debug printing |
| modsecurity/transforms/*.go | all | |
| modsecurity/operators/*.go | constructors, `Match`, `Name`, `Args` | the regexp engine (oracle; a fragment of it in Regex.v, its texts described by the grammar `reads` in SpecRegex.v); counts of groups, `\p`, `\x`, `[[:alpha:]]`, other flags than `i`, patterns with characters beyond ASCII |
| modsecurity/variables/*.go | all `Fetch`, `Include`, `Exclude`, `Name`; `requestBodyParse` with its cache and error flag | multipart reading, media types and URL printing (oracles; read in Multi.v and MultiLf.v for short forms whose quoted-printable parts have = only before two digits or a line end, in Media.v for ASCII headers without RFC 2231 parameters, in Uri.v for request targets that begin with a slash) |
| modsecurity/actions/*.go | all `Do`, `ActionGroup`, `Name`, `Value` | |
| modsecurity/sec_rule.go | all; the four interfaces also with arbitrary implementations (Custom.v) | pointer identity of rules; a rule set is a value (shared through pointers in World.v); implementations that replace a transaction's rule set while it runs |
| modsecurity/buffer.go | `Write`, `String`, `Bytes`, `Len`, `initRead`, `Read`, `WriteTo` (to a writer that takes everything), `Seek` (whence 0, 1, 2), `Close`; failures of the temporary file and of copies as arguments | a transaction's rules run after its body was closed (the buffer itself, closed and used on, is in Closed.v); `makeBufferDir` on symbolic links, with `.` and `..`, under a umask taking the owner's rights, and against concurrent changes of the disk; the file's name |
| modsecurity/engine.go | all; engines and rule sets behind pointers in World.v, limits behind pointers in Shared.v | a nil `Limits` or `Config` |
| modsecurity/transaction.go | all, as one state machine over API calls (`step`) with logs as values; the sharing of log arrays between the transaction and its results in Slices.v | logrus output; two goroutines inside one transaction |
| seclang/parser/utils.go, scanner.go | all scanning, including `StartsWith` and the string directive that no directive uses | error message texts beyond the error kind; readers that fail and later go on (the parser is always given a string) |
| seclang/parser/seclang_token.go, seclang.go | token tables, `RegisterDir`, `DirectiveFromString`, values of flags (equality of ASCII-lowercased words in Scanner.v; `RegisterValue` with any word and the patterns `(?i)^On$` and so on in Regex.v, proved equal in PropRegex) | |
| seclang/*.go | all | error message texts |

Simplifications, each repeated at the definition: Go `int` is `Z` except where the code parses to int64;
strings are bytes; NUL-terminated scanner input is a list with an explicit end; compiled regular
expressions are represented by their source; maps are association lists with distinct keys; headers and
URLs handed to a call are values, except in Held.v, where the program keeps them and may write into them between calls.

Assumptions on the Go side: `strings.Map` as in Go 1.12 and later (an invalid byte counts as changed); `encoding` of runes as in
`unicode/utf8`; `os.File` with one offset shared by reads and writes.

C41 (transactions do not disturb each other) is about whole API calls interleaved in any order in PropTxn, on
transactions that share one fixed engine, and in PropWorld, also with changes of engines and rules between the calls.
In PropThreads goroutines with a transaction each are interleaved inside their calls too, in the steps of Threads.v (one
variable, one value, one action, one turn of the loop), while engines and rules stay as they are. Each step touches only
the goroutine's own transaction, so finer steps would add nothing. Data races (two goroutines in one transaction, or
rules added during a call: a map written while it is read) are outside the model.

## Trusted base

* Coq's kernel (8.16.1) and `vm_compute`.
* `Print Assumptions` follows every property theorem; each prints "Closed under the global context": no
  axioms, neither of our own nor of the standard library, are used. (`vcheck` lists the names of
  `Coq.ssr.ssrunder`: parameters of a module type in a standard library
  file that gets loaded; no theorem depends on them.)
* The reading of the Go source into the model, definition by definition, as cited.
* The reading of the Go standard library functions that are modelled rather than left as oracles
  (`strings`, `strconv`, `unicode/utf8`, `net/url.ParseQuery` and unescaping, `bytes`, `os.File` offsets, `http.Header.Get`, the fragment of `regexp` in Regex.v, of `net/url` in Uri.v, of `mime` in Media.v and of `mime/multipart` in Multi.v and MultiLf.v).

## What the proofs found

Statements that the documentation or the names suggest and that are false of the code, each with a witness in Coq:

* Buffers: every `Read` starts over, so the multipart reader only ever sees the first bytes of a body (as many as it asks for at a
  time, 4096 in Go's library): no rule looks at the rest, and if those bytes do not end the form it goes round in circles;
  `Seek` has no effect on reads; the body is stored twice once it spills to disk;
  a failed temporary file keeps bytes that were reported unwritten, a failed copy loses stored ones; closing a buffer
  that never spilled panics; a negative memory limit panics; a file or a directory without write permission at `TmpPath` is accepted as
  buffer directory, and bodies are refused later.
* Engine: `Enabled`/`DetectionOnly` are never consulted; the documented phase numbers are off by one against
  the engine's; after a denial the first rule of every later phase still runs; `pass` may erase a denial; `allow` may
  loop (the one line `SecRule RESPONSE_STATUS "@eq 200" "id:1,phase:4,allow:request"` hangs every transaction it matches; a call
  hangs exactly if it evaluates some rule twice); `block` among the default actions recurses without end; `skip` always skips one rule; a status set by one rule
  is used by a later denial of another; the log always says 403; once a transaction is aborted, the results it hands out share their log
  array with it and with each other.
* Variables: a body parsed before it is complete stays cached; REQUEST_HEADERS_NAMES is empty without a URL;
  `!ARGS` without a selector adds ARGS; selectors for headers are case sensitive; a malformed multipart body with two
  looks at its names panics; a form sent with `Content-Type: application/x-www-form-urlencoded; charset=a; charset=b` is not looked at; nor is a
  multipart form whose text stops right after the final delimiter, as the reader then meets the first line again, or which has anything else but CR LF there or after blanks behind another delimiter (LF alone, a word) - with LF alone after the first delimiter the library wants LF everywhere, and then CR LF after a delimiter is what stops it -, nor a field sent as a file (`filename=f`) or with a doubled `name`;
  REQUEST_URI shows a path that is not a valid encoding written anew (`/<b>` as `/%3Cb%3E`).
* Parser: a backslash not followed by a line end hangs `SkipBlank`; a failed `StartsWith` swallows the shared prefix. A flag word
  registered with a bar in it is not one of two words (`(?i)^Yes|No$` takes `Yesterday`).

## Testing the theorems

seeded/LOG.jsonl records every deliberate error put into a copy of the model, the claim it breaks, the theorems that
failed to compile and, where none did, the theorems that were added or tightened as a consequence. Edits that
turned out not to change any function are marked as equivalent.
