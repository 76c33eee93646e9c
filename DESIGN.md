# Formal model of youthlin/t in Rocq (Coq 8.16.1)

## Approach

Everything lives in `rocq/theories`; only Coq's standard library is used.
Go strings and byte slices are `list ascii` (bytes). `int64` is `Z` with
explicit wrap-around. Go maps are association lists with unique keys; where the
iteration order matters the model is a relation over *every* order. Pointers
that may be shared live in an explicit heap. Panics, errors and exhausted fuel
are distinct result constructors, and the theorems say which of them occur.

Code outside the repository enters either as a model of the Go library function
(listed below) or as a universally quantified function argument, never as an
axiom.

| layer | files |
|---|---|
| Go library | `GoStr` (strings, utf8, decimal numbers), `GoQuote` (strconv.Quote/Unquote), `GoRegex` (the regexp subset used), `GoMap`, `GoFmt` (fmt.Sprintf's directive machine), `SliceModel` (slices and append) |
| model of /repo | `PluralModel` (plurals), `FileModel` (translator/entry, file, plural, util), `WrapModel` (translator/wrap), `PoModel` (translator/po, pot, reader), `MoModel` (translator/mo), `PoErrModel`, `MoErrModel` (their error values, line numbers and buffers), `TransModel`, `GlobalModel` (package t), `ConcModel` (translator/file.go as interleaved steps of goroutines), `TagModel` (tag.go), `FsModel` (io/fs WalkDir over a file tree, fs.go), `ErrModel` (errors, plurals/err.go), `XtModel` (cmd/xtemplate/internal), `LocaleModel` (locale), `WriteModel` (saving into destinations that may fail), `HandleConcModel` (handles used by several goroutines), `MainModel` (cmd/xtemplate/main.go with Go's flag package), `XtErrModel` (what xtemplate writes to standard error), `XtDebugModel` (its debug mode), `EntryModel` (catalogs and entries behind pointers), `CatModel` (catalogs copied by value, nil catalogs and entries), `ZeroModel` (zero values and copies of handles by value), `ShareModel` (zero values and copies of translations by value), `CtxModel` (contexts of any kind, nil requests), `XtUsageModel` (its usage text and what Go's flag package says about wrong arguments), `XtLangModel` (initTranslation and the shipped language pack) |
| specification | `*Spec` files: relations written without the model's helpers |
| proofs | `*Facts` files |
| properties | `Properties*` files: theorems `Cnn_...`, each followed by `Print Assumptions` and an `Example` that meets its hypotheses |

Names: `_partial` means that a hypothesis is needed which the English statement
does not have, or that only one direction is proved; `_refuted` is a proved
counterexample to the English statement. `MANIFEST.json` says per property what
is missing. `seeded/LOG.jsonl` records the wrong programs the theorems were
tried against.

## Trusted base

1. Coq 8.16.1's kernel (with its virtual machine: `vm_compute` is used in
   examples and refutations). No flag, plugin or axiom of our own.
2. `Print Assumptions` of every theorem named in `MANIFEST.json` answers
   "Closed under the global context": no axiom, not even of the standard
   library. (Tools that list the axioms of all *loaded* files also show
   `Coq.ssr.ssrunder`, which comes in with `lia`; no theorem depends on it.)
3. The reading of the Go code: the model was written by hand from the text of
   /repo. Each definition cites the lines it models; simplifications are named
   in that comment. `RepoTests.v` checks this reading: it runs the model on the
   inputs of the repository's own tests and gets the outputs those tests expect,
   among them two files the program has written (`testdata/zh_CN_save.mo`,
   `testdata/messages.new.pot`), byte for byte. Left out are the tests of what is
   a quantified function here: the language matcher (http_test.go, matcher_test.go),
   normalization (locale), and the text of errors with stack traces.
4. The models of Go library functions, written from knowledge of Go 1.23:
   `strings` (HasPrefix/Suffix, TrimPrefix, TrimSpace, Index, LastIndex, Split,
   Join, ReplaceAll, Contains), `unicode/utf8`, `strconv.ParseInt`, `Quote`,
   `Unquote`, `regexp` matching for the three patterns used, the scanning part
   of `fmt.Sprintf`/`Errorf`, `append`, `encoding/binary` on a `bytes.Reader`,
   `fs.WalkDir`, `errors.Is`, `context.Value`, `sync.Map` (Load and Store atomic),
   `flag`, cockroachdb `errors.Errorf`/`Wrapf` (as `fmt.Sprintf` and "message: cause"), `sort.Slice`/`sort.Strings` (some ordered permutation), `int` = `int64`. `GoTests.v` runs the models of strconv, fmt, strings and utf8 on
   cases of the Go library's own tests (recalled, as its source is not here).
5. Quantified functions, about which nothing is assumed unless a theorem says
   so: `unicode.IsPrint` above ASCII, `unicode.IsLetter`/`IsDigit` above ASCII,
   fmt's rendering of one argument, `locale.Normalize` (x/text), the system
   locale, the language matcher (theorems that need it assume that its index is
   in range), `filepath.Glob`, creatability of files, text/template's parser.
6. The ANTLR runtime: the format of the serialized tables and the way the lexer
   runs on its table are modelled (AtnModel.v) after the documentation of ANTLR,
   whose source is not in /repo; the generated parser is modelled function by
   function (GenModel.v), with `AdaptivePredict` as a decision by one token (what
   it decides for this grammar: C89 shows that one token leaves at most one way on
   at each decision; that it goes on with an operator whenever one fits is its
   documented treatment of precedence rules, and where nothing fits it leaves the
   loop) and `Sync` as a check that the token may follow; the walker visits the
   children in order and calls the exit method. ANTLR's error recovery is not
   modelled, because any reported error already makes `Eval` return an error; which
   error, also depends on the walk over the tree built so far (EvalErrModel.v), of
   which it is assumed that what was finished before the first error is in it.
   C90_model shows that the hand-written parser of PluralModel.v, which the other
   theorems use, is this one.

### What is modelled and what is not

| code | modelled | not modelled |
|---|---|---|
| plurals/ | lexer, parser, walk, stack, fast path, recover; the serialized tables of the generated lexer and parser, number by number; the generated parser functions, parse trees, walk; debug printing | error texts, debug printing for rejected texts, Go stack exhaustion on deeply nested input, error recovery of ANTLR |
| f/ | all, on slices with capacity too (SliceModel; ArgsModel: from several goroutines) | rendering of one argument by fmt; that it leaves arguments unread which no directive asks for |
| errors/, plurals/err.go | all, Wrapf on slices with capacity too (WrapSliceModel) | order and deduplication of the errors wrapped by one `Errorf` (C55_order: `Is` cannot tell) |
| translator/entry, file, plural, util, wrap | all, with nil and copied catalogs (CatModel) and entries behind pointers (EntryModel) | the nil/empty slice distinction (never observed by the code) |
| translator/po, pot, reader | all (PoErrModel: line numbers and error values) | - |
| translator/mo | all (MoErrModel: error values and buffer sizes) | failure of an allocation, files of 4 GB and more |
| translations, translaton, translator, init, gettext, context, http, matcher, tag | all (nil and foreign contexts, nil requests: CtxModel) | nil pointers in concurrent programs (nil handles and translations otherwise: NilModel), the Go memory model beyond interleavings of single accesses and absence of races (HandleConcModel) |
| mark.go | all (GlobalModel) | four identity functions, nothing to prove |
| locale/ | all (LocaleModel; elsewhere `Normalize` is any function) | `go-locale`, x/text |
| cmd/xtemplate/internal | keywords, extraction, merging, header, run, texts on standard error (XtErrModel), debug mode (XtDebugModel) | in debug lines the name of a template, the position of a command and the Go syntax of a node are any; the long text of an error with its stack trace is any text the library may give for it; the template parser (its trees are quantified), html/template escaping (never executed) |
| cmd/xtemplate/main.go | all: flags, usage text and complaints (XtUsageModel), exit status, version, recovery from a panic, error texts, initTranslation with the embedded language pack (XtLangModel; the pack is the text of lang/zh_CN.po) | the command's go.mod requires v0.1.10 of the package; it is taken to be the code of /repo |
| tests, testdata | their inputs and expected outputs (RepoTests) | build scripts |

## Plan per property

* C01 C05: lexer, parser, tree, post-order stack walk; the walk equals a recursive evaluator by induction on the tree; fuel sufficiency by token count.
* C02: independent stratified grammar relation; soundness and completeness of the parser; printing/parsing round trip with arbitrary blanks.
* C03: each fast-path function against the evaluator applied to the parsed text, for all int64 n; lifted to every text with the same tokens.
* C04: C semantics as a separate evaluator; refutation witnesses; equality on the fragment where conditions are boolean-valued and faults impossible; AgreeSpec.v states the agreement operation by operation (which operand values give C's result, exactly) and PropertiesAgree.v when the reading is C's, exactly.
* C06: refutation (`nn`), and the exact set of accepted strings.
* C07: the regular expression as data with a backtracking matcher; characterisation of accepted headers.
* C08-C13: catalog as state machine over AddEntry; invariants over histories. Lang and the language of a translator are the field Language (PropertiesLang, also for C44).
* C14-C17: directive machine of fmt.Sprintf with abstract rendering of one argument; a relation of the texts of all directives, faulty ones included (FmtTextSpec.v); slices with capacity for C16.
* C18-C28: Quote/Unquote, split, writer, reader; round trips by induction over strings, lines and entries.
* C21 C22, catalogs a file cannot express: PoAnySpec.v says what is kept of any entry whose comments have no other than comment lines, and what becomes of the forms of an entry that also has one translation; the round trip is then an equivalence.
* C29-C35: binary writer/reader over byte lists; layout theorem; prefix rejection. MoAnySpec.v: what comes back of any entry; that nothing else round-trips by a measure of keys that no entry read back exceeds.
* C36-C47: heap of Translation objects, handles, operations; non-interference over histories; Tag cache as interleaving machine.
* C48-C54, C58: keyword parser; template tree; walker; context state machine; run with output file state.
* C57, returned errors: the walk as the list of its calls; the parser once more, keeping the calls for what is finished before an error; everything behind is any list of calls.
* C55 C57: error values as trees; the listener as a fold over any list of reports; for Wrapf the errors a format takes under %w, as a relation over its pieces, for any arguments. For every byte string as format, well-formed or not: no causes but those of the arguments and of the error wrapped (PropertiesWrapAny).
* C56: the walk as a list of callback events, among them errors; on file trees the exact set of files that count.
* C59: file trees as an inductive type, fs.WalkDir as the list of callbacks in name order; the visited paths are strictly sorted, so the last catalog of a language is the one with the greatest path.
* C60: C21/C29 round trips, C59 and the lookup joined.
* C61: a relation for string literals (UTF-8, escapes) written from the format; equivalence with strconv.Unquote by induction on its loop and on the relation.
* C62: a relation between entries and the lines that may spell them; the reader's automaton follows it; every line the reader lets pass is of one of the listed forms.
* C63: the lines the writer produces satisfy the layout relation of C62.
* C64: C string literals as a relation with longest-match escapes; induction over the characters of the text.
* C65: an invariant of the reader's automaton (every entry read is expressible), then C21 and the last-definition semantics.
* C66: observable settings of a handle as a record; each setter against it, all other handles by the frame lemmas of C36.
* C67: package-level functions modelled one by one (GlobalModel.v) and compared with the methods; which handle is global by case analysis over all calls.
* C68: case analysis of the lookup.
* C69: case analysis over all calls with the frame lemmas.
* C70: ConcModel.v turns each method of a catalog into a program whose reads and writes of the two lazily computed fields are single steps; invariant over all interleavings: each field is unset or has the one value the entries determine, and each goroutine knows which fields are set. Counter-example to race freedom by running a schedule; the catalogs without races are characterised exactly (C70_exactly).
* C71: invariant over all programs: a catalog that names a language and is in a translation has both fields computed; then C70's no-write lemma.
* C72: MainModel.v models flag.Parse as a recursion over the arguments; MainSpec.v says independently what a command line means (spelled flags, rest, last value given); both directions by induction over the command line. The debug counter-example by running the model.
* C73: the entry of a key depends only on the messages with that key, in their order; permuting templates with disjoint messages keeps these lists; sort keys of extracted messages decode uniquely (references end in a padded number), so sorting has one result. Counter-examples by running the model with two orders. XtBagFacts.v, PropertiesXtBag.v: without these conditions the messages are still the same multiset, so outcome, message set and the multiset of references of each message agree.
* C74: WriteModel.v adds the last call of each save (bytes.Buffer.WriteTo) with any answer of the destination, and the deferred Close of a run; by cases on the answer, combined with C21, C29 and C72.
* C75: LocaleModel.v over a quantified tag library; the names of all handles as an invariant over programs; ISO codes and re-readability of tag names are hypotheses about x/text. Counter-examples by running the model with a three-language library.
* C76: composition of C49, C52, C22 (extraction and reading the template file), C60 (save, load) and C08, C09 (answers). The first call of a message decides; what the calls of the other kind get is said too. Counter-example by running the model.
* C77: PoErrModel.v: the reader with its line counter and error values (errors of ErrModel), refined to the reader of PoModel by a one-pass machine; the complaints are a relation over the grammar of C61. Counter-example for the counting from 1 by running the model.
* C78: MoErrModel.v: ReadMo with error values, proved equal to MoModel's result; the faults of a content are an inductive relation over positions, shown total and equivalent to rejection.
* C79: the buffer requests recorded in MoErrModel.v; bound by induction over the strings; two families of counter-examples, one for every size. MoTotalFacts.v: the requests of an accepted file are the lengths of its strings in order, and for written files the total is the size less the head and the tables (PropertiesMoTotal.v).
* C80: HandleConcModel.v: every call as a program of single memory accesses; a small separation logic (what a goroutine owns, what nobody changes) in HandleConcFacts.v and HandleCallFacts.v; the answers are those of the sequential model because the same program run alone gives them (HandleRunFacts.v). For Domains, Locales, MostMatchLocale and GetUserLang the answer of the program is what it read; C80_shown says that the result of the call is determined by it.
* C81: counter-examples by running schedules of the model (a race on the map of domains; an answer mixed from before and after); the case where the others hold older copies follows from C80. C81_exactly and C81_undisturbed (PropertiesRace.v) say from C105 which calls race with translating.
* C82 C83: XtErrModel.v: the run once more with reports collected in order, their texts through the directive machine of fmt (GoFmt), the error values; `told` says independently which reports a list of files leads to. Proved equal to the runs of XtModel and MainModel but for standard error (C83_same).
* C84: the keyword parser with the texts of its errors, refined to the parser of C48; a relation of what is wrong with a keyword. Counter-example for `%` by running the model.
* C85: XtLangModel.v: initTranslation as calls of the package (BindFS, SetLocale); the answers by C59 on the embedded tree and on any tree at LANG_PATH; the embedded catalog read by the model of ReadPo. C85_reports joins C82, C83 and C87 for the program as shipped.
* C86: the catalog read from the shipped zh_CN.po (the bytes of the pack) against the list of the messages of the program, a relation of the verbs of a format. C86_asks and C86_asked tie that list to the whole program of XtModel.v: translations that agree on it cannot be told apart by any command line, and each is printed by some command line. Counter-examples: one message without translation, two translations without the verb.
* C88: AtnModel.v: the table of the lexer, its decoding and the search over its states; the places reached by each ASCII character and pair of characters by evaluation (a finite table), numbers and blanks of any length by induction, characters above ASCII because no transition reads one; proved equal to the lexer of PluralModel and so to the layout of C02.
* C89: paths through the table of the parser with precedence predicates; from the grammar to the table by induction over derivations, back by a meaning for each state and rebracketing lemmas (what may be put behind an expression); decisions by the sets of tokens each state can begin with.
* C90: GenModel.v: the functions Start_, exp and Primary of the generated parser with their state numbers, masks and precedences, on the decoded tables; a tree for every expression (GenSpec.v); induction over the fuel against the parser of PluralModel, then over expressions for the walk.
* C91: TraceModel.v: the listener as steps that print; a relation of expression, waiting values and lines (TraceSpec.v), also for the lines before a fault; induction over the relation.
* C92, exact forms of C27, C31, C34, C58: OrderSpec.v says what an entry is ordered by, without the sort key of the model; the sort key is shown to be that text, and then saving to be deterministic (C27), the .mo table to be sorted (C31) exactly under a stated condition; exchange of tied neighbours in the sorted list. A prefix of a .mo file: positions of the strings (MoCutFacts.v). Panics of a run: the converse of goodName (XtPanicFacts.v).
* C15, the marker: MarkSpec.v says which byte strings are text and complete directives without index, how many arguments they take and which end in an open directive; the scanner is followed on every byte string by an automaton for what stands between a per cent sign and its verb (MarkFacts.v), so that PropertiesMark.v states when the marker is written as an equivalence.
* C15, the text, for every byte string whose directives get their verbs and close their brackets (AnySpec.v): the scanner treats the format the same with the appended directive behind it, and, where fmt.Sprintf has no complaint, the same with one argument more (AnyFacts.v); PropertiesAny.v concludes that Format writes the text of fmt.Sprintf without the marker. `C15_brackets_refuted` shows that both conditions on brackets are needed.
* Exact forms of C22, C35, C37, C43, C54, C60, C65 and C15_unclosed: the converse of each partial theorem, or the answer in the excluded case; the names found in a template source by an invariant on what stands before the scan position (only digits glued to it).
* C93, C94: XtDebugModel.v: the run with every debug line, as a relation; erasing the lines gives the run of XtErrModel and every such run has its lines (both directions); the log against a relation of specification (XtDebugSpec.v) that says for every use of a keyword, in the order of the source, what is printed, and that the log is the only one possible; induction over files, templates, nodes and commands.
* C87: XtUsageModel.v: flag.PrintDefaults and the errors of flag.Parse; a relation of the first wrong argument; both directions. C87_any for explanations of several lines or with back quotes.
* C95: EntryModel.v: the methods of `*File` over a heap of entries, and programs that share pointers; the history alone says what an entry contains and what a catalog lists (EntrySpec.v); invariant over all programs; each method agrees with FileModel's on the current contents.
* C96: ZeroModel.v: TransModel's programs with zero values (nil maps: reading is empty, assigning panics) and copies and assignments of handles by value (shared maps); ZeroSpec.v says by the history alone which handles have no map and which share one; invariant over all programs; frame lemmas of TransFrameFacts.v, which hold whether or not handles share maps.
* C97: ArgsModel.v: Format as a program of single accesses to the array behind args; goroutines that format and read and assign elements; which elements an operation looks at and changes is ArgsSpec.v; invariant over all interleavings (each goroutine still gets what it gets alone, and stays within its elements). Counter-examples: races for all slices of the two shapes that overlap, a wrong answer by running a schedule.
* C98: NilModel.v: the calls as the programs of single accesses of HandleConcModel.v, run alone, where touching a field of the handle that stands for nil panics; calls on nil translations as the functions of TransModel.v with an optional receiver. NilSpec.v lists the handle each call needs and the calls that return before, and compares a nil translation with an empty one. Case analysis over the calls; induction over walks and over sequences of recovered calls.
* C99: WrapSliceModel.v: Wrapf on slices of a heap of arrays, as SliceModel.v does for Format; sequences of calls by induction, with room too if no place behind an argument list holds an argument (PropertiesWrapApart).
* C100: the entries read from a .mo content have a shape ([means_shape] in MoLoadFacts.v) from which the conditions of C29 and C21 follow, except for ids that begin with the separator of contexts; the theorems of C27 and C29 then give exact conditions on the content.
* C101: CatModel.v: a `*File` as the address of its map, its header fields and its rule, with copies and assignments by value and nil pointers; CatSpec.v says by the history alone which catalogs share a table, what is listed and which fields are kept; invariant over all programs; programs without copies are refined to FileModel's. Entries are values here (C95 has the pointers to entries); `headers` and `plural` are set once and not changed behind the pointer, so copies of them are copies of values.
* C102: ConvSpec.v: chains of conversions as an inductive relation; one step by C21 and C29, the chain by induction over the formats; the catalogs are those of the programs of C101.
* C103: RulesSpec.v: the texts of the rules as in the manual, and the forms by last digits, written from the descriptions of the languages; by cases over the sixteen rules, evaluated with a variable for n; any text with the same tree up to parentheses has the same value by induction on the tree (C01).
* C104: composition of C47, C45, C41 and C42 over the names of C75; the catalog is named in the state before the request (ServeSpec.v). Counter-example with a context of another domain by running the model.
* C105: safety by an invariant over the interleavings of HandleConcModel.v: each goroutine's remaining program touches only parts its calls name, handles it made, and catalogs that are completely computed (HandleRaceFacts.v, parts in HandleRaceSpec.v); the converse by running the two calls up to the common access (HandleClashFacts.v) in a state made by loading, or clearing, first. The answers: HandleAnswerFacts.v gives, for each goroutine, the answers of its calls as a function of a view of the handle without addresses, and HandleAnswerRunFacts.v shows that the steps of the others leave the parts of that view the goroutine uses as they are; running alone is the case of one goroutine. The end of every goroutine is a view too, so two complete interleavings leave the same parts; running in turn is one of them (HandleTurnFacts.v).
* C106: ShareModel.v: TransModel's programs with zero values, copies and assignments of translations; every translation has the address of its languages or none, and a call is TransModel's call on the heap as the program sees it, stored back through that address. ShareSpec.v says by the history alone with which translation the languages of another were made; invariant over all programs (ShareFacts.v, ShareRunFacts.v).
* C107: CtxModel.v: a context is nil, foreign (any answer or a panic for each key), a setting on a context or a wrapper; CtxSpec.v says by the layers what is answered; WithContext reduced to C45 on the context with just the two answers.
* C108: no new model; `most_match_locale`, `set_locale` and `locales` of TransModel.v joined with C41, C42 and C75: the chosen name is canonical, so SetLocale keeps it, so lookup finds its catalog. Only for the global handle; refuted for others.
* C109: no new model; HistSpec.v folds a list of calls into a list of plain records (language, domain, source language, the files each domain was last bound to), without heap, sharing or catalogs; an invariant relates the heap of TransModel.v to the record after every call.
* C110: no new model; CutSpec.v says when an entry is a shortened one. The reader is seen as a run over lines that gives a list of entries; an entry with a translation only grows at its end (induction over the lines); a line and a longer one that are both accepted do the same, unless the shorter one is white or a comment, since no string literal is the beginning of another one (from the determinism of the unquoting loop). For saved files the lines are comments, empty, or end with a string, so a cut inside a string is an error. C110_noticed_refuted: half a translation of several lines is taken for the whole.
* C49, the overlooked calls: XtPlainSpec.v separates the calls in parentheses a field is taken of; every call is either one of these or at a place the extraction looks at.

## Not expressible

* Weak memory and memory exhaustion (Go memory model, allocator): C70/C71 use sequentially consistent interleavings and say which accesses conflict.

## Findings

Behaviour of the code that contradicts the English statement of a property;
each is a theorem with a witness.

| property | finding |
|---|---|
| C03 | removing blanks before the table lookup joins tokens: `n ! = 1` is accepted as `n!=1` |
| C04 | only 1 counts as true; `&&`, `\|\|`, `?:` evaluate all operands; `^` computes `&`; `>=` `<=` bind weaker than `>` `<` |
| C06 | what follows a complete expression is ignored (`nn`) |
| C07 | `nplurals=10` is rejected: one digit only |
| C08 C11 | a context or id with an EOT byte can answer for another message |
| C10 | `XN64` panics if the rule's index equals the number of forms present (`>` instead of `>=`, file.go:57) |
| C13 | a header entry added after the headers were first needed is ignored |
| C15 | a format ending in `%`, or with too few arguments, produces text that is in neither; `%[%` and `%[3]%%d` are changed by the appended directive and argument |
| C16 | `append(args, "")` writes into the spare capacity of the caller's slice |
| C20 | only the last word of the last line is split off, and nothing if the line ends in a blank; whole saved files are characterised with the limit of 77 bytes |
| C21 | an entry with MsgStr and MsgStrN is saved as text whose `msgstr[0]` starts an entry without an id: read back, it takes the place of the header |
| C21 C22 | an empty catalog is saved as an empty file, which is rejected; comments without `#` are not readable |
| C24 | `ReadPot` panics (nil entry) on every content `ReadPo` rejects with a syntax error |
| C27 | entries with equal sort keys are written in random order |
| C28 | line numbers of more than ten digits are compared as text; C28_exactly says for which pairs of line numbers the order holds |
| C29 C35 | an untranslated plural entry comes back from .mo with one empty form; an id with EOT comes back under another key |
| C31 | .mo tables are ordered by source reference, not by original string, so GNU's binary search fails |
| C34 | if the last stored string is empty, more than the final NUL may be missing (without loss) |
| C37 C42 | `GetOrNoop` returns the shared package variable `trNoop`; loading into it changes every handle |
| C43 | `ts.MostMatchLocale()` ignores its receiver |
| C49 | keywords with a gap (`T:2`) never match; calls inside `(...).Field` are not found |
| C52 | `T ""` replaces the generated header |
| C53 | the output file is emptied before the templates are read |
| C54 | functions with non-ASCII names are not registered |
| C55 | `Wrapf` loses the cause if the format ends in `%` or its verbs do not match the arguments |
| C56 | an unreadable directory ends the walk |
| C61 | raw bytes that are not UTF-8 are read as U+FFFD whatever charset the header declares; `\7` and `\x9` are rejected |
| C62 | a tab after the keyword and an indented continuation line are rejected; comments at the end of a template replace the header text |
| C64 | unprintable characters are written as `\u....`, which is no C (or gettext) escape sequence |
| C65 | a file with two headers answers with the first, is saved with the last: its language may change |
| C70 | goroutines sharing a catalog without a header entry race on the lazily computed fields (harmlessly for the answers) |
| C58 | a keyword like `.T` makes `Run` panic |
| C72 | with `-d` debug text is printed to standard output in front of the extracted template |
| C73 | the same message in two templates of one file gets its references in random order; `X "c" ""` may be written before the header |
| C75 | `Translation.Get` compares the name as given (a catalog of `zh-Hans` is not found under that name); a cookie value is returned unnormalised |
| C76 | a message called with and without a plural is extracted once only (a warning is printed); the other call stays untranslated |
| C77 | lines are counted from 0 in the errors of ReadPo (the third line is "line 2") |
| C79 | a .mo file of 44 bytes makes ReadMo ask for 4 GB; accepted files may ask for a quarter of the square of their size |
| C81 | `BindFS` on the global handle while another goroutine translates: concurrent map write and read (Go may stop the program); `SetDomain` and `SetLocale` in a row: another goroutine may see the old domain with the new language |
| C84 | errors about keywords and output files use the message, with the parameter in it, as a format: a `%` in a keyword specification or file name is garbled (`T:%d` is quoted as `T:%!d(MISSING)`) |
| C85 | with LANG_PATH set to a path that does not exist, or one without the user's language, xtemplate speaks English even where the embedded language pack has the language |
| C86 | the Chinese language pack lacks `failed to read file %v`; its translations of `context index is not a number: %v` and `context index must end with 'c': %v` leave out the value |
| C95 | `AddEntry` keeps the pointer: an entry changed later is found under its old name with its new text and saved under its new name |
| C96 | `BindFS` on a zero `Translations` panics only once something was loaded (an empty directory hides it); a handle copied by value shares its domains with the original until `ClearDomains` |
| C106 | a `Translation` copied by value shares its languages with the original until one of them is assigned: loading through the copy changes what the original answers |
| C107 | a context of another package whose `Value` has a string for every key sets language and domain |
| C108 | the method `MostMatchLocale` asks the global handle: a handle whose domain is in Chinese, on a Chinese system, is told German and loses its Chinese texts by following it |
| C97 | a translation call with `args...` of a slice with spare capacity writes the element behind the slice: two goroutines passing the same such slice race, and an assignment to that element by another goroutine shows up as surplus text in the answer |
| C99 | `append(args, err)` in Wrapf writes the wrapped error into the spare capacity of the caller's slice |
| C100 | an id of a .mo file that begins with the EOT byte (an empty context) is saved without it: `\x04a\x04b` comes back as `b` in context `a` |
| C101 | a catalog copied by value shares its entries with the original if one had been added before, and does not otherwise; the header fields are not shared in either case |
