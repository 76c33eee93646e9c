{"id": "C01", "title": "Plural evaluation computes the value of the expression tree", "statement": "For every well-formed plural expression and every int64 n, plurals.Eval returns exactly the value obtained by evaluating the expression tree bottom-up with the library's operators on wrapping 64-bit integers; the operand stack used by the tree walk never underflows and ends with exactly the result. When an operator faults (division or remainder by zero, negative shift count, literal above int64) Eval returns an error and no value.", "quantifier": "all expression trees (unbounded size and depth), all int64 n", "why_tests_cant": "Infinitely many expressions and 2^64 values of n; tests only sample about forty formulas.", "anchors": ["plurals/exp.go:Eval", "plurals/exp.go:myListener.ExitExp", "plurals/exp.go:myListener.ExitPrimary", "plurals/stack.go:Int64Stack"]}
{"id": "C02", "title": "Plural parser implements the grammar's precedence and associativity", "statement": "For every expression tree and every blank/tab layout of its tokens, writing the tree with parentheses placed according to the grammar's precedence table and parsing it back yields the same tree (so a binary operator of higher precedence binds tighter, binary operators associate to the left and ?: to the right). Conversely whatever the parser accepts is a derivation of the grammar.", "quantifier": "all expression trees, all token strings, all whitespace layouts", "why_tests_cant": "The set of token sequences is infinite; precedence interactions are combinatorial.", "anchors": ["plurals/plural.g4", "plurals/parser/plural_parser.go:exp", "plurals/parser/plural_parser.go:Primary", "plurals/parser/plural_lexer.go"]}
{"id": "C03", "title": "The fast path for common plural formulas agrees with the general evaluator", "statement": "For each of the built-in common formulas and every int64 n (including negative), the hard-coded Go function returns the value the general lexer/parser/evaluator would return for the same formula. For any expression text whose spaces separate whole tokens, Eval's answer does not depend on which path is taken.", "quantifier": "all built-in formulas, all int64 n, all spacings", "why_tests_cant": "2^64 values of n for each formula; tests stop at n=214 and, because the fast path shadows the parser, never run the two paths against each other.", "anchors": ["plurals/common.go:commons", "plurals/exp.go:Eval"]}
{"id": "C04", "title": "Plural expressions follow C semantics", "statement": "As the gettext manual and plural.g4 promise, evaluating a plural expression gives the value that C gives to it: any non-zero operand counts as true for ! && || ?:, && || ?: evaluate lazily, ^ is exclusive or, relational operators share one precedence level.", "quantifier": "all expressions, all n", "why_tests_cant": "Universally quantified over expressions and n.", "anchors": ["plurals/exp.go:handleExpBop", "plurals/exp.go:handleExpPrefix", "plurals/plural.g4"]}
{"id": "C05", "title": "Eval never panics and always terminates", "statement": "For every byte string and every int64 n, plurals.Eval returns (value, nil) with the value in the int64 range, or (_, err); it never panics and always terminates.", "quantifier": "all byte strings, all int64 n", "why_tests_cant": "All inputs, including adversarial ones.", "anchors": ["plurals/exp.go:Eval"]}
{"id": "C06", "title": "Malformed plural expressions are rejected", "statement": "If the expression text as a whole is not a well-formed plural expression, Eval reports an error rather than a value.", "quantifier": "all byte strings, all n", "why_tests_cant": "All malformed inputs; the repository's own test marks this as an unexplained surprise (nn).", "anchors": ["plurals/exp.go:Eval", "plurals/plural.g4:start", "plurals/exp_test.go:errCase"]}
{"id": "C07", "title": "Plural-Forms header is understood", "statement": "For every header value of the form nplurals=<number>; plural=<expression>; (blanks allowed around tokens), the catalog uses exactly that number of forms and that expression; any other value means the catalog has no plural rule and plural lookups fall back to the source texts.", "quantifier": "all header values", "why_tests_cant": "All strings and all spacings.", "anchors": ["translator/plural.go:parsePlural", "translator/plural.go:rePlurals"]}
{"id": "C08", "title": "Singular lookup returns the translation or the source text", "statement": "File.X(ctx,id,args...) returns the formatted translation of the entry whose context and id are exactly (ctx,id) if there is one with a non-empty translation, and the formatted id otherwise; no other entry influences the result.", "quantifier": "all catalogs (any history of AddEntry), all contexts, ids and arguments", "why_tests_cant": "All catalogs and keys.", "anchors": ["translator/file.go:File.X", "translator/file.go:File.AddEntry"]}
{"id": "C09", "title": "Plural lookup selects the form the plural rule designates", "statement": "When a plural entry exists with a non-empty form at the index the catalog's rule assigns to n (index below nplurals), File.XN64 returns that form formatted; if the entry is missing, or the rule is absent, invalid or out of range, or the form is empty, it returns msgid for n=1 (or when no plural text is given) and msgid_plural otherwise; an entry without plural forms gives its singular translation.", "quantifier": "all catalogs, all keys, all int64 n, all arguments", "why_tests_cant": "All catalogs, rules and n.", "anchors": ["translator/file.go:File.XN64", "f/format.go:DefaultPlural"]}
{"id": "C10", "title": "Plural lookup never panics", "statement": "File.XN64 returns a string for every catalog, key and n, whatever the number of msgstr[i] forms present.", "quantifier": "all catalogs, all keys, all int64 n", "why_tests_cant": "All combinations of rule and number of forms.", "anchors": ["translator/file.go:File.XN64"]}
{"id": "C11", "title": "Contexts isolate messages", "statement": "Two messages with different (context, id) pairs never overwrite or answer for one another.", "quantifier": "all pairs of (context,id)", "why_tests_cant": "All pairs of strings.", "anchors": ["translator/util.go:key", "translator/entry.go:Entry.Key", "translator/file.go:File.AddEntry"]}
{"id": "C12", "title": "Translating does not modify a loaded catalog", "statement": "For every catalog that a Translation registers after loading a .po or .mo file, any sequence of Lang, X and XN64 calls leaves the catalog value unchanged, hence concurrent translation calls on it perform no writes.", "quantifier": "all file contents, all call sequences", "why_tests_cant": "All contents and all interleavings of readers.", "anchors": ["translator/file.go:File.initHeader", "translator/file.go:File.initPlural", "translaton.go:Translation.AddOrReplace"]}
{"id": "C13", "title": "Catalog headers come from the header entry", "statement": "Whatever the order in which entries are added, GetHeader(k) returns the trimmed value of the first 'k: value' line of the message translation of the entry with empty context and empty id.", "quantifier": "all sequences of AddEntry, all header texts", "why_tests_cant": "All histories and header texts.", "anchors": ["translator/file.go:File.initHeader", "translator/file.go:File.GetHeader", "translator/file.go:File.AddEntry"]}
{"id": "C14", "title": "Format without arguments is the identity", "statement": "f.Format(s) = s for every string, also when it contains formatting verbs.", "quantifier": "all strings", "why_tests_cant": "All strings.", "anchors": ["f/format.go:Format"]}
{"id": "C15", "title": "Surplus arguments are never reported", "statement": "For every format string and argument list, f.Format never emits the %!(EXTRA ...) marker nor any text that is in neither the format nor the arguments: it outputs what fmt.Sprintf outputs for the directives of the format.", "quantifier": "all format strings, all argument lists", "why_tests_cant": "All format strings; Sprintf's directive grammar is intricate (flags, widths, *, indexes).", "anchors": ["f/format.go:Format"]}
{"id": "C16", "title": "Format does not modify the caller's arguments", "statement": "Calling a translation function with args... leaves the caller's slice and its backing array unchanged.", "quantifier": "all argument slices (any length and capacity)", "why_tests_cant": "Depends on slice capacity and aliasing.", "anchors": ["f/format.go:Format"]}
{"id": "C17", "title": "Without a catalog the source texts are used", "statement": "The no-op translator returns Format(msgid) for singular lookups and the English rule (n=1: msgid, else msgid_plural, or msgid if no plural is given) for plural lookups; N1 never returns anything but msgid.", "quantifier": "all strings, all n, all arguments", "why_tests_cant": "All inputs.", "anchors": ["translator.go:nooptor", "f/format.go:DefaultPlural", "gettext.go:N1"]}
{"id": "C18", "title": "Quoted strings survive the PO quoting", "statement": "Every byte string (any encoding, valid UTF-8 or not) written to a .po file as a quoted string and read back is unchanged, and the quoted text contains no raw newline, carriage return or unescaped quote.", "quantifier": "all byte strings, any Unicode printability table", "why_tests_cant": "All byte strings.", "anchors": ["translator/pot.go:writeString", "translator/util.go:removePrefixAndUnquote"]}
{"id": "C19", "title": "Line splitting is lossless", "statement": "Splitting a message for writing loses and adds nothing: the concatenation of the pieces is the message, for any threshold, and a newline occurs only at the end of a piece; splitting always terminates.", "quantifier": "all strings, all thresholds", "why_tests_cant": "All strings.", "anchors": ["translator/wrap.go:split0"]}
{"id": "C20", "title": "Long lines are wrapped at the threshold", "statement": "A piece longer than the threshold contains no blank at which it could have been broken.", "quantifier": "all strings, all thresholds", "why_tests_cant": "All strings.", "anchors": ["translator/wrap.go:split0"]}
{"id": "C21", "title": "Saving and re-reading a .po file preserves the catalog", "statement": "For every catalog, SaveAsPo followed by ReadPo succeeds and yields a catalog with exactly the same entries (context, id, plural id, translations, comments) under the same keys, except that untranslated entries are dropped.", "quantifier": "all catalogs (any number of entries, any strings), any map iteration order", "why_tests_cant": "All catalogs; the round trip crosses quoting, wrapping, sorting and line parsing.", "anchors": ["translator/po.go:SaveAsPo", "translator/po.go:readPo", "translator/po.go:readEntry"]}
{"id": "C22", "title": "Saving as .pot keeps every message id and only ids", "statement": "For every catalog, SaveAsPot followed by ReadPot yields for each entry the same context, id, plural id, plurality and comments with empty translations, and the header's text unchanged.", "quantifier": "all catalogs, any map iteration order", "why_tests_cant": "All catalogs.", "anchors": ["translator/pot.go:SaveAsPot", "translator/po.go:ReadPot"]}
{"id": "C23", "title": "Line endings do not matter", "statement": "Reading a .po file with CRLF line endings gives the same result as reading it with LF line endings.", "quantifier": "all file contents", "why_tests_cant": "All contents.", "anchors": ["translator/po.go:readPo"]}
{"id": "C24", "title": "Reading a .po/.pot file always returns a catalog or an error", "statement": "For every content, ReadPo and ReadPot terminate and return a catalog or an error; they never panic.", "quantifier": "all byte strings", "why_tests_cant": "All contents, also malformed.", "anchors": ["translator/po.go:ReadPo", "translator/po.go:ReadPot", "translator/po.go:readEntry"]}
{"id": "C25", "title": "Blank lines and comments do not change translations", "statement": "Inserting or removing blank lines anywhere in a .po file, or comment lines between entries, does not change any translation read from it.", "quantifier": "all file contents, all insertion points", "why_tests_cant": "All contents and positions.", "anchors": ["translator/po.go:readEntry"]}
{"id": "C26", "title": "The last definition of a message wins", "statement": "When a file defines the same message several times, the catalog holds the last translated definition; messages are independent of each other's order.", "quantifier": "all sequences of entries", "why_tests_cant": "All sequences.", "anchors": ["translator/file.go:File.AddEntry", "translator/po.go:readPo"]}
{"id": "C27", "title": "Saving is deterministic", "statement": "Two saves of the same catalog produce the same bytes, whatever order the Go runtime iterates the map in.", "quantifier": "all catalogs, all iteration orders", "why_tests_cant": "Iteration order is random; a test cannot control it.", "anchors": ["translator/file.go:SortedEntry", "translator/entry.go:getSortKey"]}
{"id": "C28", "title": "Entries are written in source order", "statement": "The saved entries are exactly the catalog's entries, the header first, and entries referring to the same source file are ordered by their line number as a number.", "quantifier": "all catalogs, all line numbers", "why_tests_cant": "All numbers; lexicographic vs numeric order differs at digit boundaries.", "anchors": ["translator/entry.go:getLineString", "translator/entry.go:getSortKey", "translator/file.go:SortedEntry"]}
{"id": "C29", "title": "Saving and re-reading a .mo file preserves the catalog", "statement": "For every catalog small enough for 32-bit offsets, SaveAsMo followed by ReadMo succeeds and yields the same context, id, plural id and translations under the same keys (comments are not stored).", "quantifier": "all catalogs, any iteration order", "why_tests_cant": "All catalogs.", "anchors": ["translator/mo.go:SaveAsMo", "translator/mo.go:ReadMo"]}
{"id": "C30", "title": "The .mo layout is a valid GNU MO file", "statement": "In the bytes SaveAsMo writes, the header fields, both tables and all string regions are where the format demands: table entry i gives the length and offset of string i, the string is NUL-terminated, regions lie inside the file and do not overlap.", "quantifier": "all catalogs", "why_tests_cant": "All catalogs.", "anchors": ["translator/mo.go:SaveAsMo", "translator/mo.go:writeMoHeader"]}
{"id": "C31", "title": "The .mo string table is sorted as GNU gettext requires", "statement": "The original strings in the table appear in increasing lexicographic order, as the MO format requires for lookup by binary search.", "quantifier": "all catalogs", "why_tests_cant": "All catalogs.", "anchors": ["translator/mo.go:SaveAsMo", "translator/file.go:SortedEntry"]}
{"id": "C32", "title": "Reading a .mo file always returns a catalog or an error", "statement": "For every byte string ReadMo terminates and returns a catalog or an error, it never panics and never reads outside the content; content without a MO magic number or with an unsupported version is rejected.", "quantifier": "all byte strings", "why_tests_cant": "All contents, also hostile offsets.", "anchors": ["translator/mo.go:ReadMo"]}
{"id": "C33", "title": "Byte order does not matter", "statement": "The big-endian and the little-endian encoding of the same MO file are read as the same catalog.", "quantifier": "all MO files", "why_tests_cant": "All files.", "anchors": ["translator/mo.go:ReadMo"]}
{"id": "C34", "title": "A truncated .mo file is rejected", "statement": "If a crash leaves only a proper prefix of a saved .mo file, ReadMo rejects it, unless only the final NUL byte is missing, in which case nothing is lost.", "quantifier": "all catalogs, all crash points", "why_tests_cant": "All prefixes.", "anchors": ["translator/mo.go:SaveAsMo", "translator/mo.go:ReadMo"]}
{"id": "C35", "title": ".po and .mo give the same translations", "statement": "Loading a catalog from its .po or from its .mo form yields a translator with the same answers to Lang, X and XN64.", "quantifier": "all catalogs, all lookups", "why_tests_cant": "All catalogs.", "anchors": ["translator/po.go:readPo", "translator/mo.go:ReadMo", "translator/file.go:File.XN64"]}
{"id": "C36", "title": "D and L return independent handles", "statement": "D, L, Global and WithContext never change the receiver; afterwards, any sequence of SetDomain, SetLocale, SetSourceCodeLocale, Bind/Load, RemoveDomain, ClearDomains on one handle has no effect on anything observable through another handle.", "quantifier": "all operation histories over any number of handles", "why_tests_cant": "All histories and interleavings.", "anchors": ["translations.go:Translations.clone", "translations.go:Translations.D", "translations.go:Translations.L", "init.go:Global"]}
{"id": "C37", "title": "Unknown domain or language falls back to the source text", "statement": "In every reachable state, translating through a handle whose current domain is not loaded, or has no catalog for the current locale, returns the source text formatted.", "quantifier": "all operation histories", "why_tests_cant": "All histories.", "anchors": ["translations.go:Translations.GetOrNoop", "translaton.go:Translation.GetOrNoop", "translaton.go:trNoop"]}
{"id": "C38", "title": "Binding is all-or-nothing per domain", "statement": "BindFS replaces the whole content of exactly the given domain if at least one file was loaded, and otherwise changes nothing; other domains, the current domain and locales are untouched.", "quantifier": "all states, all file systems", "why_tests_cant": "All file systems and states.", "anchors": ["translations.go:Translations.BindFS", "translaton.go:Translation.LoadFS"]}
{"id": "C39", "title": "A .po file overrides a .mo file of the same language", "statement": "After loading a directory, the catalog of each language is that of the last readable .po file of that language in walk order if there is one, otherwise that of the last readable .mo file; unreadable or malformed files are skipped without affecting the others.", "quantifier": "all directory trees", "why_tests_cant": "All trees.", "anchors": ["translaton.go:Translation.LoadFS", "translaton.go:Translation.LoadFile"]}
{"id": "C40", "title": "RemoveDomain and ClearDomains", "statement": "RemoveDomain(d) returns true exactly if d was loaded (and d is not empty); then d is no longer loaded, all other domains and the locales are unchanged and the current domain is the default if it was d and unchanged otherwise. ClearDomains removes every domain, resets the current domain and keeps the locales.", "quantifier": "all states, all domains", "why_tests_cant": "All states.", "anchors": ["translations.go:Translations.RemoveDomain", "translations.go:Translations.ClearDomains"]}
{"id": "C41", "title": "Locales lists every available language once, sorted", "statement": "Locales() is never empty, strictly increasing, contains the source code locale, and contains a language exactly if it is the source locale or a (normalised) language of the current domain.", "quantifier": "all states, any iteration order", "why_tests_cant": "Map iteration order is random.", "anchors": ["translations.go:Translations.Locales"]}
{"id": "C42", "title": "UsedLocale tells which language is used", "statement": "UsedLocale() returns the handle's locale if a catalog for it is loaded in the current domain, in which case T/N/X/XN answer from that catalog; otherwise it returns the source code locale and T/N/X/XN return source texts.", "quantifier": "all states", "why_tests_cant": "All states.", "anchors": ["translations.go:Translations.UsedLocale", "translations.go:Translations.X", "translations.go:Translations.XN64"]}
{"id": "C43", "title": "MostMatchLocale answers for its handle", "statement": "ts.MostMatchLocale() returns a member of ts.Locales() chosen for ts.Locale().", "quantifier": "all states", "why_tests_cant": "All states.", "anchors": ["translations.go:Translations.MostMatchLocale"]}
{"id": "C44", "title": "A catalog is found under its own language name", "statement": "After a catalog with Language header l (non-empty) has been added, selecting locale l (or any spelling that normalises to the same code) makes lookups use that catalog, until another catalog normalising to the same code replaces it; AddOrReplace returns the previous one.", "quantifier": "all languages, any normalisation function", "why_tests_cant": "All names.", "anchors": ["translaton.go:Translation.AddOrReplace", "translations.go:Translations.SetLocale", "locale/detect.go:Normalize"]}
{"id": "C45", "title": "Context values select locale and domain independently", "statement": "WithContext(ctx) equals the global state with the most recently set context locale and domain applied (each only if set); setting one never affects the other, and unrelated context values are ignored.", "quantifier": "all contexts (any chain of values)", "why_tests_cant": "All chains.", "anchors": ["context.go:WithContext", "context.go:GetCtxLocale", "context.go:GetCtxDomain"]}
{"id": "C46", "title": "The language tag cache is transparent", "statement": "Under every interleaving of concurrent Tag calls, each call returns language.Make of its argument.", "quantifier": "all schedules, all arguments", "why_tests_cant": "All interleavings.", "anchors": ["tag.go:Tag", "tag.go:Tags"]}
{"id": "C47", "title": "GetUserLang returns the cookie or a supported locale", "statement": "GetUserLang returns the value of the configured cookie if present (the last WithCookieName wins, default lang), otherwise a member of Locales().", "quantifier": "all requests, options, states, matchers", "why_tests_cant": "All requests.", "anchors": ["http.go:GetUserLang"]}
{"id": "C48", "title": "Keyword specifications are parsed as written", "statement": "For every list of keyword specifications name, name:i, name:i,j, name:cc,i and name:cc,i,j (with blanks), ParseKeywords returns the described keywords in order; anything else is an error.", "quantifier": "all keyword lists", "why_tests_cant": "All strings.", "anchors": ["cmd/xtemplate/internal/keyword.go:ParseKeywords"]}
{"id": "C49", "title": "Every keyword call in a template is extracted", "statement": "Every call of a keyword function with literal arguments anywhere in a template (text actions, if/else, range, with, template arguments, nested parentheses, pipelines) produces an entry with the literals at the keyword's positions.", "quantifier": "all template trees, all keyword lists", "why_tests_cant": "All trees.", "anchors": ["cmd/xtemplate/internal/run.go:resolveNode", "cmd/xtemplate/internal/run.go:resolveCmds", "cmd/xtemplate/internal/run.go:filter"]}
{"id": "C50", "title": "Only keyword calls are extracted", "statement": "Every extracted entry stems from an occurrence of a keyword name followed by string literals at the positions the keyword declares.", "quantifier": "all template trees, all keyword lists", "why_tests_cant": "All trees.", "anchors": ["cmd/xtemplate/internal/run.go:filter", "cmd/xtemplate/internal/run.go:extract"]}
{"id": "C51", "title": "Extraction merges duplicates without loss", "statement": "After any sequence of extracted occurrences the result has one entry per message key, with the fields of its first occurrence and the source references of all its occurrences of the same plurality in order; occurrences conflicting in plurality are reported and change nothing; the plural flag is set exactly if some entry is plural.", "quantifier": "all sequences of occurrences", "why_tests_cant": "All sequences.", "anchors": ["cmd/xtemplate/internal/param.go:Context.Add"]}
{"id": "C52", "title": "The extracted template file always has a header", "statement": "The .pot file written by xtemplate contains the generated header entry and every collected entry.", "quantifier": "all collections of entries", "why_tests_cant": "All collections.", "anchors": ["cmd/xtemplate/internal/param.go:Context.pot", "cmd/xtemplate/internal/param.go:Context.header"]}
{"id": "C53", "title": "A failed extraction does not destroy the previous output", "statement": "If xtemplate fails, the output file still has its previous content.", "quantifier": "all runs, all failure points", "why_tests_cant": "All failure points.", "anchors": ["cmd/xtemplate/internal/run.go:Run", "cmd/xtemplate/internal/keyword.go:Writer"]}
{"id": "C54", "title": "Function names in templates are recognised", "statement": "Every identifier occurring in a template that is not a template keyword is registered as a function before parsing, so a template never fails to parse because a function is undefined.", "quantifier": "all template sources", "why_tests_cant": "All sources.", "anchors": ["cmd/xtemplate/internal/run.go:scanFuncNames"]}
{"id": "C55", "title": "Wrapped errors keep their cause", "statement": "errors.Is sees every error passed to Wrapf and both errors passed to WithSecondaryError, at any depth, and nothing else.", "quantifier": "all nestings", "why_tests_cant": "All nestings.", "anchors": ["errors/errors.go:Wrapf", "errors/errors.go:WithSecondaryError", "errors/errors.go:Is"]}
{"id": "C56", "title": "An unreadable directory does not hide other catalogs", "statement": "Loading a directory tree loads every readable catalog in it, also if some of its directories cannot be read.", "quantifier": "all directory trees", "why_tests_cant": "All trees and failure points.", "anchors": ["translaton.go:Translation.LoadFS"]}
{"id": "C57", "title": "Errors in plural expressions are recognisable", "statement": "If the recogniser of plural expressions reports anything, the error returned has plurals.ErrAntlr as a cause (errors.Is), whatever was reported and how often; the error of a failed computation has not.", "quantifier": "all sequences of reports", "why_tests_cant": "All sequences.", "anchors": ["plurals/err.go:errorListener.addError", "plurals/err.go:ErrAntlr", "plurals/exp.go:Eval"]}
{"id": "C58", "title": "xtemplate does not crash on its parameters", "statement": "For every combination of parameters and files xtemplate ends with success or with an error message; it never panics.", "quantifier": "all parameters, file systems and template sources", "why_tests_cant": "All parameter values.", "anchors": ["cmd/xtemplate/internal/run.go:resolveOneFile", "cmd/xtemplate/internal/param.go:newCtx"]}
{"id": "C59", "title": "Which file of a directory tree decides", "statement": "After Bind(domain, path) the domain answers in language l from the readable .po file of that language whose path is greatest (component by component, bytewise) in the tree under path, else from the greatest such .mo file, else with the source text; if nothing in the tree is readable the domain is as before; a path that names a single file is a tree of one file, a path that does not exist changes nothing.", "quantifier": "all file trees (any depth, names, contents, unreadable files and directories), states, handles, languages", "why_tests_cant": "Trees of every shape and every order of directory entries.", "anchors": ["translaton.go:LoadFS", "translaton.go:LoadFile", "fs.go:pathFS", "translations.go:BindFS"]}
{"id": "C60", "title": "A saved catalog answers the same after deployment", "statement": "A catalog built from entries with distinct keys, saved with SaveAsPo or SaveAsMo into a file that decides for its language (C59) and bound, answers X and XN64 through the handle as the catalog itself did before it was saved.", "quantifier": "all catalogs, trees, states, handles, contexts, ids, numbers and arguments", "why_tests_cant": "Composes writer, reader, directory walk, locale selection and lookup for all inputs.", "anchors": ["translator/po.go:SaveAsPo", "translator/mo.go:SaveAsMo", "translaton.go:LoadFS", "translations.go:XN64"]}
{"id": "C61", "title": "A string of a .po file denotes the text its escapes say", "statement": "A text read from a .po file is accepted as a string exactly if it is one of the literal forms of the format: between double quotes, ASCII characters and UTF-8 characters standing for themselves, the one-letter escapes, three octal digits, two, four or eight hexadecimal digits, a byte that is not UTF-8 for U+FFFD (raw and character literals of Go are accepted as well); every accepted string is translated to the denoted text.", "quantifier": "every byte string between quotes, every pair of id and translation text", "why_tests_cant": "Tests try a few escapes; the claim ranges over all byte strings, including invalid UTF-8, surrogates and numeric escapes at the limits.", "anchors": ["translator/util.go: removePrefixAndUnquote", "translator/po.go: readEntry"]}
{"id": "C62", "title": "The layout of a .po file does not matter", "statement": "However an entry is laid out - blanks between keyword and string and at line ends, strings cut into pieces on continuation lines, blank lines anywhere, either line ending, comments before entries and at the end - the file is read as the denoted entries; a file containing any other line is rejected with an error.", "quantifier": "every list of entries and every layout of it; every file content with a line of another form", "why_tests_cant": "Infinitely many layouts of the same entries; tests use one.", "anchors": ["translator/po.go: ReadPo, ReadPot, readEntry", "translator/reader.go", "translator/util.go"]}
{"id": "C63", "title": "Saved files follow the .po format", "statement": "A saved .po (.pot) file consists of one block per catalog entry, each spelling that entry (without its translation in a template) as the .po format prescribes: comments, optional msgctxt, msgid, optional msgid_plural, msgstr or numbered msgstr[i], every string between quotes, possibly continued; no other control bytes than the newlines that end lines.", "quantifier": "all catalogs of expressible entries, all map iteration orders, any printability table", "why_tests_cant": "All catalogs; a round-trip test through the project's own reader would accept a private format.", "anchors": ["translator/po.go:SaveAsPo", "translator/pot.go:SaveAsPot", "translator/pot.go:writeString"]}
{"id": "C64", "title": "Strings are written as C strings", "statement": "The text between the quotes of a saved file is a C string literal (the syntax the .po format uses) for the string of the catalog.", "quantifier": "all strings", "why_tests_cant": "All strings over all characters.", "anchors": ["translator/pot.go:writeString"]}
{"id": "C65", "title": "Loading a .po file and saving it loses nothing", "statement": "For every .po file that is read successfully, saving the catalog and reading the result gives the same entries with their comments, the same answers and headers, and saving that catalog gives the same bytes again.", "quantifier": "all file contents, all map iteration orders", "why_tests_cant": "All files; needs an invariant of the reader over every sequence of lines.", "anchors": ["translator/po.go:ReadPo", "translator/po.go:SaveAsPo", "translator/po.go:readEntry"]}
{"id": "C66", "title": "Setters set what they name and nothing else", "statement": "SetDomain, SetLocale (system language for the empty name, the normalised name otherwise) and SetSourceCodeLocale (normalised) change exactly the setting they name, of exactly the handle they are called on; a new handle has the documented defaults; D, L and Global return a new handle with the settings of the original except for the one named.", "quantifier": "all reachable states, handles, names and normalisations", "why_tests_cant": "All states and pairs of handles; aliasing between handles shows up only in some programs.", "anchors": ["translations.go:SetDomain", "translations.go:SetLocale", "translations.go:SetSourceCodeLocale", "translations.go:NewTranslations", "translations.go:D", "translations.go:L", "init.go:Global"]}
{"id": "C67", "title": "Package-level functions act on the global handle", "statement": "Each package-level function does and returns what the method of the same name of the global handle does, and the global handle is the one given to SetGlobal last, whatever else the program called in between.", "quantifier": "all programs (sequences of calls), all arguments", "why_tests_cant": "All programs.", "anchors": ["gettext.go", "init.go"]}
{"id": "C68", "title": "Short forms", "statement": "N1(id, n) is N(id, id, n) and XN1(ctx, id, n) is XN(ctx, id, id, n) for every catalog, and the forms without a context are those with the empty context.", "quantifier": "all states, handles with file catalogs or none, all ids, numbers and arguments", "why_tests_cant": "All catalogs, numbers and plural rules.", "anchors": ["translations.go:N1", "translations.go:XN1", "gettext.go:N1", "translator/file.go:XN64", "f/format.go:DefaultPlural"]}
{"id": "C69", "title": "Domains are what was bound and not removed", "statement": "Domains lists every domain once that HasDomain and Get confirm; after any call a handle has exactly the domains it had before, plus the one a successful binding named, minus the ones RemoveDomain and ClearDomains of this handle name.", "quantifier": "all reachable states, all calls, all map orders", "why_tests_cant": "All programs.", "anchors": ["translations.go:Domains", "translations.go:HasDomain", "translations.go:Get", "translations.go:BindFS", "translations.go:RemoveDomain", "translations.go:ClearDomains"]}
{"id": "C70", "title": "Several goroutines may translate through one catalog", "statement": "If any number of goroutines call X, XN64, Lang and GetHeader of the same catalog, each any number of times and interleaved in any way, every call returns what it returns when nothing else runs, no goroutine waits for another one, all finish, and there is no data race.", "quantifier": "all catalogs, all lists of calls per goroutine, all interleavings of the accesses to the shared fields", "why_tests_cant": "Races show up only in some schedules; the number of schedules is exponential.", "anchors": ["translator/file.go:initHeader", "translator/file.go:initPlural", "translator/file.go:GetHeader", "translator/file.go:XN64"]}
{"id": "C71", "title": "Translating through a handle only reads", "statement": "In every state a program can reach, T, X, N, XN and their short forms on any handle leave all handles, domains and catalogs exactly as they are, and the catalog behind a handle can be used from any number of goroutines without a data race, each getting the answers of the handle.", "quantifier": "all programs whose catalogs come from ReadPo, ReadMo, new(File) and AddEntry, all handles, arguments and interleavings", "why_tests_cant": "All programs and all schedules.", "anchors": ["translations.go:X", "translations.go:XN64", "translaton.go:AddOrReplace", "translator/file.go:XN64", "translator/file.go:AddEntry"]}
{"id": "C72", "title": "The command line of xtemplate", "statement": "Each flag has the value given last on the command line in any of the accepted spellings, or its documented default; -v, -h and -help end with status 0, a missing -i or -k or a wrong command line with status 2, and neither reads or writes a file; otherwise the extraction runs with exactly these parameters, the exit status is 0 exactly if it succeeds and 2 otherwise, also after a crash; -v shows the version set at build time or else that of the build information; what is printed for the output \"-\" is the template file.", "quantifier": "all command lines, file systems, build informations", "why_tests_cant": "Every order, repetition and spelling of flags; every file system.", "anchors": ["cmd/xtemplate/main.go:main", "cmd/xtemplate/main.go:buildParam", "cmd/xtemplate/main.go:versionString", "cmd/xtemplate/internal/param.go:debugPrint"]}
{"id": "C73", "title": "Extraction is reproducible", "statement": "Running xtemplate twice with the same parameters on the same files at the same time ends in the same way and writes the same bytes.", "quantifier": "all parameters, file systems, template sources; all orders in which Go visits the templates of a file and the entries of a map", "why_tests_cant": "Map iteration order is random: a test sees some orders only.", "anchors": ["cmd/xtemplate/internal/run.go:resolveOneFile", "cmd/xtemplate/internal/param.go:Write", "translator/file.go:SortedEntry", "translator/entry.go:getSortKey"]}
{"id": "C74", "title": "A save that reports success is complete", "statement": "If saving a catalog as .po, .pot or .mo returns no error, the destination has received the complete file, and reading it gives the catalog; if the destination fails or takes less than it is given, an error is returned, saving never panics, and what the destination took is a beginning of the file. If xtemplate succeeds (status 0 of the command) the output is the complete template file and was closed without error; a failing run changes nothing but the output file.", "quantifier": "all catalogs, all destinations that keep the contract of io.Writer, all points at which they fail; all parameters, file systems and command lines", "why_tests_cant": "Every destination and every point of failure.", "anchors": ["translator/po.go:SaveAsPo", "translator/pot.go:SaveAsPot", "translator/mo.go:SaveAsMo", "cmd/xtemplate/internal/run.go:Run", "cmd/xtemplate/internal/param.go:Write", "cmd/xtemplate/internal/param.go:Close"]}
{"id": "C75", "title": "Language names have one form", "statement": "Every language name the package hands out (Locale, SourceCodeLocale, UsedLocale, Locales, MostMatchLocale, GetUserLang) has the form ll_CC and is its own normal form, whatever spelling the program, the catalogs or the system used; spellings of the same language and region are interchangeable wherever a language is chosen or looked up.", "quantifier": "all programs, all strings used as language names, all system languages, all tag libraries whose codes are ISO codes", "why_tests_cant": "Every program and every spelling.", "anchors": ["locale/detect.go:Normalize", "locale/detect.go:NormalizeTag", "locale/detect.go:GetDefault", "translations.go:SetLocale", "translations.go:SetSourceCodeLocale", "translations.go:Locales", "translaton.go:AddOrReplace", "translaton.go:Get", "http.go:GetUserLang"]}
{"id": "C76", "title": "From templates to translated pages", "statement": "If the templates are extracted with xtemplate, the template file is translated completely, saved as .po or .mo, put into a directory and loaded with BindFS, then a handle of that domain and language answers every call of a keyword in the templates with its translation, in the plural form the header's rule selects.", "quantifier": "all templates, parameters, file systems, catalogs, directories, programs, arguments and numbers", "why_tests_cant": "The whole chain over all inputs: a test covers single examples.", "anchors": ["cmd/xtemplate/internal/run.go:Run", "cmd/xtemplate/internal/param.go:Add", "translator/pot.go:ReadPot", "translator/po.go:SaveAsPo", "translator/mo.go:SaveAsMo", "translations.go:BindFS", "translations.go:X", "translations.go:XN64"]}
{"id": "C77", "title": "The error of a rejected .po file names the line", "statement": "If ReadPo rejects a content, its error shows the first line that makes it unreadable: the lines before it are accepted on their own, with this line the content is rejected with the same error whatever follows; the text shows the line and its number counted from 1, names the field, and errors.Is finds the cause (no string: strconv.ErrSyntax). The empty content has an error of its own.", "quantifier": "all file contents, all continuations of them", "why_tests_cant": "All contents; that the same error arises for every continuation is a statement about infinitely many files.", "anchors": ["translator/po.go:readPo", "translator/po.go:readEntry", "translator/reader.go:nextLine", "translator/reader.go:unGetLine", "errors/errors.go:Wrapf", "errors/errors.go:WithSecondaryError"]}
{"id": "C78", "title": "The error of a rejected .mo file tells the first fault", "statement": "ReadMo rejects a content exactly if something is wrong with it as an MO file, and its error tells the first thing that is, in the order magic number, header, version, id table, string table, strings: which value or which row, and whether nothing or too little is left there (io.EOF or io.ErrUnexpectedEOF as a cause).", "quantifier": "all contents", "why_tests_cant": "All contents, table positions and overlapping strings.", "anchors": ["translator/mo.go:ReadMo", "errors/errors.go:Wrapf", "errors/errors.go:WithSecondaryError"]}
{"id": "C79", "title": "Reading a .mo file needs memory in proportion to the file", "statement": "The buffers ReadMo asks for are together not larger than a fixed multiple of the content, whether the file is accepted or not.", "quantifier": "all contents", "why_tests_cant": "All contents, in particular hostile ones.", "anchors": ["translator/mo.go:ReadMo"]}
{"id": "C80", "title": "Goroutines with handles of their own do not disturb each other", "statement": "Goroutines that make handles (Global, WithContext, L, D, NewTranslations), load catalogs into, change and clear the handles they have or made, and ask (also for domains, languages, the best match and, with GetUserLang, the language of a request) and translate through these and through handles nobody changes, get in every interleaving the answers they get when nothing else runs; there is no data race, and handles, catalogs and translations that belong to none of them stay as they are; none ever waits for another, and every one finishes.", "quantifier": "all states a program can reach, all numbers of goroutines, all sequences of calls per goroutine (each handle changed by at most one of them), all interleavings of the single memory accesses", "why_tests_cant": "Races and lost updates show up in few schedules; the number of schedules is exponential in the number of accesses.", "anchors": ["translations.go", "init.go", "context.go:WithContext", "http.go:GetUserLang", "translaton.go:Get", "translator/file.go"]}
{"id": "C81", "title": "The global handle may be changed while others translate", "statement": "Loading a catalog into the global handle, or changing its domain or language, while other goroutines translate through it is free of data races, and each translation is one the handle gives before or after one of these calls.", "quantifier": "all states a program can reach, all interleavings", "why_tests_cant": "Schedules: as for C80; a test with the race detector sees some only.", "anchors": ["init.go", "gettext.go", "translations.go:BindFS", "translations.go:SetDomain", "translations.go:SetLocale", "translations.go:X"]}
{"id": "C82", "title": "xtemplate warns about every message it drops and about nothing else", "statement": "A successful extraction writes to standard error one warning for every message it drops because the same message was used before with (or without) a plural, in the order of the source; the warning names the message, its place and the places of the messages it conflicts with. When there are none, standard error is empty.", "quantifier": "all command lines without -d, all file systems, all keyword specifications, all templates (any trees), all translations of the messages that keep their verbs", "why_tests_cant": "The order of warnings depends on files, templates and calls of any number and nesting; tests look at one message.", "anchors": ["cmd/xtemplate/internal/run.go:filter", "cmd/xtemplate/internal/run.go:printErr", "cmd/xtemplate/internal/param.go:Add", "cmd/xtemplate/main.go:main"]}
{"id": "C83", "title": "xtemplate reports every file it cannot process and fails with the first", "statement": "If files cannot be read or are no templates, each of them is reported by name with the reason, in order, all other files are examined all the same, nothing is written, and the command ends with status 2 and the error of the first such file. Every run that does not succeed ends its standard error with an explanation.", "quantifier": "all command lines without -d, all file systems, all lists of files, all reasons", "why_tests_cant": "Any subset of any number of files may fail, mixed with warnings.", "anchors": ["cmd/xtemplate/internal/run.go:Run", "cmd/xtemplate/internal/run.go:resolveOneFile", "cmd/xtemplate/main.go:main"]}
{"id": "C84", "title": "Errors about the parameters quote them as given", "statement": "The error for a keyword specification that is none quotes it and says what is wrong with its first wrong keyword; an output file that cannot be created is quoted with the reason; a pattern that is none is an error too. No file is written in the first two cases.", "quantifier": "all command lines without -d, all specifications and file names", "why_tests_cant": "All texts, in particular those with characters that mean something in formats.", "anchors": ["cmd/xtemplate/internal/keyword.go:ParseKeywords", "cmd/xtemplate/internal/keyword.go:Writer", "cmd/xtemplate/internal/run.go:Run"]}
{"id": "C85", "title": "xtemplate speaks the language of its user", "statement": "Without LANG_PATH the messages of xtemplate are Chinese if the system language is zh_CN and English otherwise; with LANG_PATH they are those of the last catalog of the system language under that path, or English if there is none. In the languages shipped every extraction reports its warnings and errors in full.", "quantifier": "all values of LANG_PATH, all file trees, all system languages, all messages and arguments; all command lines and inputs", "why_tests_cant": "All file trees and locales; tests run in one locale.", "anchors": ["cmd/xtemplate/main.go:initTranslation", "cmd/xtemplate/main.go:main", "cmd/xtemplate/lang/zh_CN.po"]}
{"id": "C86", "title": "The shipped translation is complete", "statement": "Every message of xtemplate has a translation in the language pack which asks for the same values in the same order, and the pack has no other messages.", "quantifier": "all messages of the program", "why_tests_cant": "A missing translation or verb shows only when that very message is printed in that language.", "anchors": ["cmd/xtemplate/lang/zh_CN.po", "cmd/xtemplate/internal/keyword.go", "cmd/xtemplate/internal/run.go", "cmd/xtemplate/main.go"]}
{"id": "C87", "title": "A wrong command line is explained", "statement": "If the arguments contain something that is no flag of the program, the first such argument is named with what is wrong with it, the usage text follows, nothing is read or written and the status is 2; -h and -help print the usage text with status 0; if -i or -k is missing the usage text is followed by a line that says so.", "quantifier": "all lists of arguments, all program names, all languages whose texts keep the verb of the first line and fill one line per flag", "why_tests_cant": "All argument lists.", "anchors": ["cmd/xtemplate/main.go:buildParam"]}
{"id": "C88", "title": "The generated lexer splits every text as the grammar says", "statement": "The lexer generated into plurals/parser, that is the table it interprets, splits a plural expression into the longest tokens of the documented grammar (operators, parentheses, n, decimal numbers) skipping blanks and tabs, and reports an error exactly if at some place no token can be read; this for every text, also with characters that are not ASCII or not UTF-8.", "quantifier": "all texts", "why_tests_cant": "All texts; and nobody reads a table of 1177 numbers: a generated file that no longer fits its grammar would only show on the inputs that differ.", "anchors": ["plurals/parser/plural_lexer.go:serializedATN", "plurals/parser/plural_lexer.go:LiteralNames", "plurals/plural.g4", "plurals/exp.go:Eval"]}
{"id": "C89", "title": "The generated parser accepts exactly the documented expressions", "statement": "The table of the generated parser, with its precedences, describes exactly the expressions of the documented grammar with the precedences of C; together with the table of the lexer it takes as a whole exactly the texts that are well-formed plural expressions; and at each of its decisions the next token, with the precedence of the place, leaves at most one way on.", "quantifier": "all sequences of tokens, all texts, all precedences, all decisions of the table", "why_tests_cant": "All token sequences of any length and nesting.", "anchors": ["plurals/parser/plural_parser.go:serializedATN", "plurals/parser/plural_parser.go:exp", "plurals/parser/plural_parser.go:Primary", "plurals/plural.g4"]}
{"id": "C90", "title": "The generated parser builds the tree of the expression, and walking it gives its value", "statement": "The parser generated into plurals/parser, called on the tokens of the generated lexer, builds for every text that begins with a plural expression the tree of exactly that expression (every operand and operator in the order of the text, every operator as the label the evaluator asks for), reports an error for every other text and always ends; walking the tree leaves the value of the expression as the only value, or ends in a panic (answered with an error) exactly if an operator cannot be applied or a number is too large.", "quantifier": "all texts, all numbers n of 64 bits", "why_tests_cant": "Nested expressions of any depth and mixture of precedences; tests look at a few formulas.", "anchors": ["plurals/parser/plural_parser.go:Start_", "plurals/parser/plural_parser.go:exp", "plurals/parser/plural_parser.go:Primary", "plurals/exp.go:Eval", "plurals/exp.go:ExitExp", "plurals/exp.go:ExitPrimary", "plurals/exp.go:ExitStart"]}
{"id": "C91", "title": "A debugging context adds a trace and changes nothing else", "statement": "plurals.Eval with a context made by DebugCtx prints, in the order of the calculation, one line for every operand and operator with the values waiting at that point (and stops printing at the operator that cannot be applied); its answer is the one without the trace. With any other context nothing is printed. With a nil context every formula is answered with an error except the built-in ones, which are answered as always and never traced.", "quantifier": "all texts, all numbers n of 64 bits, all contexts", "why_tests_cant": "All expressions of any depth; the lines depend on all operands before.", "anchors": ["plurals/debug.go:DebugCtx", "plurals/exp.go:debug", "plurals/exp.go:Eval"]}
{"id": "C92", "title": "The entries of a saved catalog are in the documented order", "statement": "A saved .po, .pot or .mo file has the entries without an id first and then the others in the order of their source references (numbers in them compared by value up to ten digits), then their contexts and ids; entries that are alike in all of this may come in any order, and no other freedom exists.", "quantifier": "all catalogs, all iteration orders of the map, all three formats", "why_tests_cant": "A test sees the order of a few entries; that nothing else than the stated texts decides it, and that every order they leave open does occur, ranges over all catalogs and iteration orders.", "anchors": ["translator/entry.go:getSortKey", "translator/entry.go:getLineString", "translator/file.go:SortedEntry"]}
{"id": "C93", "title": "Debug mode changes nothing but what is printed", "statement": "With -d in front of its arguments xtemplate ends with the same exit status and leaves the same files as without; standard output is the debug log followed by what is printed without -d, and standard error has the same notices in the same order, each with the long text of its error. In the languages shipped this holds without further conditions.", "quantifier": "all command lines, all file systems, all keyword specifications, all templates (any trees), all orders of maps", "why_tests_cant": "A debug statement that changes a result shows only on the inputs that reach it; a test runs without -d.", "anchors": ["cmd/xtemplate/internal/param.go:debugPrint", "cmd/xtemplate/internal/run.go:Run", "cmd/xtemplate/internal/run.go:resolveOneFile", "cmd/xtemplate/main.go:main"]}
{"id": "C94", "title": "The debug log accounts for every use of a keyword", "statement": "The debug log names the parameters, the files and then, file by file and in the order of the source, every command of the templates that calls a keyword, with exactly one verdict: extracted, or the first reason why not; the uses with the verdict ok are exactly the messages extracted, and the last line of a successful run counts the different ones. Everything in it but the texts of nodes is determined by the input.", "quantifier": "all command lines with -d, all file systems, all keyword specifications, all templates (any trees)", "why_tests_cant": "Templates of any nesting; a use without a line would be missed only when someone looks for it.", "anchors": ["cmd/xtemplate/internal/param.go:debugPrint", "cmd/xtemplate/internal/run.go:Run", "cmd/xtemplate/internal/run.go:resolveOneFile", "cmd/xtemplate/internal/run.go:filter"]}
{"id": "C95", "title": "A catalog holds the entries it was given, not copies", "statement": "AddEntry keeps the entry itself: a catalog finds an entry under the name it had when it was added (the last added of a name counts) and answers and saves with what the entry contains at that moment, so that changing it changes the answers under exactly the names that list it, in every catalog that lists it, and nothing else; header fields once needed are not read again. Entries that are left alone once added give the catalog of their values, and catalogs that were read share no entries with others unless the program adds them.", "quantifier": "all programs of any length that make and change entries, make and read catalogs (.po, .pot, .mo), add entries and ask and save catalogs, with any sharing", "why_tests_cant": "Sharing of pointers between catalogs and later changes are histories of any length; a test adds a literal and never touches it again.", "anchors": ["translator/file.go:AddEntry", "translator/file.go:SortedEntry", "translator/file.go:X", "translator/file.go:XN64", "translator/entry.go:Entry"]}
{"id": "C96", "title": "Zero values read as empty and copied handles share their domains", "statement": "A zero Translations or Translation reads as one without domains or languages (source texts, source locale), and the handles made from it by D, L and so on are ordinary ones; a call on it panics exactly if it has loaded something to put there (BindFS of a directory with a catalog, AddOrReplace or a load of a catalog with a language), ClearDomains makes a zero Translations usable, and a recovered panic leaves every handle as it was; programs without zero values never panic. A Translations copied or assigned by value starts as the original and shares its domains with it, whichever of them is used to bind or remove, until one of them is cleared or assigned again; language, domain and source locale are its own.", "quantifier": "all programs of any length that make handles and translations in any way, zero values and copies by value included, and call the API; all file systems and catalogs", "why_tests_cant": "Which handles share a map is decided by the whole history of the program; a test looks at one sequence of calls.", "anchors": ["translations.go:Translations", "translations.go:clone", "translations.go:BindFS", "translations.go:ClearDomains", "translations.go:RemoveDomain", "translaton.go:Translation", "translaton.go:AddOrReplace", "translaton.go:LoadFS"]}
{"id": "C97", "title": "Goroutines may share the arguments of their calls", "statement": "Translation functions called with args... from several goroutines at the same time do not race and give the answers they give alone, as long as no goroutine changes an element that is an argument of another one; elements that nobody changes are as before.", "quantifier": "all goroutines, each with any number of calls and assignments; all slices of arguments, sharing arrays in any way; all interleavings", "why_tests_cant": "Whether two calls touch the same element depends on capacities and on timing; a test passes literals.", "anchors": ["f/format.go:Format", "f/format.go:DefaultPlural", "translations.go:Translations.X", "translations.go:Translations.XN64"]}
{"id": "C98", "title": "Nil handles and nil translations fail predictably", "statement": "A call panics because of a nil handle (a nil *Translations as a receiver, or as the global handle after SetGlobal(nil)) exactly if the handle it needs is nil and it does not return before it comes to it: RemoveDomain of the empty name, BindFS of a file system with nothing to load, GetUserLang of a request with the cookie, and the method MostMatchLocale, which asks the global handle only. A recovered panic leaves every handle as it was, and all other calls do what they do without nil handles; after SetGlobal of a handle everything works again. The loading methods of a nil *Translation panic exactly if they have a translator to add, and otherwise return what they return for an empty one; a nil Translator panics.", "quantifier": "all states a program can reach, all calls of the package with any receivers, all sequences of calls on a nil global handle, all contents, files and file systems loaded", "why_tests_cant": "All calls in all states; which calls return early depends on the contents of file systems.", "anchors": ["init.go:SetGlobal", "init.go", "gettext.go", "translations.go", "translaton.go:AddOrReplace", "translaton.go:LoadFS", "translaton.go:LoadFile", "translaton.go:LoadPo", "translaton.go:LoadMo", "context.go:WithContext", "http.go:GetUserLang"]}
{"id": "C99", "title": "Wrapping an error leaves the caller's arguments alone", "statement": "errors.Wrapf called with args... makes its error of the arguments as they are at the call and changes no element of any slice of the caller, so that any number of calls can use slices of one array.", "quantifier": "all errors, formats, memories, slices (with or without spare capacity) and sequences of calls", "why_tests_cant": "The effect depends on the spare capacity of the slice, which tests with listed arguments never have.", "anchors": ["errors/errors.go:Wrapf"]}
{"id": "C100", "title": "Loading a .mo file and saving it loses nothing", "statement": "Every .mo file that is read can be saved again. Saved as .mo file, every entry comes back if no id in the file begins with the separator of contexts, and (for any file) exactly if no entry without context has that separator in its ids; then saving once more gives the same bytes exactly if there is at most one header, and the answers are the same exactly if the headers that count are those of the header entry. Saved as .po file, every entry with a translation comes back, whatever bytes it has, with the same answers under the same condition on the headers.", "quantifier": "all file contents, all map iteration orders, catalogs below 4 GB", "why_tests_cant": "All files, also those of other tools, with strings in any order and repeated ids.", "anchors": ["translator/mo.go:ReadMo", "translator/mo.go:SaveAsMo", "translator/po.go:SaveAsPo"]}
{"id": "C101", "title": "A catalog copied by value shares its entries from the first one on", "statement": "A File copied or assigned by value starts as the original and cannot be told from it; they share their entries exactly if one had been added before the copy, for as long as neither is assigned again: an entry added to one is then found through the other. Header fields and the plural rule are kept by each from the first call that needs them, so that catalogs with the same entries may differ in them. A call leaves every catalog alone that it is not made on and that shares no entries with the one it is made on. What a catalog answers and saves depends on its entries and its header fields only, and asking changes neither. A call panics because of a nil pointer exactly if it gets a nil catalog or a nil entry, and a recovered panic changes no catalog.", "quantifier": "all programs of any length that make, read (.po, .pot, .mo), copy, assign, fill, ask and save catalogs, with nil catalogs and entries", "why_tests_cant": "Which catalogs share a map depends on the order of copies and first additions in the whole program.", "anchors": ["translator/file.go:File", "translator/file.go:AddEntry", "translator/file.go:GetHeader", "translator/file.go:initHeader", "translator/file.go:initPlural", "translator/file.go:XN64"]}
{"id": "C102", "title": "Converting between .po and .mo any number of times loses nothing more", "statement": "A catalog that both formats can express and that has a translation can be saved as .po or .mo and read again any number of times, in any order of the formats, and every conversion succeeds. What is left are the entries it had: without the untranslated ones if there was a .po file among them, without comments if there was a .mo file, and unchanged otherwise. The header fields stay the same exactly if the catalog answers from its header entry; then Lang, X and GetHeader give the same answers, and so does XN64 except about untranslated entries after a .po file. Once there was a .mo file, all further files of a format are the same byte for byte.", "quantifier": "all catalogs of all programs (read, filled, copied), all sequences of conversions, all orders of maps; .mo files below 4 GB", "why_tests_cant": "Chains of any length; what a later conversion loses depends on all entries.", "anchors": ["translator/po.go:SaveAsPo", "translator/po.go:ReadPo", "translator/mo.go:SaveAsMo", "translator/mo.go:ReadMo", "translator/file.go:SortedEntry"]}
{"id": "C103", "title": "The plural rules of the GNU manual select the form speakers use", "statement": "For every language family of the gettext manual (and Irish with five forms, Welsh, Icelandic, Macedonian) the plural rule, written with any blanks between its tokens and any superfluous parentheses, gives each number the form that its last digits call for in that language, all negative numbers one and the same form, and every form is used; so a catalog with that rule and as many translations of a message as announced answers every int64 n with the translation in that form.", "quantifier": "all sixteen rules, all their layouts and parenthesizations, all int64 n, all catalogs, keys and arguments", "why_tests_cant": "The forms are conditions on all numbers; a test tries a few, and rarely the teens above a hundred or negative numbers.", "anchors": ["plurals/common.go", "plurals/exp.go:Eval", "translator/file.go:XN64", "translator/plural.go"]}
{"id": "C104", "title": "A page is answered in the language of its request", "statement": "A request handler that takes the language from GetUserLang, puts it into the context with SetCtxLocale and translates through WithContext answers in that language: UsedLocale is that name and the texts come from the catalog of the language in the domain of the context, or it is the source language and the texts are those of the source code. A cookie decides over the header, the last cookie name given counts, and a cookie for a language without a catalog gives the source texts. Nothing another handle shows changes.", "quantifier": "all reachable states, requests (cookies, Accept-Language headers), contexts, matchers, tag libraries, system languages, translators and messages", "why_tests_cant": "Tests show one request against one set of catalogs; the claim joins negotiation, contexts, name normalisation and lookup for every state and request.", "anchors": ["http.go:GetUserLang", "http.go:WithCookieName", "context.go:SetCtxLocale", "context.go:WithContext", "translations.go:Translations.Locales", "translations.go:Translations.UsedLocale", "locale/detect.go:Normalize"]}
{"id": "C105", "title": "Which calls on one handle may run at the same time", "statement": "A handle has four parts: its language, its current domain, the loaded domains and the language of the source code. Goroutines may use one handle at the same time exactly when no call of one of them changes a part that a call of another changes or looks at: then no two accesses ever race, and every goroutine gets the answers it gets when it runs alone; and when all have finished, later calls get the answers they get after the goroutines ran one after the other, so no change is lost. SetLocale changes the language, SetDomain the current domain, SetSourceCodeLocale the source language, BindFS the loaded domains if a catalog could be read, RemoveDomain of a non-empty name and ClearDomains the loaded domains and the current one. Translating looks at everything but the source language, Locales and GetUserLang at everything but the language, copying (Global, D, L, WithContext), UsedLocale and MostMatchLocale at everything, the getters at what they give. For any other pair of calls there is a state and an order in which they race.", "quantifier": "all reachable states, handles, numbers of goroutines, lists of calls and interleavings of their accesses", "why_tests_cant": "A race detector sees the schedules of one run; the claim covers every schedule of every set of calls, and says for every pair that is not allowed that a bad schedule exists.", "anchors": ["translations.go:Translations", "init.go:Global", "context.go:WithContext", "http.go:GetUserLang", "translator/file.go:File.X", "translator/file.go:File.XN64"]}
{"id": "C106", "title": "Copies of a translation share its languages", "statement": "A Translation copied or assigned by value (c := *t, *t = *src) shares its languages with what it was copied from, until it is assigned again: a translator or catalog added through any of them is the one all of them give, and handles bound to any of them answer from it, whatever the order of copies, assignments and calls. A translation that does not share the languages is changed neither by adding to the others nor by copying or assigning others, and adding one language changes no other. After *t = *src every handle bound to t answers from the languages of src and every other handle as before. Copies of a zero Translation are zero values: they have no language, and adding one with a language panics and changes nothing a handle shows. A copy is not an independent translation.", "quantifier": "all programs: any sequence of calls on handles and translations, zero values, copies and assignments, with any file systems, catalogs, translators and languages", "why_tests_cant": "Sharing depends on the whole history of copies and assignments; a test fixes one history, and aliasing bugs show only after further copies.", "anchors": ["translaton.go:Translation", "translaton.go:NewTranslation", "translaton.go:Translation.AddOrReplace", "translaton.go:Translation.Get", "translaton.go:Translation.LoadFS", "translaton.go:Translation.LoadPo", "translaton.go:Translation.LoadMo"]}
{"id": "C107", "title": "Contexts of any kind and missing requests", "statement": "WithContext works with every context, whoever made it: it panics exactly if asking the context for the language or for the domain panics (as for a nil context or a struct that embeds one), and then no handle has changed; otherwise the handle is the global one with the language and the domain the context names, and anything but a string names nothing. SetCtxLocale and SetCtxDomain panic for a nil context only; otherwise the key they set is answered with what was set and every other key as before. For the contexts of the standard library this is C45. GetUserLang panics exactly for a nil request or a nil option, and is C47 otherwise. A context of another package that has a string for every key is believed.", "quantifier": "all contexts: nil, any answers of a foreign context (panics included), any number of settings and wrappers on top; all reachable states; all requests, options and matchers", "why_tests_cant": "A context is an interface anyone can implement; tests use the few contexts of the standard library.", "anchors": ["context.go:SetCtxLocale", "context.go:SetCtxDomain", "context.go:GetCtxLocale", "context.go:GetCtxDomain", "context.go:WithContext", "http.go:GetUserLang", "http.go:WithCookieName"]}
{"id": "C108", "title": "A program that follows MostMatchLocale speaks the language it names", "statement": "After SetLocale(MostMatchLocale()) the program speaks the language MostMatchLocale named, which is one of Locales(): Locale and UsedLocale are that name, and the texts come from its catalog in the current domain, or it is the language of the source code and the texts are those of the source code. Locales stay as they were and other handles see nothing of it. If the matcher gives a supported language to whoever wants just that one, doing it again names the same language and changes nothing. The same holds for the methods of every handle.", "quantifier": "all reachable states, system languages, tag libraries, matchers, file systems, translators and messages", "why_tests_cant": "Tests try one set of catalogs on the language of the machine they run on; the claim joins negotiation, name normalisation and lookup for every state and system.", "anchors": ["init.go:MostMatchLocale", "init.go:SetLocale", "translations.go:Translations.MostMatchLocale", "translations.go:Translations.SetLocale", "translations.go:Translations.Locales", "translations.go:Translations.UsedLocale", "matcher.go:Match"]}
{"id": "C109", "title": "What a handle answers follows from the calls the program has made", "statement": "A program that makes any calls of the package (new handles, Global, SetGlobal, D, L, WithContext, SetDomain, SetLocale, SetSourceCodeLocale, Load, Bind and BindFS, RemoveDomain, ClearDomains and the translating ones, in any number and order, but nothing into a Translation or File directly) has the handles its calls made. Each has the language, domain and source language last set on it or on the handle it was made from before it was made; its domains are those bound since and not removed or cleared. It answers from the last .po file, else the last .mo file, of the last binding that loaded a file of its domain and that speaks its language, UsedLocale being that language, else with the source text, UsedLocale being the source language. So two handles with the same record answer every message alike, in whatever programs.", "quantifier": "all programs: every list of calls, with any file systems, contexts, system languages, formatting functions, name normalisations, messages and numbers", "why_tests_cant": "The state is a heap of shared maps, translations and lazily completed catalogs; a test fixes one history of calls, the claim is about all of them.", "anchors": ["init.go:Global", "init.go:SetGlobal", "translations.go:NewTranslations", "translations.go:Translations.BindFS", "translations.go:Translations.SetDomain", "translations.go:Translations.SetLocale", "translations.go:Translations.SetSourceCodeLocale", "translations.go:Translations.RemoveDomain", "translations.go:Translations.ClearDomains", "translations.go:Translations.D", "translations.go:Translations.L", "translations.go:Translations.UsedLocale", "context.go:WithContext", "translaton.go:Translation.LoadFS"]}
{"id": "C110", "title": "What is read of a .po file that was not written to its end", "statement": "If a saved .po file is cut off anywhere but at its very beginning, reading it is an error, except when the cut is between two lines, at the end of a line or inside a comment; then it is never an error. What is then read are the translated messages that were wholly written before the cut, unchanged, and at most the one at the cut with its translation shortened: the same message and comments, a beginning of the translation, or the first plural forms, all whole but the last. Nothing else is read. For files from elsewhere: if the whole file and a beginning of it are both accepted, the definitions of the beginning are those of the whole file up to some place and one more that is a shortened one or has no translation. (So a missing end is not always noticed.)", "quantifier": "all catalogs whose entries a .po file can express and all orders of equal keys, all places of the cut; all byte strings for files from elsewhere", "why_tests_cant": "A crash or a full disk can stop the writing at any byte of any catalog; a test cuts one file at a few places.", "anchors": ["translator/po.go:ReadPo", "translator/po.go:readEntry", "translator/po.go:File.SaveAsPo", "translator/reader.go:reader", "translator/util.go:removePrefixAndUnquote"]}
