{"id": "C01", "title": "Headless output is a decodable frame stream when the process succeeds", "statement": "Whenever a headless run exits with status 0, the bytes on stdout split in exactly one way into length-prefixed frames; the decoded frames are exactly the diagnostics taken off the internal queue, in the order they were taken, each with message type 'diagnostic', followed by one timing frame if and only if timings were requested. No frame is cut, merged or reordered by the output buffering.", "quantifier": "every finite sequence of diagnostics of any sizes below 4 GiB, every buffer fill level, every scheduling of the linting workers and the writer", "why_tests_cant": "the split of writes over the 400 KiB buffer depends on the sizes and order of all diagnostics; tests only exercise a few short streams", "anchors": ["cmd/tsgolint/headless.go: writeMessage, runHeadless (writer goroutine, lines 329-402, 452-472)"]}
{"id": "C02", "title": "Error frame of a failed run does not corrupt the stream", "statement": "Whenever a headless run that already queued diagnostics ends with status 1 because linting returned an error, stdout is still a sequence of complete frames, ending with the error frame.", "quantifier": "every sequence of queued diagnostics and every interleaving of the writer with the main goroutine up to process exit", "why_tests_cant": "the failing interleavings need the writer's flush to fall between two writes of the main goroutine, or process exit to win over the flush", "anchors": ["cmd/tsgolint/headless.go: runHeadless (lines 452-457), writeErrorMessage, writeMessage"]}
{"id": "C03", "title": "No diagnostic is lost or duplicated between the linter and stdout on success", "statement": "On exit status 0, the multiset of diagnostics reported by rules and by the type checker equals the multiset of diagnostic frames on stdout, provided every diagnostic can be serialised; a diagnostic that cannot be serialised is dropped without any other effect on the stream.", "quantifier": "every set of workers, every per-worker report sequence, every schedule, every queue fill level", "why_tests_cant": "loss could only show up in particular interleavings of bounded-queue sends, receives, close and wait", "anchors": ["cmd/tsgolint/headless.go: runHeadless (diagnosticsChan, wg), writeMessage", "internal/linter/linter.go: RunLinterOnProgram"]}
{"id": "C04", "title": "The bounded diagnostic queue cannot deadlock the run", "statement": "From every reachable state of the producer/queue/writer system that is not finished, some goroutine can take a step, and every schedule reaches the finished state in a bounded number of steps.", "quantifier": "all queue capacities >= 1, all numbers of workers, all report sequences, all schedules", "why_tests_cant": "deadlock freedom is a statement about all schedules", "anchors": ["cmd/tsgolint/headless.go: runHeadless (lines 329-402, 438-459)"]}
{"id": "C05", "title": "Every file is linted exactly once", "statement": "For a list of files handed to the lint engine, at the end of the run each occurrence in the list has been linted exactly once, whatever the number of workers and type checkers (both at least 1) and whatever the schedule.", "quantifier": "all file lists, all worker counts >= 1, all checker counts >= 1, all interleavings of queue operations", "why_tests_cant": "work stealing from two shared queues is schedule dependent", "anchors": ["internal/linter/linter.go: RunLinterOnProgram, makeSourceFileQueue, makeCheckerWorkloadQueue"]}
{"id": "C06", "title": "A type checker is never used by two workers at once", "statement": "In every reachable state each type checker instance is held by at most one worker; a worker keeps the same checker for the whole of a file.", "quantifier": "all reachable states under all schedules", "why_tests_cant": "an overlap would be a data race that tests only catch by luck", "anchors": ["internal/linter/linter.go: RunLinterOnProgram, makeCheckerWorkloadQueue"]}
{"id": "C07", "title": "Set of reported diagnostics does not depend on scheduling", "statement": "If the answers of the type checkers do not depend on which checker is asked, then any two complete runs over the same files and configuration report the same multiset of diagnostics, whatever the worker counts, checker counts and schedules.", "quantifier": "all pairs of complete executions", "why_tests_cant": "equality over all pairs of schedules", "anchors": ["internal/linter/linter.go: RunLinterOnProgram"]}
{"id": "C08", "title": "Lint engine always terminates", "statement": "Every schedule of the worker pool is finite: each step strictly decreases a natural-number measure, and a state in which no worker can move is one where all workers have returned and both queues are empty.", "quantifier": "all schedules, all worker/checker counts >= 1", "why_tests_cant": "termination over all schedules", "anchors": ["internal/linter/linter.go: RunLinterOnProgram"]}
{"id": "C09", "title": "Rules do not interfere and listener registrations do not leak between files", "statement": "The diagnostics a configured rule reports for a file are the same as when that rule runs alone on that file, whichever other rules are configured, whichever files the same worker linted before, and whatever order the host language iterates a rule's listener table.", "quantifier": "all rule sets (rules as arbitrary state machines), all file sequences per worker, all map iteration orders", "why_tests_cant": "leaks appear only for particular sequences of files with different configurations on one worker", "anchors": ["internal/linter/linter.go: RunLinterOnProgram (lines 498-539), ruleContextBuilder"]}
{"id": "C10", "title": "Diagnostics carry the right rule name and file", "statement": "Each reported diagnostic carries the name of the configured rule whose code reported it and the file being linted, even though one mutable reporting context is shared by all rules and files of a worker.", "quantifier": "all rule sets, all listener invocation orders, all file sequences", "why_tests_cant": "the shared mutable context makes attribution depend on the whole history of the worker", "anchors": ["internal/linter/linter.go: ruleContextBuilder.emitDiagnostic, RunLinterOnProgram"]}
{"id": "C11", "title": "Per-node dispatch follows configuration order", "statement": "At every traversal event the listeners registered for it run in the order in which the rules are configured, independent of listener-table iteration order and of what was registered for earlier files.", "quantifier": "all rule lists, all iteration orders, all prior registries", "why_tests_cant": "depends on map iteration order, which the runtime randomises", "anchors": ["internal/linter/linter.go: RunLinterOnProgram (lines 513-532)"]}
{"id": "C12", "title": "Turning timing on does not change diagnostics", "statement": "The timed and untimed code paths report the same diagnostics in the same per-worker order, and the recorded number of calls for a rule equals the number of files it ran on plus the number of its listener invocations.", "quantifier": "all rule sets, all file sequences, all clocks", "why_tests_cant": "two duplicated code paths must agree on every input", "anchors": ["internal/linter/linter.go: RunLinterOnProgram (lines 491-543 and 545-614)"]}
{"id": "C13", "title": "Timing totals are schedule independent and reported in a deterministic order", "statement": "For any clock readings, the timing report contains each rule that ran exactly once, with the sum of its durations and calls over all workers; the list is the unique ordering by decreasing duration then increasing name, whatever the merge order and map iteration order.", "quantifier": "all per-worker timing tables, all merge orders, all iteration orders, all (unstable) sorts", "why_tests_cant": "concurrent merge order and map iteration order are nondeterministic", "anchors": ["internal/linter/timing.go: RuleTimingStore.merge, RuleTimingStore.Collect, RuleTimingStat.add"]}
{"id": "C14", "title": "Traversal events are well bracketed and visit no node twice", "statement": "For every syntax tree, the traversal fires for each visited node one enter event and later one matching exit event, properly nested along the tree, and fires the enter event of no node twice.", "quantifier": "all finite syntax trees", "why_tests_cant": "quantifies over all trees, including pattern/expression mixes tests never write", "anchors": ["internal/linter/linter.go: visitLintNodes"]}
{"id": "C15", "title": "Traversal reaches every node of the file", "statement": "Every node of the tree below the source file receives its enter and exit events.", "quantifier": "all finite syntax trees", "why_tests_cant": "needs all combinations of destructuring assignment, defaults, computed keys and spreads", "anchors": ["internal/linter/linter.go: visitLintNodes"]}
{"id": "C16", "title": "Pattern/expression classification of array and object literals", "statement": "An array or object literal is announced as an assignment pattern exactly when it is (part of) an assignment target per the list in the code: left of '=', nested through elements, properties, spreads, property values; and as a plain literal otherwise.", "quantifier": "all finite syntax trees", "why_tests_cant": "nesting of defaults and loops initialisers inside patterns", "anchors": ["internal/linter/linter.go: visitLintNodes (comment lines 396-408)"]}
{"id": "C17", "title": "Listener event codes never collide", "statement": "For node kinds in the range of the parser, the event codes for enter, exit, pattern enter/exit and non-pattern enter/exit are pairwise different for different (event, kind) pairs and do not overflow their 16-bit representation.", "quantifier": "all pairs of (event, kind) with kind below 1000", "why_tests_cant": "arithmetic fact over all kinds", "anchors": ["internal/rule/rule.go: ListenerOnExit, ListenerOnAllowPattern, ListenerOnNotAllowPattern"]}
{"id": "C18", "title": "Applying fixes changes only the text of accepted edits", "statement": "The fixed text is the original with exactly the edits of the accepted diagnostics performed: the original is recovered by undoing them, text outside accepted edit ranges is unchanged and in order, and accepted edits do not overlap.", "quantifier": "all source texts, all diagnostic lists whose edits are in range and non-overlapping within one diagnostic, all (unstable) sorts", "why_tests_cant": "all overlaps and adjacency of edits across diagnostics", "anchors": ["internal/linter/source_code_fixer.go: ApplyRuleFixes"]}
{"id": "C19", "title": "Applying fixes accounts for every diagnostic", "statement": "Each input diagnostic is either fully applied or returned as unapplied, never partly and never both; a diagnostic is left out only if it has no fix or its first edit starts before the end of an already applied edit; the 'fixed' flag is true exactly when some edit was applied, and an applied pass strictly reduces the number of pending fixable diagnostics.", "quantifier": "all texts and diagnostic lists, all (unstable) sorts", "why_tests_cant": "greedy selection over arbitrary overlap structures", "anchors": ["internal/linter/source_code_fixer.go: ApplyRuleFixes"]}
{"id": "C20", "title": "Fix application is deterministic and total", "statement": "Although the sort used is not stable, the fixed text is determined by the input when no two edits of a diagnostic, and no two diagnostics, tie on their (start, end) keys; and no input with in-range edits makes it crash.", "quantifier": "all inputs, all tie-breaking behaviours of the sort", "why_tests_cant": "unstable sorting makes results vary only for larger inputs with ties", "anchors": ["internal/linter/source_code_fixer.go: ApplyRuleFixes"]}
{"id": "C21", "title": "Fix and suggestion generators run only when requested", "statement": "Without the fix (suggestion) option no fix (suggestion) generator is invoked and no diagnostic carries edits (suggestions); with it, each diagnostic carries exactly what its generator returned. Diagnostics are otherwise identical.", "quantifier": "all options, all report calls", "why_tests_cant": "relates two runs for all rules", "anchors": ["internal/linter/linter.go: ruleContextBuilder methods", "cmd/tsgolint/headless.go: runHeadless (lines 365-377)", "internal/rule/rule.go: ReportNodeWithFixesOrSuggestions"]}
{"id": "C22", "title": "Parallel tsconfig lookup equals sequential lookup", "statement": "For any list of files and any number of lookup workers, the result maps exactly the given files, each to the config that a single sequential lookup finds, under every schedule; it terminates without deadlock.", "quantifier": "all file lists (duplicates allowed), all schedules", "why_tests_cant": "goroutine interleavings over channels", "anchors": ["internal/utils/find_tsconfig.go: FindTsConfigParallel, work"]}
{"id": "C23", "title": "The config chosen for a file lists that file", "statement": "If lookup returns a config for a file, then that config was parsed successfully and its file list contains the file; ancestors are tried nearest first, and within one ancestor the config itself, then references level by level.", "quantifier": "all file systems, all reference graphs (also cyclic), all file names", "why_tests_cant": "quantifies over all reference graphs", "anchors": ["internal/utils/find_tsconfig.go: FindTsconfigForFile, findConfigWithReferences"]}
{"id": "C24", "title": "disableSolutionSearching / reference options control the lookup", "statement": "A config that disables solution searching stops the search in ancestor directories when the file is not found in it.", "quantifier": "all config graphs with such a config", "why_tests_cant": "needs the absence of an effect on all graphs", "anchors": ["internal/utils/find_tsconfig.go: findConfigWithReferences"]}
{"id": "C25", "title": "Breadth-first search is correct on every graph", "statement": "The search terminates on every finite graph, visits each node at most once, in non-decreasing distance order with first-parent paths, and reports a stop node at minimal distance if one is reachable, else the fallback/no result.", "quantifier": "all finite directed graphs, including cyclic, all visit callbacks", "why_tests_cant": "graph shapes are unbounded", "anchors": ["internal/utils/bfs.go: BreadthFirstSearch"]}
{"id": "C26", "title": "Every requested file is assigned to one program and linted once, or the run says why not", "statement": "For every headless request, each distinct normalised path is assigned to exactly one program or to the no-config group; at the end of a run with status 0, each was linted exactly once, or belongs to a program that could not be built and produced at least one diagnostic. If a program does not contain an assigned file the run aborts rather than skipping it.", "quantifier": "all requests (duplicate paths allowed), all config assignments, all map iteration orders", "why_tests_cant": "set bookkeeping over arbitrary path sets and iteration orders", "anchors": ["internal/linter/linter.go: RunLinter", "cmd/tsgolint/headless.go: runHeadless (lines 275-293)"]}
{"id": "C27", "title": "Each file is linted with the rules last configured for it", "statement": "A linted file runs exactly the rules of the last config group of the request that names it, in that order, with that group's options; an unknown rule name aborts the run.", "quantifier": "all requests, including paths repeated in several groups and both slash styles", "why_tests_cant": "last-wins over arbitrary duplicate structures; path normalisation must agree on both sides", "anchors": ["cmd/tsgolint/headless.go: runHeadless (lines 275-284, 419-437)"]}
{"id": "C28", "title": "Request format versions are equivalent", "statement": "A version-1 request and its version-2 translation produce the same assignment of rules to files; unknown versions and empty version-1 requests are rejected; no input crashes the decoder.", "quantifier": "all request payloads", "why_tests_cant": "all payload shapes", "anchors": ["cmd/tsgolint/payload.go: deserializePayload, getPayloadVersion"]}
{"id": "C29", "title": "In-memory source overrides win over disk for reads and nothing else", "statement": "With overrides given, reading or testing an overridden path behaves as if the file system contained the override, every other path behaves as the underlying file system, and no operation of the overlay writes an override to disk.", "quantifier": "all override maps, all paths, all operation sequences", "why_tests_cant": "all histories of file operations", "anchors": ["cmd/tsgolint/overlayfs.go: overlayFS", "internal/utils/overlay_vfs.go: OverlayVFS"]}
{"id": "C30", "title": "Quoted string literals evaluate back to the text", "statement": "For every text, the single-quoted literal produced for suggestions is a syntactically complete JavaScript string literal (no raw quote, backslash or line terminator inside) whose value is the text.", "quantifier": "all strings of code points", "why_tests_cant": "all strings, including lone control characters and separators", "anchors": ["internal/utils/string_literal.go: QuoteSingleStringLiteral"]}
{"id": "C31", "title": "Specifier options are decoded as documented and survive a JSON round trip", "statement": "A document decodes to a specifier exactly when it is a string or null (a bare name) or an object with a known source, a string or a list of strings as names and strings or null for path and package; encoding fails only for a bare specifier without exactly one name or an unknown source; decoding the encoding gives the same specifier, in any member order, when bare specifiers have no path and package; the other reader (ConvertTypeOrValueSpecifier) agrees wherever both accept.", "quantifier": "all JSON documents without duplicate members, all specifiers, all member orders", "why_tests_cant": "tests decode a handful of documents and never encode", "anchors": ["internal/utils/type_matches_specifier.go: TypeOrValueSpecifier.UnmarshalJSON, MarshalJSON, ConvertTypeOrValueSpecifier"]}
{"id": "C32", "title": "Missing or null options mean the documented default", "statement": "For each of the thirty rules with an options object: whatever follows the schema is accepted; a property that is absent or null takes the documented default and one that is given takes the given value, independently of the others; no options at all, null and the empty object are the same; unknown members change nothing. Options given as a Go struct come back as they are exactly when the values that are not written are the ones the rule has without them. What the untyped options (void-return checks, loop conditions, ignored primitives) and the modes of return-await mean is stated for every document.", "quantifier": "all JSON documents, all option structs of the field kinds in use, all values of a struct", "why_tests_cant": "all subsets of present, absent and null fields, values of the wrong type", "anchors": ["internal/rules/*/options.go: UnmarshalJSON", "internal/rules/*/schema.json", "internal/utils/utils.go: UnmarshalOptions, BoolOr", "internal/rules/no_misused_promises/no_misused_promises.go: parseChecksVoidReturn", "internal/rules/return_await/return_await.go: whetherToAwait"]}
{"id": "C33", "title": "Unsafe-any assignment check ends on cyclic types and finds exactly the any that flows", "statement": "On every finite (also cyclic) type graph in which references to one generic type have equally many arguments, the check ends without a panic; it answers unsafe, with the outermost pair, exactly when some pair of corresponding type arguments is any against neither any nor unknown.", "quantifier": "all finite type graphs with cycles through type arguments", "why_tests_cant": "recursion over cyclic graphs", "anchors": ["internal/utils/ts_eslint.go: isUnsafeAssignmentWorker, IsUnsafeAssignment"]}
{"id": "C34", "title": "Snapshot keys are totally ordered and snapshot files round trip", "statement": "The comparison of snapshot keys is a total order that compares runs of digits as numbers and says equal for equal keys only; for contents without a line ending in three dashes, a written file is read back as it was, the text written does not depend on map order, a run that updates is followed by runs that pass, and entries of other tests are kept.", "quantifier": "all key strings, all snapshot maps whose contents do not end in a newline and have no line ending in three dashes, all orders of tests", "why_tests_cant": "transitivity/antisymmetry over all strings with digit runs", "anchors": ["internal/rule_tester/snapshot.go: compareSnapshotKeys, compareDigitRuns, parseSnapshotFile"]}
{"id": "C35", "title": "Type-check diagnostics are reported only for requested files and only when enabled", "statement": "TypeScript errors are reported exactly when their category is enabled and their file is one of the linted files, with id TS<code>, each file's semantic errors sorted and without duplicates.", "quantifier": "all diagnostic lists and flag combinations", "why_tests_cant": "filtering over arbitrary lists", "anchors": ["internal/linter/linter.go: reportTypeScriptDiagnostics"]}
{"id": "C36", "title": "startsWith/endsWith fix preserves the meaning of the regular expression", "statement": "When a regular expression test is rewritten to startsWith/endsWith, the new expression has the same value on every string.", "quantifier": "all regular expressions accepted by the rule, all subject strings", "why_tests_cant": "all patterns and all subjects", "anchors": ["internal/rules/prefer_string_starts_ends_with/prefer_string_starts_ends_with.go: parseRegExpText, parseRegExp"]}
{"id": "C37", "title": "includes fix preserves the meaning of the regular expression and of indexOf comparisons", "statement": "When /p/.test(s) is rewritten to s.includes('p'), both have the same value on every string; when indexOf is compared with -1 or 0 and rewritten, the value is the same for every position.", "quantifier": "all accepted patterns and subjects; all comparison forms and index results", "why_tests_cant": "all patterns and all subjects", "anchors": ["internal/rules/prefer_includes/prefer_includes.go: isSimpleLiteralPattern, escapeString, isPositiveCheck, isNegativeCheck"]}
{"id": "C38", "title": "Template-literal inlining preserves the string value", "statement": "Inlining a literal into a template keeps the template's value and never opens or closes an interpolation or the template.", "quantifier": "all literal texts and surrounding template chunks", "why_tests_cant": "escape parity and $-{ adjacency over all strings", "anchors": ["internal/rules/no_unnecessary_template_expression/no_unnecessary_template_expression.go: escapeTemplateRawText, endsWithUnescapedDollarSign, buildLiteralReplacementText"]}
{"id": "C39", "title": "strict-boolean-expressions verdict depends only on the set of union parts", "statement": "The verdict for a condition does not depend on the order in which the type checker lists union members, allowing more can only remove reports of the corresponding kind, and each operand of a logical condition is checked at most once.", "quantifier": "all union part lists and permutations, all option sets, all expression trees", "why_tests_cant": "union member order is a checker artefact that tests cannot vary", "anchors": ["internal/rules/strict_boolean_expressions/strict_boolean_expressions.go: analyzeTypeParts, analyzeTypePart, checkCondition, traverseNode"]}
{"id": "C40", "title": "switch-exhaustiveness-check reports exactly the missing members, and its suggestion fixes it", "statement": "A switch is reported as non exhaustive exactly when some literal member of the discriminant type is not covered by a case and no accepted default exists; after adding the suggested cases it is not reported.", "quantifier": "all unions, all case lists, all option sets", "why_tests_cant": "all unions and case subsets", "anchors": ["internal/rules/switch_exhaustiveness_check/switch_exhaustiveness_check.go: getSwitchMetadata, checkSwitchExhaustive, checkSwitchUnnecessaryDefaultCase, checkSwitchNoUnionDefaultCase"]}
{"id": "C41", "title": "A program is built or the reason is reported", "statement": "For a tsconfig, the result is a program, an error, or at least one diagnostic that names the config and carries the compiler's message; a config file that cannot be parsed is always reported, errors about options only when program diagnostics are not suppressed; removed options get the link to the migration help.", "quantifier": "all configs, parse results, program diagnostics and both settings of the suppression switch", "why_tests_cant": "the cases are combinations of results of three external calls and a switch", "anchors": ["internal/utils/create_program.go: CreateProgram, enhanceHelpDiagnosticMessage"]}
{"id": "C42", "title": "Following variable initializers terminates", "statement": "The functions of prefer-string-starts-ends-with that evaluate an expression through the declarations of variables (parseRegExp, staticString, getNullishKind) come to an end on every program.", "quantifier": "all programs, that is all maps from variables to initializers, also cyclic ones", "why_tests_cant": "unbounded recursion needs cyclic declarations; a test with one crashes the test process instead of failing", "anchors": ["internal/rules/prefer_string_starts_ends_with/prefer_string_starts_ends_with.go: parseRegExp, staticString, getNullishKind"]}
{"id": "C43", "title": "An accepted condition is falsy for one reason only", "statement": "With the options for any and for nullable primitives off, a condition that strict-boolean-expressions accepts has falsy values of one kind only (missing, false, empty string, zero), and string or number emptiness is tested only where the option allows it.", "quantifier": "all union types over the primitive, literal, enum, object and intersection types, all option sets, all values", "why_tests_cant": "the claim is about every value of every type, not about reported code samples", "anchors": ["internal/rules/strict_boolean_expressions/strict_boolean_expressions.go: checkCondition, analyzeTypePart"]}
{"id": "C44", "title": "Suggested switch clauses leave handled values alone", "statement": "After the suggestion of switch-exhaustiveness-check is applied, every value that the switch already handled runs the same statements, and a value of a missing member throws the message of its clause.", "quantifier": "all clause lists with and without default, all values, all bodies that fall through or not", "why_tests_cant": "tests compare the fixed text, not what the switch does", "anchors": ["internal/rules/switch_exhaustiveness_check/switch_exhaustiveness_check.go: applyMissingCases, buildMissingCaseLine"]}
{"id": "C45", "title": "What a type or value specifier matches", "statement": "A type matches a list of specifiers exactly when it or a part of the intersection, not the error type, has a name that one of the specifiers lists and a source that the same specifier asks for: the file, the default library, or the package, where the package of a file is the name in the nearest package.json below node_modules that has one, otherwise the innermost package in the path, or its types package; a declaration inside declare module counts too. None of this panics for known sources.", "quantifier": "all path strings, all package.json contents, all declarations with their ancestors, all types, all specifier lists", "why_tests_cant": "tests use a few fixed directory layouts and never look at nested or unnamed packages", "anchors": ["internal/utils/type_matches_specifier.go: TypeMatchesSomeSpecifier, ValueMatchesSomeSpecifier, SymbolMatchesSpecifierNameAndSource, findSourceFilePackageName"]}
{"id": "C46", "title": "The code box shows the reported code", "statement": "For a text with \\n or \\r\\n line breaks and a range whose lines, with one more on either side, are at most 13 and not all blank: the box has exactly these lines, each with its number (all numbers equally wide) and its text without the indentation common to the box and without trailing white space, and underlined is exactly the part of it inside the range (without the indentation of later lines). More lines are not shown. A message of several lines is aligned below the rule name. When the box reaches the last line of the text this needs the end of this line to be reported as the position of its last byte.", "quantifier": "all texts below 2^62 bytes, all ranges, all messages", "why_tests_cant": "all line lengths, indentations, positions of the range and encodings; index arithmetic over byte offsets", "anchors": ["cmd/tsgolint/main.go: printDiagnostic"]}
{"id": "C47", "title": "A comparison with a boolean literal is simplified to the same value", "statement": "no-unnecessary-boolean-literal-compare reports exactly the comparisons by ==, ===, != and !== of a literal with an operand whose type is boolean, or a union with a nullish and a boolean part unless the option for that literal is set. If the operand can only be null, undefined or a boolean, then in any context the fixed text is read as an expression with the same effects and the same value, or, for a nullable operand compared with true and not negated, one of the same truth; where a `!` is dropped with its parentheses the operand must be able to stand there.", "quantifier": "all expressions of identifiers, parentheses, !, await and binary operators, all contexts, all types, all evaluations of operands (values, effects, exceptions)", "why_tests_cant": "all nestings of operators and parentheses around the comparison, all values of the operand; the order of equal fixes", "anchors": ["internal/rules/no_unnecessary_boolean_literal_compare/no_unnecessary_boolean_literal_compare.go", "internal/utils/ts_eslint.go: IsStrongPrecedenceNode", "internal/linter/source_code_fixer.go"]}
{"id": "C48", "title": "consistent-return judges each function by its own returns", "statement": "The reports of consistent-return are, up to order, per function: every return that differs from the function's first one in giving a value, and the function itself when all its returns give a value, its end can be reached and it may not return void. Nothing is reported exactly when every function gives a value in all of its returns and does not reach its end, or gives none. A function may return void when a signature returns void, alone or in a union, or for an async function void within promises at any depth; the search ends on cyclic types.", "quantifier": "all trees of functions, returns and other nodes; all type graphs with finitely many types met from the return types", "why_tests_cant": "any nesting of functions, any order of returns, cyclic types", "anchors": ["internal/rules/consistent_return/consistent_return.go"]}
{"id": "C49", "title": "require-await reports exactly the async functions that never wait", "statement": "require-await reports exactly the async functions with a body that does something and in which nothing waits: no await, for await, await using or return of a promise, no expression body that is a promise, in a generator no yield of a promise and no yield* of an async iterable; every node counts for the innermost function around it. The suggestion removes async with the blanks after it, unwraps the return type Promise<T>, renames AsyncGenerator, and changes nothing else but a semicolon where the text before has not ended and the next token could continue it.", "quantifier": "all trees of nodes, all type graphs of yielded types, all texts and positions of the function in them", "why_tests_cant": "any nesting of functions, any layout of the text", "anchors": ["internal/rules/require_await/require_await.go", "internal/utils/utils.go: TypeRecurser"]}
{"id": "C50", "title": "no-unnecessary-type-conversion reports conversions that do nothing, and its suggestions keep the value", "statement": "Reported are exactly x + '', '' + x, x += '', String(x) and the like, x.toString(), +x, !!x and ~~x where every part of the type of x is of the primitive type, for ~~ an integer literal, with these ranges. The first suggestion puts the operand in the place of the conversion (or removes the statement x += '';), the second one also asserts its type; in every context the text that results is read as an expression that has the same value and effects, when the types are right, integers after ~~ have 32 bits, and for the second suggestion the conversion is not the operand of typeof, void or a postfix !.", "quantifier": "all expressions of the grammar in Js.v in all contexts, all types, all meanings of operators, variables, properties and calls", "why_tests_cant": "any nesting of operators, any evaluation", "anchors": ["internal/rules/no_unnecessary_type_conversion/no_unnecessary_type_conversion.go", "internal/utils/ts_eslint.go: IsStrongPrecedenceNode"]}
{"id": "C51", "title": "no-duplicate-type-constituents reports what was there before, and leaving it out keeps the type", "statement": "Looked at are exactly the constituents of a union or intersection and those of its constituents that are firsts, in the order of the text; one is a duplicate iff its type is that of an earlier first one, which the message and label name. A fix is offered for top-level ones and where a constituent is left; it never panics and gives the text without the constituent and without one operator, provided no template with a substitution comes before. No type loses all constituents to fixes for duplicates. Any set of reported constituents may be left out without changing the values of the type (up to undefined in an optional parameter), provided the first occurrence is not a node around the duplicate.", "quantifier": "all types built from unions, intersections, parentheses and other types, all type identities, all subsets of the reports", "why_tests_cant": "any nesting, any subset of fixes, any meaning of types", "anchors": ["internal/rules/no_duplicate_type_constituents/no_duplicate_type_constituents.go", "internal/linter/source_code_fixer.go"]}
{"id": "C52", "title": "dot-notation reports the accesses a dot can express, and its fixes keep the tokens", "statement": "An access with brackets is reported iff its argument is a literal that reads as an ASCII name, no allowance (private, protected, index signature; for accessors the one the access uses) holds, the name is not an ES3 reserved word unless these are allowed, and the pattern does not match; an access with a dot iff reserved names are not allowed and its name is one. Neither form is reported again after its fix. All fixes of a text are made in one pass, in any order, and the new text reads as the old pieces with these accesses in the other notation: numbers, names and dots stay apart from what follows, provided the text of every integer object is made of digits.", "quantifier": "all options, all declarations, all texts made of pieces with any number of accesses of both kinds", "why_tests_cant": "any text around the accesses, any combination of options and declarations", "anchors": ["internal/rules/dot_notation/dot_notation.go", "internal/linter/source_code_fixer.go"]}
{"id": "C53", "title": "no-redundant-type-constituents reports what is overridden, and leaving that out keeps the type", "statement": "In a union a constituent is reported, once per message, iff it is any, unknown or never (never not where a function returns the union), or has literals of a primitive type that another constituent has. In an intersection iff it is any, unknown or never, or is a primitive type next to a literal of it when no constituent is a union, or is a union of literals whose primitive types are all constituents. All constituents said to be overridden can be left out together without changing the values of the type; what is said to override everything is the type, unless unknown meets any in a union or any meets never in an intersection. Next to a union of literals of one primitive type, the primitive type can be left out.", "quantifier": "all unions and intersections of keywords, literals and normalized types, any iteration order of Go maps", "why_tests_cant": "any number and mixture of constituents; the tests compare texts and do not compute the types", "anchors": ["internal/rules/no_redundant_type_constituents/no_redundant_type_constituents.go"]}
{"id": "C54", "title": "no-unnecessary-condition says of values and comparisons only what is true, and says it of all tests whose type allows it", "statement": "Provided the checker types expressions right but for elements of arrays that may be missing: an expression reported as always truthy, always falsy, never, always nullish or never nullish is that, whatever negations and parentheses are around it, unless its value may be a missing element behind an optional chain, a conditional or a logical operator (for never nullish, behind parentheses in a chain only); a comparison reported always gives the same, unless an operand may be missing or null is ordered. Elements of arrays are never reported truthy, falsy or not nullish unless noUncheckedIndexedAccess is on. Every operand of && and || in a test is looked at once. A test whose type has no intersections and is not empty is reported iff all its values are truthy or all are falsy; the left side of ?? iff none is nullish, or its type is null, undefined or void; a strict comparison with null or undefined iff the other side is a literal or never has that value. Constant loops are allowed as the option says.", "quantifier": "all programs of expressions and statements, all types, all evaluations", "why_tests_cant": "any nesting of expressions and any types; the tests compare reports and do not evaluate the expressions", "anchors": ["internal/rules/no_unnecessary_condition/no_unnecessary_condition.go"]}
{"id": "C55", "title": "no-floating-promises misses no promise a statement leaves over, and reports only such", "statement": "Provided the types of the expressions of a statement are right and methods called then, catch and finally are those of promises: if the statement is not reported and is no exempt call, then neither its value nor that of an operand of a comma of it is a promise without a handler, or an array with one; if it is reported, and what is in parentheses inside is no handled or combined promise, there is an evaluation that leaves over such a value, also inside (left of a comma or of &&). The report is at a part of the statement whose type is that of a promise, or of an array of promises (or at calls of finally on it), and shows a handler that cannot be called, if that is the reason. What is suggested reads as the statement with void or await before it, in parentheses unless it is an operand, or with await for void, and is not reported again.", "quantifier": "all expressions, types, options, evaluations", "why_tests_cant": "any nesting of calls, conditions, logical operators, commas and parentheses; the tests do not evaluate the expressions nor parse the suggestions", "anchors": ["internal/rules/no_floating_promises/no_floating_promises.go"]}
{"id": "C56", "title": "prefer-readonly reports the private members that only the constructor assigns", "statement": "For every file with classes in classes: the reports are those of the classes, an outer class before those in it, each once, properties and parameters of the constructor before statics. A member is reported exactly when it is the last private declaration of its name that is not yet readonly (with the option only arrow functions) and no access in its own class that counts as writing has an object whose type is an instance of the class (or the class, for statics), except directly in the constructor. The ways of writing that are recognized are all operators of assignment, ++ and --, delete, and elements of array and object patterns that are not nested in an object; each of these counts. The type is found among the bases also when they go round in circles. A type is added after the name only when the constructor writes a member without type whose initializer is a literal.", "quantifier": "all trees, declarations, types with their bases, options", "why_tests_cant": "any nesting of classes, functions, patterns and types; tests do not show that a write is missed", "anchors": ["internal/rules/prefer_readonly/prefer_readonly.go"]}
{"id": "C57", "title": "prefer-readonly-parameter-types reports the parameters through which something can be written", "statement": "For every type, also one that contains itself: when the recursion ends it says readonly exactly if no type that can be written is reached through parts of unions and intersections, elements of readonly arrays and tuples, properties and index signatures, although types already seen are skipped. It ends when the types met are finitely many and arrays of arrays of ... end, with a bound on the depth. A parameter is reported, once and in order, exactly if the options do not exclude it, it has a type that is not a branded primitive (or a union of these), and such a type is reached.", "quantifier": "all types with parts, arguments, properties, index signatures and circles; all lists of parameters, all options", "why_tests_cant": "types are arbitrary graphs; tests have a few shapes and do not reach circles through arrays", "anchors": ["internal/rules/prefer_readonly_parameter_types/prefer_readonly_parameter_types.go"]}
{"id": "C58", "title": "no-base-to-string: the memoized verdicts are the verdicts on the types, whatever was asked before", "statement": "For every file: what is converted to a string is +/+= with a string, String(x), x.toString(), x.toLocaleString(), x.join() and the spans of untagged templates, and the reports are those due for these operands, in order, with the right word (will/may), where types that contain themselves may be let pass. For types that do not contain themselves the verdicts are those of the plain rules (there is exactly one for each type), whatever is in the memos, so reports of parts of a file do not depend on each other. The recursion ends for finitely many types, without panic. A report is always due to a type inside with the toString of Object or an unknown type. With known types, what is not reported is never converted by the toString of Object, what will be is (if arrays have elements), and for each report there is a value that is.", "quantifier": "all types (unions, intersections, tuples, arrays, type parameters, circles), all sequences of expressions, all options", "why_tests_cant": "memo states depend on all that was checked before in the file; tests have single expressions and few shapes of types", "anchors": ["internal/rules/no_base_to_string/no_base_to_string.go"]}
{"id": "C59", "title": "prefer-nullish-coalescing: what is put in the place of ||, ternaries and ifs is valid and means the same", "statement": "Ternaries, if statements, || and ||= are reported just when due: the test compares the same access with null and undefined as far as its type has them (or is its truth), the options allow it. Accesses taken for the same read the same (member or string index, with or without ?. and !), and accesses as usually written that read the same are taken for the same. The new text is the text of one expression only, and it can stand at the same place without mixing ?? with || or &&. The new expression gives the same value and state as the old one, in every state in which values are of their types, if the type does not hide undefined, comparisons are with null or undefined, and truth tests meet no 0, '' and the like (none is met with all primitives ignored and types that say which primitives they have). For || this excludes chains with && left of it under another ||.", "quantifier": "all expressions and places, all types, all options, all states and effects of other expressions", "why_tests_cant": "validity and meaning of the fixes for all nestings of parentheses, logical operators, accesses and types; tests compare texts of single fixes", "anchors": ["internal/rules/prefer_nullish_coalescing/prefer_nullish_coalescing.go", "internal/utils/ts_eslint.go"]}
{"id": "C60", "title": "prefer-optional-chain: what is put in the place of && chains is valid and means the same", "statement": "Reports are about successive operands of &&, each about an access that reads like the beginning of the next; accesses are taken for the same just if they differ in parentheses, assertions, ?. and types only. The options for types and requireNullish are followed, chains of dotted names are all reported, and changes that can add undefined to the type are only offered. The new text is the text of one expression only, which can be written without further parentheses: the operands before, something new, those after. If guards (truth, != null, !== null, !== undefined) test the beginnings of an access that is then used or compared, the new expression gives the same value, or both are falsy, whenever the old one gives a value, the truth tests meet no 0, '' and the like and the value compared with is of its type; likewise for chains that end in !== undefined && !== null.", "quantifier": "all expressions, all types, all options (meaning: unsafe fixes off), all values of variables, properties, calls and operators", "why_tests_cant": "validity and meaning of the fixes for all chains, accesses, guards, comparisons and values; tests compare texts of single fixes", "anchors": ["internal/rules/prefer_optional_chain/prefer_optional_chain.go"]}
{"id": "C61", "title": "prefer-optional-chain: what is put in the place of || chains is valid and means the same", "statement": "Reports are about successive operands of ||, each about an access that reads like the beginning of the next. Negated operands of literal types can be null or undefined, requireNullish leaves chains alone that begin with a negation, and negations of dotted names are all reported and fixed. If operands that hold when an access gives nothing (!, == null, === null, === undefined) test the beginnings of an access that is then negated or compared, the new text is the text of an expression that can be written without further parentheses, of the operands before, a new one and those after, and its result is the same whenever the old one gives a value, the negations meet no 0, '' and the like and the comparison holds for undefined; if the first operand is a negation and no operand follows, the rule sees to the last itself.", "quantifier": "all expressions, all types, all options, all values of variables, properties, calls and operators", "why_tests_cant": "validity and meaning of the fixes for all chains, accesses, comparisons and values; tests compare texts of single fixes", "anchors": ["internal/rules/prefer_optional_chain/prefer_optional_chain.go"]}
{"id": "C62", "title": "prefer-optional-chain: (x || {}).y and (x ?? {}).y become x?.y, which is valid and means the same", "statement": "Reported are exactly the accesses without ?. of which the object or the index is x || {} or x ?? {} (also in one pair of parentheses), with requireNullish only if x can be null or undefined; the change is made under allowPotentiallyUnsafeFixes, else offered. If it is the object, and x is neither a type assertion in angle brackets nor new without arguments, the new text is that of an expression that can be written without further parentheses, an optional chain, and after any further steps it gives the same result whenever the old one does not throw, the empty object lacks the property, and (for ||) x is not falsy other than null and undefined.", "quantifier": "all expressions, all types, all options, all further steps, all values of variables, properties, calls and operators", "why_tests_cant": "validity and meaning of the new text for all operands, accesses and values; tests compare texts of single suggestions", "anchors": ["internal/rules/prefer_optional_chain/prefer_optional_chain.go", "internal/utils/ts_api_utils.go"]}
{"id": "C63", "title": "return-await: its fixes keep what async functions do, and only suggestions are where awaiting matters", "statement": "Reported are exactly the returned expressions (branches of conditional expressions, inside parentheses) of async functions that are awaited without being thenable, awaited where the option says not to, or not awaited where it says to, where 'affected' means that an exception there would meet a catch clause, a finally block or the end of a using declaration of the same function. Changes made at once leave the effects and the outcome of a call as they were in every world of effects, conditions, promises and exceptions, except inside for-of loops; for every kind of affected place there are statements and a world for which awaiting or not is a difference. The new text is read as the changed expression unless the operand is on the line after await or begins with a brace.", "quantifier": "all files of nested functions, blocks, loops, try statements and using declarations, all types, all options, all worlds", "why_tests_cant": "equal effects and outcomes for all functions and worlds; tests compare texts of single fixes", "anchors": ["internal/rules/return_await/return_await.go", "internal/utils/ts_eslint.go: NeedsToBeAwaited, IsHigherPrecedenceThanAwait"]}
{"id": "C64", "title": "consistent-type-exports: its fixes export the same names, types as types, and leave the same JavaScript", "statement": "A symbol is found to be a type or a value exactly if it stands for one at the end of its aliases. Reported are exactly the declarations without type that have a name without modifier standing for a type, with the message, range and labels of these names, and export * from modules without values. The text after a fix is read, byte by byte with comments, strings and names like type and as, as declarations that export the same names from the same module, those for types as types, with the same exports left in JavaScript and the same modules loaded, if all names are known, there are no import attributes and no quote follows a modifier type directly; with inline modifiers in every case. For export * the declaration becomes a type export.", "quantifier": "all symbol tables with aliases, all declarations and texts, both options", "why_tests_cant": "equal exports for all texts; tests compare the new texts of single declarations", "anchors": ["internal/rules/consistent_type_exports/consistent_type_exports.go"]}
{"id": "C65", "title": "prefer-find: index expressions, what is reported, the new text and its meaning", "statement": "The static value of an index expression is its value in JavaScript (through constants, also in circles; strings become numbers as in JavaScript where ParseFloat agrees and no sign goes with a radix), and an argument taken for zero is one that at rounds to zero. Reported are exactly accesses to the first element by [0] or at(0) where every value the array may come from (through parentheses, commas and both branches) is a call of filter, not optional, on an array. The new text has find for filter in each of them, and after the array only the white space and comments before the access are left. It has the same effects and result for arrays without missing elements where no optional chain ends early inside parentheses.", "quantifier": "all index expressions and constants, all accesses with their texts and comments, all states, arrays and predicates", "why_tests_cant": "equal results for all arrays, predicates and states; tests compare new texts of single expressions", "anchors": ["internal/rules/prefer_find/prefer_find.go"]}
{"id": "C66", "title": "no-confusing-void-expression: where void values go, and what the fixes do", "statement": "Reported are exactly the calls, awaits and tagged templates of a void-like type whose value goes somewhere (seen from outside: returned by an arrow function or a return, marked by void, used in another expression), with the message the options and the function's return type ask for. Braces around the body of an arrow function, a removed last return and a return moved behind the expression leave what the function does and returns unchanged, if the whole value is undefined and the expression may begin a statement; what replaces a return does not go on with a statement before it without semicolon unless it begins with a template, a sign or a slash. void before a returned value leaves operators, meaning and the rest of the text unchanged, and is not reported again.", "quantifier": "all expressions (parentheses, logical operators, commas, conditionals, void, other expressions around), all places in them, all options, all functions, all meanings of the parts", "why_tests_cant": "Tests check some nestings; the theorem relates the upward search through parents to where values flow from the outside, for every nesting, and the fixed token lists to the meaning of the statements they are read as.", "anchors": ["internal/rules/no_confusing_void_expression/no_confusing_void_expression.go:69-72", "internal/rules/no_confusing_void_expression/no_confusing_void_expression.go:74-130", "internal/rules/no_confusing_void_expression/no_confusing_void_expression.go:132-165", "internal/rules/no_confusing_void_expression/no_confusing_void_expression.go:182-291"]}
{"id": "C67", "title": "no-useless-default-assignment: which default values are never used, and what leaving them out does", "statement": "A default value in a binding pattern is reported exactly where the type of the value is known from the outermost pattern inwards (through properties, tuples and arrays, optional properties only if all branches of the initializer have them) and undefined does not belong to it. If types are right about values, and no names of properties are taken from variables, no rest elements are on the way and only elements of tuples that are always there, the pattern binds the same values with the same effects without that default value. A reported parameter is given a value other than undefined in every call the first signature allows. Leaving out the default value undefined never changes what is bound. The new text is the text of the pattern, or of the parameter, without the default value.", "quantifier": "all patterns of any depth, all places in them, all types (also cyclic ones) and values, all effects and exceptions of getters, iterators and default values", "why_tests_cant": "Tests check single patterns; the theorem relates the recursion through parents to what destructuring does with every value of every type.", "anchors": ["internal/rules/no_useless_default_assignment/no_useless_default_assignment.go:62-70", "internal/rules/no_useless_default_assignment/no_useless_default_assignment.go:72-99", "internal/rules/no_useless_default_assignment/no_useless_default_assignment.go:119-136", "internal/rules/no_useless_default_assignment/no_useless_default_assignment.go:182-204", "internal/rules/no_useless_default_assignment/no_useless_default_assignment.go:220-338", "internal/rules/no_useless_default_assignment/no_useless_default_assignment.go:340-342", "internal/rules/no_useless_default_assignment/no_useless_default_assignment.go:388-460", "internal/rules/no_useless_default_assignment/no_useless_default_assignment.go:462-519"]}
{"id": "C68", "title": "no-unsafe-argument compares every argument with the parameter that receives it", "statement": "For calls that pass a known number of values (plain arguments and spreads of tuples of fixed length) to signatures whose rest parameter is an array, a tuple with a variable element only at its end, or absent: exactly the unsafe flows from a value into the parameter that receives it are reported. Spreads of any and of arrays of any are always reported. Arguments after all parameters got their values are compared with the elements of the rest array whatever is spread in between; after a tuple with a variable element, with the last type of the rest parameter.", "quantifier": "all signatures, all lists of arguments, all types and all unsafe relations between them, tagged templates and calls", "why_tests_cant": "Tests try single calls; the theorem follows the cursor over parameters through every sequence of arguments.", "anchors": ["internal/rules/no_unsafe_argument/no_unsafe_argument.go:53-80", "internal/rules/no_unsafe_argument/no_unsafe_argument.go:97-126", "internal/rules/no_unsafe_argument/no_unsafe_argument.go:128-163", "internal/rules/no_unsafe_argument/no_unsafe_argument.go:172-193", "internal/rules/no_unsafe_argument/no_unsafe_argument.go:222-316"]}
{"id": "C69", "title": "no-unsafe-assignment finds what receives any in patterns, declarations and literals", "statement": "What is reported in a pattern without holes receives any from the destructured type; in patterns that have no default values on inner patterns, and for tuples of bounded length, all that receives any is reported. The wrong results of the functions about having reported make no difference. An assignment is reported exactly if the value is any and the target not unknown, or if there is a type to compare with and the value is unsafe for it. The diagnostic is on the = of a declaration whose type has none, else on the last colon before the value. Of an object literal the values up to the first assignment are checked.", "quantifier": "all patterns of any depth, all types (also cyclic ones), all object literals, all sequences of tokens", "why_tests_cant": "Tests use single patterns; the theorem relates the recursion over patterns and types to the flow of any into every part of every pattern.", "anchors": ["internal/rules/no_unsafe_assignment/no_unsafe_assignment.go:151-170", "internal/rules/no_unsafe_assignment/no_unsafe_assignment.go:190-217", "internal/rules/no_unsafe_assignment/no_unsafe_assignment.go:249-332", "internal/rules/no_unsafe_assignment/no_unsafe_assignment.go:349-427", "internal/rules/no_unsafe_assignment/no_unsafe_assignment.go:444-550", "internal/rules/no_unsafe_assignment/no_unsafe_assignment.go:563-582", "internal/rules/no_unsafe_assignment/no_unsafe_assignment.go:635-656", "internal/rules/no_unsafe_assignment/no_unsafe_assignment.go:659-689"]}
{"id": "C70", "title": "no-unsafe-enum-comparison reports comparisons without a common enum and suggests a member that compares the same way", "statement": "A comparison is reported exactly if there is an enum, the sides share neither an enum nor a part of a union, and one side has an enum whose values are like all of the other side; the order of the sides makes no difference. Static values are the values of the operands. There is a suggestion exactly if a member of the other side's enums has the static value, a name and an enum that can be written; a comparison with the suggested member has the same outcome and effects, if qualifiers stand for their enum without effects. Quoted names are literals with the name as value, without control characters and line terminators.", "quantifier": "all types as lists of parts of unions, all operands, members, scopes and strings of code points, all behaviours of operands and qualifiers", "why_tests_cant": "Tests compare texts of single suggestions; the theorem says what the suggested comparison does in every state.", "anchors": ["internal/rules/no_unsafe_enum_comparison/no_unsafe_enum_comparison.go:58-97", "internal/rules/no_unsafe_enum_comparison/no_unsafe_enum_comparison.go:102-146", "internal/rules/no_unsafe_enum_comparison/static_value.go:21-71", "internal/rules/no_unsafe_enum_comparison/suggestion.go:22-208", "internal/utils/string_literal.go:8-51", "internal/utils/ts_eslint.go:459-502"]}
{"id": "C71", "title": "no-unnecessary-type-parameters counts the uses of type parameters in signatures", "statement": "The count of a type parameter is the number of uses in a part of the unfolded types of the node, with each constraint and the default looked into once; if it is at most two, no part has more uses. So a type parameter is reported exactly if it has a use but nowhere three, where no two defaults are reached. Limiting the visits of each type to nine and stopping when all candidates have three uses make no difference, and the counting ends for every finite graph of types. Candidates are the type parameters without two references outside of their declaration and before the body.", "quantifier": "all graphs of types (also cyclic and infinite ones), all sets of candidates, functions and classes, all lists of references", "why_tests_cant": "The cut-offs (nine visits, early stopping) could only be exercised on a few graphs; the theorem compares with unbounded unfolding of all graphs.", "anchors": ["internal/rules/no_unnecessary_type_parameters/no_unnecessary_type_parameters.go:200-233", "internal/rules/no_unnecessary_type_parameters/no_unnecessary_type_parameters.go:301-322", "internal/rules/no_unnecessary_type_parameters/no_unnecessary_type_parameters.go:324-557", "internal/rules/no_unnecessary_type_parameters/no_unnecessary_type_parameters.go:560-612"]}
{"id": "C72", "title": "no-unnecessary-type-parameters removes a type parameter and writes its constraint instead", "statement": "An only type parameter is removed with its brackets if no > is in the comments after it, the first of several up to the next, others with the comma before them if no comma is in the comments before that; the rest of the list stays. The replaced references are the type with the constraint substituted, and the text is read as that exactly if the constraint fits in all places: names and the like fit everywhere, unions and intersections wherever no operator stands before the type parameter.", "quantifier": "all lists of type parameters with all spaces and comments, all types of any depth, all constraints", "why_tests_cant": "Tests fix single signatures; the theorems cover every list and every nesting of type operators.", "anchors": ["internal/rules/no_unnecessary_type_parameters/no_unnecessary_type_parameters.go:49-78", "internal/rules/no_unnecessary_type_parameters/no_unnecessary_type_parameters.go:136-183", "internal/rules/no_unnecessary_type_parameters/no_unnecessary_type_parameters.go:625-655"]}
{"id": "C73", "title": "no-unnecessary-qualifier reports the outermost accesses whose qualifier can go", "statement": "An access is reported exactly if its qualifier is a dotted name for an enum or a namespace (or an alias of one, through any number of aliases) whose body is around it, the name alone means the same symbol there, and it is not part of another such access. Reports come in the order of the source, each once; without the qualifier the name has all the meanings it had; only the text before the name goes; afterwards nothing is left on the stack.", "quantifier": "all trees of nodes, all symbols, alias chains and nestings of scopes", "why_tests_cant": "Tests show single nestings; the state kept across listeners (stack, marked access) has to be right for every tree.", "anchors": ["internal/rules/no_unnecessary_qualifier/no_unnecessary_qualifier.go:23-35", "internal/rules/no_unnecessary_qualifier/no_unnecessary_qualifier.go:37-86", "internal/rules/no_unnecessary_qualifier/no_unnecessary_qualifier.go:88-130", "internal/rules/no_unnecessary_qualifier/no_unnecessary_qualifier.go:132-170"]}
{"id": "C74", "title": "no-mixed-enums reports the first member of another kind than the first member of the enum", "statement": "A declaration of an enum is reported at its first member that is a string where the first member of the first declaration is a number (or the other way round), if all members before it are of the kind of that first member. Only enums with both kinds are reported, and all of them if all kinds are known and the first declaration has a member. The listener fails with an index out of range exactly if the first declaration of a merged enum has no members and a later one has.", "quantifier": "all lists of declarations with all lists of members", "why_tests_cant": "Tests show a few merged enums; the failure needs an empty first declaration or a namespace first.", "anchors": ["internal/rules/no_mixed_enums/no_mixed_enums.go:28-50", "internal/rules/no_mixed_enums/no_mixed_enums.go:51-57", "internal/rules/no_mixed_enums/no_mixed_enums.go:59-86"]}
{"id": "C75", "title": "related-getter-setter-pairs compares each getter with its setter", "statement": "Reported are the pairs of a getter with a written type and a setter with one parameter of the same name whose types do not fit, each once; in whatever order they come, if there is at most one of each of a name. For identifiers, private names and computed literals, the same name means the same property. With several accessors of a name, each is compared with the last of the other kind before it, if the other kind came first.", "quantifier": "all lists of members, all names, all types and relations of assignability", "why_tests_cant": "The two maps have to be right for every order of members; the theorem describes them for all lists.", "anchors": ["internal/rules/related_getter_setter_pairs/related_getter_setter_pairs.go:20-27", "internal/rules/related_getter_setter_pairs/related_getter_setter_pairs.go:28-62", "internal/utils/ts_eslint.go:625-645"]}
{"id": "C76", "title": "no-unnecessary-type-arguments reports a last type argument that is the default, and leaving it out keeps the types", "statement": "The last type argument is reported exactly if its type is that of the default of its type parameter, and, if it is the only one of a new expression with arguments, no parameter of the signature mentions a type parameter. If its type does not mention the type parameters of the declaration, the list without it stands for the same types, by defaults and (for new expressions) by inference. The type parameters are those of a declaration that fits the place, whatever the order of declarations and the sorting. Removing takes the argument with its comma, or with the brackets if it is the only one.", "quantifier": "all lists of type arguments and parameters, all types, all declarations and sortings, all texts", "why_tests_cant": "Tests show single classes; the order of merged declarations and the meaning of defaults vary without bound.", "anchors": ["internal/rules/no_unnecessary_type_arguments/no_unnecessary_type_arguments.go:21-45", "internal/rules/no_unnecessary_type_arguments/no_unnecessary_type_arguments.go:50-121", "internal/rules/no_unnecessary_type_arguments/no_unnecessary_type_arguments.go:123-181", "internal/rules/no_unnecessary_type_arguments/no_unnecessary_type_arguments.go:183-248"]}
{"id": "C77", "title": "unbound-method reports references to methods where they may lose their object", "statement": "A reference is taken as safe exactly if, after parentheses, assertions, || and right sides of &&, it is tested, compared, called, assigned to or accessed; such a reference does not get anywhere without its object, except for calls of || and && and for values of assignments from super to this. Methods and functions of object literals are dangerous exactly if they do not say this: void and are not static methods that are ignored, and the hint is given exactly if they do not name this. A property of a pattern is reported at most once, for the first of its sources that is dangerous, and only names that the kind of pattern allows are looked at. Patterns are left out only where there is no code.", "quantifier": "all chains of nodes above a reference, all declarations, all types and patterns", "why_tests_cant": "Tests show single uses; places nest without bound, and what a place does to a reference depends on those above it.", "anchors": ["internal/rules/unbound_method/unbound_method.go:47-135", "internal/rules/unbound_method/unbound_method.go:137-197", "internal/rules/unbound_method/unbound_method.go:204-247", "internal/rules/unbound_method/unbound_method.go:249-328", "internal/utils/utils.go:50-61"]}
{"id": "C78", "title": "promise-function-async asks for async where nothing but promises is returned", "statement": "With a written return type (without intersections) a function is reported exactly if all values of its return types are promises; without one, functions that are left alone may return something else (interfaces with one base). A fix is applied only if all that is returned are promises, and it is only offered where something else may be returned. any and unknown are reported without fix exactly if they are not allowed. The keyword is inserted after the modifiers and directly before the rest of the function.", "quantifier": "all types (unions, intersections, classes with bases), all lists of signatures, all options, all headers of functions", "why_tests_cant": "Tests show single return types; unions, intersections and bases nest without bound.", "anchors": ["internal/rules/promise_function_async/promise_function_async.go:38-79", "internal/rules/promise_function_async/promise_function_async.go:81-114", "internal/rules/promise_function_async/promise_function_async.go:116-138", "internal/rules/promise_function_async/promise_function_async.go:140-191"]}
{"id": "C79", "title": "restrict-plus-operands lets only operands through that belong together", "statement": "Each operand with an invalid part is reported, left before right; without one there is at most one report, of a string beside a number or bigint (unless allowed) or of a number beside a bigint, whatever their order. Where nothing is reported, all values of plain types (no intersections, no void) belong together unless a type was allowed by an option; with everything off they are of one kind. A RegExp is never allowed beside a number. The words of the help are exactly those of the options.", "quantifier": "all unions of types on both sides, all options, all values", "why_tests_cant": "Tests show pairs of types with single options; unions on both sides and combinations of options are many.", "anchors": ["internal/rules/restrict_plus_operands/restrict_plus_operands.go:54-102", "internal/rules/restrict_plus_operands/restrict_plus_operands.go:104-132", "internal/rules/restrict_plus_operands/restrict_plus_operands.go:134-187", "internal/rules/restrict_plus_operands/restrict_plus_operands.go:189-196"]}
{"id": "C80", "title": "await-thenable reports what is never thenable", "statement": "await is reported exactly if no value of the type is thenable (constraints of parameters in unions are no unions); elements of arrays passed to Promise.all and its like are, too, for all unions. Other inputs are reported exactly if all parts are iterable and some part of what they give is never thenable (types that iterate over their first type argument). for await and await using are reported exactly if no value is async iterable or disposable; a suggestion is there exactly for single declarations. Removing await before a name leaves the statements as they are.", "quantifier": "all types (unions, parameters with nested constraints, tuples, arrays, generic types), all argument and declaration lists, all token lists", "why_tests_cant": "Tests show single types; unions, constraints and their nesting are unbounded.", "anchors": ["internal/rules/await_thenable/await_thenable.go:101-121", "internal/rules/await_thenable/await_thenable.go:122-171", "internal/rules/await_thenable/await_thenable.go:172-250", "internal/rules/await_thenable/await_thenable.go:255-344", "internal/utils/ts_eslint.go:36-91"]}
{"id": "C81", "title": "prefer-regexp-exec changes no results of matches", "statement": "The flags of a literal are those after its pattern, whatever the pattern is. Static values are those of the argument. A fixed call gives what the call gave, if a RegExp is not made of a RegExp, strings are complete patterns without escaped slash, and no value has a matcher of its own; arguments that may be global are left alone. The literal made of a string is scanned as one literal with the same pattern. Weak operands are in parentheses.", "quantifier": "all arguments (nested casts, constants, constructors), all patterns and flags, all types, all validity tests of patterns", "why_tests_cant": "Tests show some patterns; slashes, backslashes and classes combine without bound, and what a call gives is not tested at all.", "anchors": ["internal/rules/prefer_regexp_exec/prefer_regexp_exec.go:85-104", "internal/rules/prefer_regexp_exec/prefer_regexp_exec.go:106-137", "internal/rules/prefer_regexp_exec/prefer_regexp_exec.go:151-170", "internal/rules/prefer_regexp_exec/prefer_regexp_exec.go:172-245", "internal/rules/prefer_regexp_exec/prefer_regexp_exec.go:247-263", "internal/rules/prefer_regexp_exec/prefer_regexp_exec.go:281-348"]}
{"id": "C82", "title": "prefer-return-this-type replaces the first reference to the class where this is returned", "statement": "A function is reported exactly if its class has a name that is in the return type (through unions), it has no parameter this, it returns this and nothing of the type of the class. The first such reference is reported. The fixed type takes the object itself and what was taken beside the reference; all that is returned and is no other instance of the class still fits.", "quantifier": "all return types (nested unions, parentheses), all lists of returns, all class hierarchies and values", "why_tests_cant": "Tests show single types; unions nest without bound, and whether returned values fit the fixed type is not tested.", "anchors": ["internal/rules/prefer_return_this_type/prefer_return_this_type.go:19-37", "internal/rules/prefer_return_this_type/prefer_return_this_type.go:39-109", "internal/rules/prefer_return_this_type/prefer_return_this_type.go:111-133"]}
{"id": "C83", "title": "strict-void-return reports the functions that give something where nothing is expected", "statement": "A function given where one that returns nothing is expected and that is not reported returns nothing but undefined (or any, where that is allowed); what is reported may return something else. Of a function with a block its own return statements that give something are reported, not those of functions within it; otherwise one thing is reported, the function, its body or its written type. Arguments are looked at exactly if the expected type asks for nothing and all overloads could, or some overload asks for void and all for nothing, null or any. Methods and properties are looked at exactly if a member they take the place of asks for nothing.", "quantifier": "all functions (nested statements and functions), all result types, all overloads and argument lists, all classes", "why_tests_cant": "Tests show single functions; nesting, overloads and spreads combine without bound.", "anchors": ["internal/rules/strict_void_return/strict_void_return.go:38-76", "internal/rules/strict_void_return/strict_void_return.go:78-139", "internal/rules/strict_void_return/strict_void_return.go:141-191", "internal/rules/strict_void_return/strict_void_return.go:218-296"]}
{"id": "C84", "title": "non-nullable-type-assertion-style reports the assertions that only take away null and undefined", "statement": "An assertion is reported exactly if it is not as const, no type is any or unknown, the original type has null or undefined as a part, the asserted type has exactly the other parts and none of these (nor the constraint of a type parameter among them) may be null or undefined; then both it and the suggested operator keep exactly the values that are neither. Of an assertion with as the suggestion leaves the expression with !, in parentheses where needed, and the space before it, however the fixes are sorted.", "quantifier": "all lists of parts, all constraints, all source texts, all sorts of the fixes", "why_tests_cant": "Tests show a few unions; sets of parts and texts are without bound, and no test has an assertion in angle brackets.", "anchors": ["internal/rules/non_nullable_type_assertion_style/non_nullable_type_assertion_style.go:21-42", "internal/rules/non_nullable_type_assertion_style/non_nullable_type_assertion_style.go:44-83", "internal/rules/non_nullable_type_assertion_style/non_nullable_type_assertion_style.go:85-105"]}
{"id": "C85", "title": "no-array-delete reports the deletion of elements of arrays and makes a call of splice of it", "statement": "What is reported deletes an element (in parentheses or not) of something of which every value is an array; without unions and intersections inside others all such deletions are reported. In the suggestion the keyword is gone and a call of splice with the index and 1 takes the place of the brackets; everything else stays, however the fixes are sorted.", "quantifier": "all types, all values, all source texts with space and comments anywhere, all sorts of the fixes", "why_tests_cant": "Tests show single statements; nested types and texts are without bound, and no test has an optional access or a bare comma in the index.", "anchors": ["internal/rules/no_array_delete/no_array_delete.go:27-47", "internal/rules/no_array_delete/no_array_delete.go:49-63", "internal/rules/no_array_delete/no_array_delete.go:65-89"]}
{"id": "C86", "title": "prefer-reduce-type-parameter moves the asserted type of the initial value to the call", "statement": "A call is reported exactly if it is one of reduce by access, its second argument is an assertion whose expression fits the asserted type, and every type in the unions and intersections of the object is an array or tuple; then every value of the object is an array. In the fixed text the assertion is gone and its type, as written, is given to the call, unless that has type arguments already; everything else stays, for both forms of assertions, however the fixes are sorted.", "quantifier": "all calls, all nested types, all source texts, all sorts of the fixes", "why_tests_cant": "Tests show single calls; nested types and texts are without bound.", "anchors": ["internal/rules/prefer_reduce_type_parameter/prefer_reduce_type_parameter.go:20-60", "internal/rules/prefer_reduce_type_parameter/prefer_reduce_type_parameter.go:62-72"]}
{"id": "C87", "title": "no-unsafe-member-access reports where an unsafe chain begins, once", "statement": "With the cache of states, in the walk of the linter through any file: no access is reported twice though it is looked at for each access around it; exactly the accesses outside heritage clauses are reported whose object is of type any and is no unsafe access itself, those left out by the option apart; every unsafe chain is reported at or below its outermost access; the message speaks of this exactly if the access begins with a this of type any and the compiler allows that; exactly the indexes of type any are reported that are no literals, ++ or --.", "quantifier": "all files, all types, all options", "why_tests_cant": "Tests show short chains; whether the cache is right depends on the order in which nested accesses are met, in trees of any shape.", "anchors": ["internal/rules/no_unsafe_member_access/no_unsafe_member_access.go:69-150", "internal/rules/no_unsafe_member_access/no_unsafe_member_access.go:152-192", "internal/utils/ts_eslint.go:431-449"]}
{"id": "C88", "title": "use-unknown-in-catch-callback-variable reports the handlers that do not take errors as unknown", "statement": "Exactly the functions are reported that the handler of rejections passed to catch or then may be, through logical operators, commas, conditions and parentheses, and that have a signature whose first parameter, or first element of a rest parameter, is not unknown; the advice is that for the first parameter as written. The exact condition for a panic is given. The suggested texts are right for names with and without question marks, arrow functions without parentheses, annotations and rest parameters, and a function with the suggested annotations is not reported.", "quantifier": "all calls, all nested expressions, all signatures, all source texts, all sorts of the fixes", "why_tests_cant": "Tests show single handlers; expressions, signatures and texts are without bound.", "anchors": ["internal/rules/use_unknown_in_catch_callback_variable/use_unknown_in_catch_callback_variable.go:64-91", "internal/rules/use_unknown_in_catch_callback_variable/use_unknown_in_catch_callback_variable.go:93-114", "internal/rules/use_unknown_in_catch_callback_variable/use_unknown_in_catch_callback_variable.go:116-228"]}
{"id": "C89", "title": "no-misused-spread reports spreads by the first thing that is true of some part of the type", "statement": "In arrays and arguments of calls exactly the spreads of strings are reported; in objects and JSX attributes a spread is reported exactly with the first of promise, function without properties, map, array, iterable that is no string, class instance, class that some part of the nested unions and intersections is; types that are allowed and patterns apart. A map is suggested to be given to Object.fromEntries exactly if each part of the union has one, and the suggested texts are right, also when the call takes the place of the whole object; the await is put inside of the parentheses, with new ones if needed.", "quantifier": "all elements, all nested types, all source texts, all sorts of the fixes", "why_tests_cant": "Tests show single types; nested types, lists of elements and texts are without bound.", "anchors": ["internal/rules/no_misused_spread/no_misused_spread.go:77-146", "internal/rules/no_misused_spread/no_misused_spread.go:153-206", "internal/rules/no_misused_spread/no_misused_spread.go:208-289", "internal/utils/utils.go:50-61"]}
{"id": "C90", "title": "the questions whether a type is like a built-in one are answered exactly", "statement": "A type is said to be like a built-in one of given names, like any built-in one, or like Readonly of an error exactly if it is one declared in a file of the default library, or some part of an intersection, every part of a union, the constraint of a type parameter or a base of a class or interface is. There is an answer, the same with more steps, whenever no chain of parts, constraints and bases is endless.", "quantifier": "all graphs of types also with cycles, all names, all files of declarations, all options of libraries", "why_tests_cant": "Tests show single classes; graphs of types are without bound and the recursion has no memory of what it saw.", "anchors": ["internal/utils/builtin_symbol_likes.go:18-69", "internal/utils/builtin_symbol_likes.go:124-153", "internal/utils/builtin_symbol_likes.go:163-222", "internal/utils/builtin_symbol_likes.go:224-267"]}
{"id": "C91", "title": "no-unnecessary-type-assertion never overlooks an any or a type variable within a type, and its search ends", "statement": "If the search of any or of type variables in a type says no, none is within it through parts, arguments, parameters and results, whatever cycles there are. If it says yes, there is one or a signature lies within one of the same origin. It ends even with ever new types if signatures have finitely many origins and types finitely many parts. Type arguments, parts of unions apart from undefined and properties with readonly are compared exactly.", "quantifier": "all graphs of types also infinite ones, all predicates, all lists of parts, arguments and properties", "why_tests_cant": "Tests show single types; the search keeps two sets over a graph without bound and adds and takes out signatures.", "anchors": ["internal/rules/no_unnecessary_type_assertion/no_unnecessary_type_assertion.go:170-178", "internal/rules/no_unnecessary_type_assertion/no_unnecessary_type_assertion.go:180-232", "internal/rules/no_unnecessary_type_assertion/no_unnecessary_type_assertion.go:234-244", "internal/rules/no_unnecessary_type_assertion/no_unnecessary_type_assertion.go:252-286", "internal/rules/no_unnecessary_type_assertion/no_unnecessary_type_assertion.go:288-307"]}
{"id": "C92", "title": "the fixes of no-unnecessary-type-assertion take away the assertion and nothing else", "statement": "An as with its type goes with the white space before it, and what is written between them stays; an assertion in angle brackets goes from bracket to bracket; a comment that is an assertion goes with the white space after it; the exclamation mark goes; a double assertion becomes the text of the innermost expression, in parentheses if it is an object that is the body of an arrow function.", "quantifier": "all source texts, all sorts of the fixes, all positions of comments", "why_tests_cant": "Tests show single texts; white space, comments and what surrounds the assertion are without bound.", "anchors": ["internal/rules/no_unnecessary_type_assertion/no_unnecessary_type_assertion.go:520-565", "internal/rules/no_unnecessary_type_assertion/no_unnecessary_type_assertion.go:567-639", "internal/rules/no_unnecessary_type_assertion/no_unnecessary_type_assertion.go:641-647", "internal/rules/no_unnecessary_type_assertion/no_unnecessary_type_assertion.go:1058-1068", "internal/rules/no_unnecessary_type_assertion/no_unnecessary_type_assertion.go:1151-1158", "internal/utils/utils.go:168-194"]}
{"id": "C93", "title": "no-unnecessary-type-assertion reports exactly the marks and assertions that change nothing", "statement": "An exclamation mark is unnecessary exactly if nothing in the constrained and the actual type can be missing and the variable cannot be unassigned, and by context exactly left of an assignment or where the context takes all of unknown, undefined, null and void of the type; a value that can be missing never loses its mark elsewhere. Assertions are reported in the order unchanged, by context, double, each exactly under its conditions. Whether a type parameter is constrained to another is found out exactly, and the search ends.", "quantifier": "all types with their parts, all declarations and containers, all contexts, all graphs of constraints", "why_tests_cant": "Tests show single programs; parts of unions, containers and graphs of constraints are without bound and the conditions combine.", "anchors": ["internal/rules/no_unnecessary_type_assertion/no_unnecessary_type_assertion.go:75-146", "internal/rules/no_unnecessary_type_assertion/no_unnecessary_type_assertion.go:449-459", "internal/rules/no_unnecessary_type_assertion/no_unnecessary_type_assertion.go:996-1045", "internal/rules/no_unnecessary_type_assertion/no_unnecessary_type_assertion.go:1072-1142", "internal/rules/no_unnecessary_type_assertion/no_unnecessary_type_assertion.go:1148-1236"]}
{"id": "C94", "title": "no-implied-eval reports exactly code given to global functions as something other than a function", "statement": "The Function constructor is reported exactly if it is named, alone or as a member of global, globalThis or window, and either nothing is known of it or it is the built-in one. The first argument of execScript, setImmediate, setInterval or setTimeout, named in the same ways, is reported exactly if it gives no function and nothing of that name is declared in this file. Literals are always reported; there are never two reports of one call.", "quantifier": "all callees, all arguments, all answers of the checker", "why_tests_cant": "Tests show single calls; the expressions a callee or an argument may be, and what the checker says of each, combine without bound.", "anchors": ["internal/rules/no_implied_eval/no_implied_eval.go:26-51", "internal/rules/no_implied_eval/no_implied_eval.go:53-86", "internal/rules/no_implied_eval/no_implied_eval.go:88-124"]}
{"id": "C95", "title": "only-throw-error and prefer-promise-reject-errors report exactly what is no error and not excused", "statement": "A thrown value is reported exactly if it is undefined and not in the option allow, or is no error, not excused by its type and the options, and not a caught value while rethrowing is allowed; a value is a caught one exactly if it comes from a catch clause or is the first parameter of an arrow function directly given for rejections of a promise. A call is reported exactly if it rejects a promise, through any parentheses, and gives nothing or no error. Errors are never reported.", "quantifier": "all types, all options, all declarations with what is around them, all callees", "why_tests_cant": "Tests show single programs; declarations, functions, argument positions, parentheses and options combine without bound.", "anchors": ["internal/rules/only_throw_error/only_throw_error.go:28-117", "internal/rules/only_throw_error/only_throw_error.go:119-158", "internal/rules/prefer_promise_reject_errors/prefer_promise_reject_errors.go:22-44", "internal/rules/prefer_promise_reject_errors/prefer_promise_reject_errors.go:46-106"]}
{"id": "C96", "title": "no-unsafe-return reports exactly returned values with any that nothing excuses, with the right types in message and labels", "statement": "The search for any in a type ends and answers any, array of any, promise of any or none, exactly, where what is awaited is no promise. A return is judged by the signatures of the contextual type of a function expression or else of the function; a value with any is reported exactly unless the written return type agrees, some signature has unknown there, or it is a promise and the function is not async; another value exactly if assigning it to the return type of the first signature is unsafe. Message and labels give the types.", "quantifier": "all types and graphs of awaited types, all lists of signatures, all functions, all expressions", "why_tests_cant": "Tests show single functions; unions, intersections, overloads and awaited types are without bound and the excuses combine.", "anchors": ["internal/rules/no_unsafe_return/no_unsafe_return.go:14-66", "internal/rules/no_unsafe_return/no_unsafe_return.go:77-230", "internal/utils/ts_eslint.go:431-449", "internal/utils/ts_eslint.go:504-562", "internal/utils/ts_api_utils.go:91-117"]}
{"id": "C97", "title": "no-unsafe-call and no-unsafe-type-assertion report exactly unsafe calls and assertions, with the right message", "statement": "A call, construction or template tag is reported exactly if what is called is any, or is like Function and has no construct signature and no call signature (for new, none that returns something); import() never. any is reported with its kind and, where this is any and not checked, with the words on this. A type assertion is reported exactly if the types differ and any comes in on either side or the widened expression type is not assignable; the message is decided by any first, then by the type parameter and its constraint. Range and labels are on the assertion and its two types.", "quantifier": "all types and answers of the checker, all called expressions, all signatures, all token positions", "why_tests_cant": "Tests show single calls and assertions; the conditions combine and expressions nest without bound.", "anchors": ["internal/rules/no_unsafe_call/no_unsafe_call.go:12-128", "internal/rules/no_unsafe_type_assertion/no_unsafe_type_assertion.go:14-180", "internal/utils/ts_eslint.go:431-449"]}
{"id": "C98", "title": "restrict-template-expressions, require-array-sort-compare, no-for-in-array and no-unsafe-unary-minus judge types by all their parts", "statement": "If the check of a template ends, the spans reported are exactly those with a union part none of whose intersection parts is allowed by a flag, by a specifier for it or a base, as an array of what is allowed, or as a regular expression; it ends where no array type comes to itself. sort() and toSorted() without arguments are reported exactly on arrays other than, if ignored, arrays of strings. for-in is reported exactly if some type inside has a number index and a numeric length. A minus is reported exactly if some part can not be negated, with the first such named.", "quantifier": "all graphs of types, all options, all spans, all calls, all nested unions and intersections", "why_tests_cant": "Type graphs are unbounded and may be recursive; tests have small ones and none that is recursive.", "anchors": ["internal/rules/restrict_template_expressions/restrict_template_expressions.go:13-91", "internal/rules/require_array_sort_compare/require_array_sort_compare.go:23-53", "internal/rules/no_for_in_array/no_for_in_array.go:21-45", "internal/rules/no_unsafe_unary_minus/no_unsafe_unary_minus.go:12-38", "internal/utils/base_type_utils.go:7-30", "internal/utils/ts_eslint.go:98-145"]}
{"id": "C99", "title": "no-deprecated reports exactly uses that a declaration, an alias on the way, a signature or a property says are deprecated, with the first reason", "statement": "If the search ends, it gives a reason exactly if the signature or symbol of a call, the property of an attribute, what a binding element or shorthand property reads, or a symbol or one of the aliases on the way says so; it ends where no alias comes back to itself, and along a chain the first deprecated one counts. An identifier is reported exactly if it is no declaration, not in an import, deprecated and not allowed; element accesses and properties by the property. The message gives name and trimmed reason of the first deprecated tag.", "quantifier": "all symbols and chains of aliases, all comments and tags, all places of identifiers, all reasons", "why_tests_cant": "Alias chains, declarations and comments are unbounded; tests have chains of a few aliases.", "anchors": ["internal/rules/no_deprecated/no_deprecated.go:13-93", "internal/rules/no_deprecated/no_deprecated.go:101-248", "internal/rules/no_deprecated/no_deprecated.go:345-367", "internal/rules/no_deprecated/no_deprecated.go:463-579", "internal/rules/no_deprecated/no_deprecated.go:591-782", "internal/rules/no_deprecated/no_deprecated.go:784-877"]}
{"id": "C100", "title": "no-meaningless-void-operator reports exactly operands that are always void or undefined, and removes all such keywords in one pass", "statement": "A void expression has a fix exactly if every part of its operand's type is void or undefined, and a suggestion exactly if the option is set, all parts are void, undefined or never and one is only never; no report has both. The fix takes away the keyword alone and keeps what stands behind it; all keywords without meaning of a text, nested or not, go in one pass whatever the order of the reports, and the others stay.", "quantifier": "all types as unions of parts, all texts with any number of void operators in any arrangement, all orders of reports", "why_tests_cant": "Number and nesting of operators and the texts around them are unbounded; tests have one operator.", "anchors": ["internal/rules/no_meaningless_void_operator/no_meaningless_void_operator.go:12-23", "internal/rules/no_meaningless_void_operator/no_meaningless_void_operator.go:31-58"]}
{"id": "C101", "title": "no-deprecated takes for the type destructured the one the names lead to, and leaves what lies in arrays to the checker", "statement": "The type of what a pattern destructures is found exactly if the way from the initializer or parameter down to it is given by written names and first elements, and it is the type where they lead; nested object patterns give the properties in turn. Behind computed names, without initializer and inside elements of arrays the checker is asked. A property of an object literal has a reason exactly if its key is an identifier, a literal or of literal type, the literal's context has a type with that property, and the checker calls it deprecated.", "quantifier": "all nestings of patterns, all types with their properties, all keys", "why_tests_cant": "Nesting of patterns is unbounded; tests nest two or three levels.", "anchors": ["internal/rules/no_deprecated/no_deprecated.go:281-320", "internal/rules/no_deprecated/no_deprecated.go:322-343", "internal/rules/no_deprecated/no_deprecated.go:369-460", "internal/rules/no_deprecated/no_deprecated.go:486-505"]}
{"id": "C102", "title": "no-misused-promises reports exactly the promises it asks for in conditions and logical expressions, whatever was checked before", "statement": "A type counts as a promise exactly if each part has a then some part of which has a signature whose first parameter may be a function. The walk with its memory of checked nodes reports exactly the promises among what gives the value of a condition, first operands of and and or, and other binary expressions; all but the last are tested for truth, and what can be the value of a condition and is no assignment is never missed. Without binary expressions in parentheses nothing is reported twice.", "quantifier": "all trees of expressions with their types, all nestings of parentheses and operators, all parts and signatures", "why_tests_cant": "Nesting and the order of visits are unbounded; tests have a few operators and never parentheses around commas.", "anchors": ["internal/rules/no_misused_promises/no_misused_promises.go:246-305", "internal/rules/no_misused_promises/no_misused_promises.go:307-344", "internal/rules/no_misused_promises/no_misused_promises.go:895-922"]}
{"id": "C103", "title": "no-misused-promises reports an argument that returns a promise exactly if void is noted for it more often than a promise", "statement": "For every call the arguments reported are exactly those that return promises for which more of the types offered by the signatures and the context take void before the first that takes a promise than there are types that take a promise; without types that take promises these are the arguments for which some type takes void, with one signature those whose parameter takes void; they are reported in order, once each. A callback of an array method is reported once if the call has one access as a child.", "quantifier": "all lists of signatures with parameters of their own, rests as arrays and as tuples, all contextual types, all arguments", "why_tests_cant": "Signatures, parameters and arguments are unbounded; tests have two overloads and at most one of them takes a promise.", "anchors": ["internal/rules/no_misused_promises/no_misused_promises.go:121-135", "internal/rules/no_misused_promises/no_misused_promises.go:226-244", "internal/rules/no_misused_promises/no_misused_promises.go:363-381", "internal/rules/no_misused_promises/no_misused_promises.go:448-622"]}
{"id": "C104", "title": "no-misused-promises reports exactly the promise-returning values where void is expected, up to annotations in parentheses", "statement": "For attributes, properties, methods of objects, return statements, assignments, variables and members of classes and interfaces: if the option for the place is on, a message is there exactly if the expected type returns void, never a promise, and the given one can return a promise; members with plain names that are not static are compared with each type of the heritage clauses. Where an annotation decides nothing is reported wrongly, and nothing is missed if the annotation is not in parentheses. Nothing is reported twice; spreads of promises are reported exactly if their option is on.", "quantifier": "all places with all types, annotations, chains of ancestors, members, heritage clauses and options", "why_tests_cant": "Members, heritage types, parts and nestings are unbounded; no test has an annotation in parentheses.", "anchors": ["internal/rules/no_misused_promises/no_misused_promises.go:76-119", "internal/rules/no_misused_promises/no_misused_promises.go:346-361", "internal/rules/no_misused_promises/no_misused_promises.go:390-446", "internal/rules/no_misused_promises/no_misused_promises.go:624-893", "internal/rules/no_misused_promises/no_misused_promises.go:901-953"]}
{"id": "C105", "title": "no-unnecessary-type-assertion leaves the contextual type aside exactly for its reasons: generic calls, overloads, and what is around", "statement": "For every chain of nodes above an assertion: it is in a generic context exactly if some call above it without written type arguments has a generic call signature, is not a method call with the assertion itself as argument, and between them is no function with a block and at most one short one; it is an argument that overloads matter for exactly if only parentheses are between and some signature has no such parameter, or they want different types and the expression does not fit one; the contextual type is left aside exactly for one of ten reasons.", "quantifier": "all chains of ancestors, all signatures with their parameters, all answers of the checker", "why_tests_cant": "Chains and overloads are unbounded; tests have two or three nodes between.", "anchors": ["internal/rules/no_unnecessary_type_assertion/no_unnecessary_type_assertion.go:512-518", "internal/rules/no_unnecessary_type_assertion/no_unnecessary_type_assertion.go:649-666", "internal/rules/no_unnecessary_type_assertion/no_unnecessary_type_assertion.go:750-843", "internal/rules/no_unnecessary_type_assertion/no_unnecessary_type_assertion.go:893-980"]}
{"id": "C106", "title": "For an assertion in nested arrays in an argument, no-unnecessary-type-assertion asks about the right part of the parameter", "statement": "For every nesting of arrays, parentheses and other nodes that are neither functions, calls nor spreads, up to an argument of a call without written type arguments: the answer is yes exactly if the signature the call was instantiated from has type parameters and the type of the parameter (beyond the last: of the last; of a rest the type argument for it), followed down the places in all arrays from the outside in as far as there are elements, contains a type variable; if the outermost array is spread its place counts with the arguments; functions and written type arguments make it no.", "quantifier": "all chains of ancestors, all signatures with chains of targets, all types, all depths", "why_tests_cant": "Depths and tuples are unbounded; tests have one array or two.", "anchors": ["internal/rules/no_unnecessary_type_assertion/no_unnecessary_type_assertion.go:512-518", "internal/rules/no_unnecessary_type_assertion/no_unnecessary_type_assertion.go:668-719", "internal/rules/no_unnecessary_type_assertion/no_unnecessary_type_assertion.go:845-891"]}
{"id": "C107", "title": "no-unnecessary-type-assertion takes a type for unchanged exactly for one of four reasons", "statement": "For every assertion, place, expression and pair of types: the type is taken for unchanged exactly if it is the same; or nothing about the place keeps it and, with exactOptionalPropertyTypes, both are undefined and have the same other parts; or nothing about place, types and expression keeps it and it is T & {} for a type parameter T that is not nullable; or nothing keeps it, no intersection is new, properties and type arguments are the same and both are assignable to each other. The type before the assertion is the type returned for a function called at once, the context free type of calls, else the type at the location.", "quantifier": "all types with all answers of the checker, all chains of ancestors, all expressions", "why_tests_cant": "The reasons combine in more ways than tests can list, and chains of accesses are unbounded.", "anchors": ["internal/rules/no_unnecessary_type_assertion/no_unnecessary_type_assertion.go:246-250", "internal/rules/no_unnecessary_type_assertion/no_unnecessary_type_assertion.go:309-315", "internal/rules/no_unnecessary_type_assertion/no_unnecessary_type_assertion.go:321-439", "internal/rules/no_unnecessary_type_assertion/no_unnecessary_type_assertion.go:461-510", "internal/utils/ts_api_utils.go:9-14", "internal/utils/ts_api_utils.go:22-24"]}
{"id": "C108", "title": "no-unnecessary-type-parameters finds all references to a type parameter and reports exactly those used little, in order", "statement": "For every tree below a signature: the references to a type parameter are all identifiers directly below type nodes with its symbol, except its own name, each once and ordered by position; a type parameter is reported exactly if at most one of them is outside of its declaration and before the body, and the count of uses is known and at most two; the report has its range, says never used for a count of one, is labelled at the first reference or else at the name, and replaces all references by the constraint, or unknown if there is none or any; reports are in the order of the type parameters, at most one for each.", "quantifier": "all trees, all lists of type parameters, all counts, all kinds of signatures", "why_tests_cant": "Trees and lists are unbounded; tests have two type parameters at most and few references.", "anchors": ["internal/rules/no_unnecessary_type_parameters/no_unnecessary_type_parameters.go:16-31", "internal/rules/no_unnecessary_type_parameters/no_unnecessary_type_parameters.go:80-134", "internal/rules/no_unnecessary_type_parameters/no_unnecessary_type_parameters.go:234-299", "internal/rules/no_unnecessary_type_parameters/no_unnecessary_type_parameters.go:560-629"]}
{"id": "C109", "title": "no-unnecessary-condition reports exactly the optional chains on what is not nullish by itself", "statement": "For every type checker, compiler option and expression: a node is reported at most once, exactly if it has a ?., what is before it is not let off (an unguarded read by index that is no number of a tuple, there or, if that has a ?. itself, anywhere before), is not needed (its type is any or variable, or nullish other than by its object or function), and its type without what earlier ?. add is known, not vague and not nullish, and no function called may give nothing; the report is at the ?., its label names that type, or the types of all literal keys, each once. On names the type alone decides; on properties read by ?. from one kind of object the type of the property alone.", "quantifier": "all expressions, all types, all checkers and compiler options", "why_tests_cant": "Types, chains and key lists are unbounded, and what the checker says of each part is free; tests have fixed programs.", "anchors": ["internal/rules/no_unnecessary_condition/no_unnecessary_condition.go:72-77", "internal/rules/no_unnecessary_condition/no_unnecessary_condition.go:93-107", "internal/rules/no_unnecessary_condition/no_unnecessary_condition.go:176-231", "internal/rules/no_unnecessary_condition/no_unnecessary_condition.go:475-519", "internal/rules/no_unnecessary_condition/no_unnecessary_condition.go:537-592", "internal/rules/no_unnecessary_condition/no_unnecessary_condition.go:612-1357", "internal/rules/no_unnecessary_condition/no_unnecessary_condition.go:2011-2050"]}
{"id": "C110", "title": "no-unnecessary-condition reports exactly the type guards that say nothing new and the callbacks that always return the same", "statement": "For every type checker, option, call and callback: with checkTypePredicates, a call of a guard x is T or asserts x is T is reported, once and at the argument, exactly if the guarded argument is before any spread and its type is T; a call of asserts x checks that argument as a condition; otherwise nothing. A callback with several signatures is judged, signature by signature, by what each returns (a type parameter by its constraint) until one has a guard its parameter already satisfies, which is reported at the parameter, or at the callback if that is declared elsewhere; an always truthy or falsy return is reported once, at the body of a function written there, else at the callback, with the type unless it explains itself. An indexed access stands for the property its constrained index names, else for what strings give, else numbers, else itself.", "quantifier": "all calls, arguments, signatures, callbacks, types and checkers", "why_tests_cant": "Arguments, signatures, parameters and types are unbounded and what the checker says is free; tests have fixed programs.", "anchors": ["internal/rules/no_unnecessary_condition/no_unnecessary_condition.go:30-63", "internal/rules/no_unnecessary_condition/no_unnecessary_condition.go:109-136", "internal/rules/no_unnecessary_condition/no_unnecessary_condition.go:169-174", "internal/rules/no_unnecessary_condition/no_unnecessary_condition.go:330-401", "internal/rules/no_unnecessary_condition/no_unnecessary_condition.go:1715-1794", "internal/rules/no_unnecessary_condition/no_unnecessary_condition.go:2106-2207", "internal/utils/ts_eslint.go:38-46"]}
{"id": "C111", "title": "strict-void-return judges what stands where a function without result is expected, once each, and nothing else", "statement": "For every file, checker and option: a report is made of n exactly if a node of the file puts n where a function without result is expected (element of an array that is no spread, body of an arrow function that is no block, right side of an assignment, callback argument, JSX attribute in braces, value of a property, variable or class property, returned expression, method of an object by its name, method or property of a class by what it inherits) and the judgement of n (C83) has that report; if no expression is part of two nodes, each is judged at most once, arguments and elements from left to right; what is reported may return something other than undefined.", "quantifier": "all files as sequences of nodes, all types, signatures, members and functions in them", "why_tests_cant": "Files, argument lists and class hierarchies are unbounded and types are given by any checker; tests have fixed programs.", "anchors": ["internal/rules/strict_void_return/strict_void_return.go:12-31", "internal/rules/strict_void_return/strict_void_return.go:87-131", "internal/rules/strict_void_return/strict_void_return.go:141-191", "internal/rules/strict_void_return/strict_void_return.go:193-216", "internal/rules/strict_void_return/strict_void_return.go:253-296", "internal/rules/strict_void_return/strict_void_return.go:298-360"]}
{"id": "C112", "title": "On a terminal, the files below the tsconfig are linted by every rule and every diagnostic is printed and counted before the run ends with status 0", "statement": "For every set of flags and every behaviour of the system, the program and the linter: a run that gets as far as the linter gives it exactly the files of the program below the directory of the tsconfig and not below a node_modules directory, longest text first, and all 59 rules, whose names differ; if the linter has no error, stdout is the list of the files (if asked for), every diagnostic in its order, the summary with the right numbers and words, and the table of timings (if asked for), and the status is 0; every other run without --help has status 1 and a message on stderr; trace and profile are stopped on every way out exactly if they were started; debug options are accepted exactly if every piece between commas is empty or \"timings\"; the lines of the table are equally long.", "quantifier": "all flags, file systems, programs, linter results, schedules of the printing goroutine, timing records", "why_tests_cant": "Paths, option strings, file lists, diagnostics and failures of the system combine without bound; tests run fixed projects that work.", "anchors": ["cmd/tsgolint/main.go:92-122", "cmd/tsgolint/main.go:162-230", "cmd/tsgolint/main.go:364-397", "cmd/tsgolint/main.go:399-428", "cmd/tsgolint/main.go:430-659"]}
{"id": "C113", "title": "A test of a rule passes exactly if outputs, errors, places and suggestions are what the rule makes of the code", "statement": "For every linter, fixer and set of cases: a case is skipped exactly if it is marked so, or some case is marked to run alone and it is not; otherwise a valid case passes exactly if nothing is reported; an invalid case passes exactly if its outputs are what fixing makes of the code again and again until nothing is fixed (or there are ten of them), its errors are the diagnostics of the code one by one in order with the same ids, the given places counted from 1 and the same suggestions with what each makes of the code, and the snapshot is met; the file linted has the code of the case unless another file of the case has its name.", "quantifier": "all linters as functions, fixers, codes, cases and their files", "why_tests_cant": "The tester is what tests are run with and has no tests of its own; codes, outputs and diagnostics are unbounded.", "anchors": ["internal/rule_tester/rule_tester.go:27-63", "internal/rule_tester/rule_tester.go:65-152", "internal/rule_tester/rule_tester.go:154-171", "internal/rule_tester/rule_tester.go:173-258"]}
{"id": "C114", "title": "The underline in a snapshot marks exactly the columns of the characters in the range", "statement": "For every text, range, marker other than a blank, label and map of positions to places: the lines shown are those from one before the first line of the range to one after its last, as far as there are lines, in order and with their numbers right-aligned; tabs are four blanks; below a line stands an underline exactly if a character of it is in the range, beginning in the column the text begins in, and marking exactly the columns of the characters in the range; after it comes the label. The range begins at its first character that is not blank. In texts whose lines end with \\n alone and with places counted in bytes, a character is marked exactly if its position is in the range.", "quantifier": "all texts, ranges, markers, labels and functions from positions to places", "why_tests_cant": "Texts, line numbers and tabs are unbounded; snapshots only fix the output for the texts of the rule tests.", "anchors": ["internal/rule_tester/snapshot.go:268-296", "internal/rule_tester/snapshot.go:298-352", "internal/rule_tester/snapshot.go:357-368"]}
{"id": "C115", "title": "The snapshot says of each diagnostic its number, id, place, message, help, source, labels and suggestions", "statement": "For every text and list of diagnostics: without diagnostics the snapshot says so; otherwise it is, for each diagnostic in order, its number from 1 and id, and, unless its range is undefined or empty at the start, the places counted from 1 of its first character that is not blank and of its last, its help if it has one and the source with an underline; its message; then for each label its text, places and underlined source; then for each suggestion its number, id and message; with an empty line between diagnostics and no end of line at the end. There is exactly one such text.", "quantifier": "all texts, functions from positions to places, diagnostics, labels and suggestions", "why_tests_cant": "Lists of diagnostics, labels and suggestions, texts and places are unbounded; stored snapshots fix only what the rule tests report.", "anchors": ["internal/rule_tester/snapshot.go:372-411", "internal/rule_tester/snapshot.go:411-425", "internal/rule_tester/snapshot.go:427-457", "internal/rule_tester/snapshot.go:459-466"]}
