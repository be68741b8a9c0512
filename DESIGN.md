# Formal model of tsgolint: design

The subject is the Go code in `/repo` (read as text, never built). The model and
the proofs are in Rocq/Coq 8.16.1 under `rocq/theories` (logical name `Verif`).

## Conventions

* `theories/<Area>.v` - model of the code. Every definition cites the file and
  lines it models; simplifications are stated in the same comment. No proofs.
* `theories/<Area>Spec.v` - the specification the property is stated in. It does
  not use the model's helper functions.
* `theories/<Area>Proofs.v` - lemmas.
* `theories/Props<Area>.v` - the property theorems, each `exact`ly a lemma, with
  an `Example` showing a non-trivial instance and `Print Assumptions`.
* `_refuted` - the property is false of the faithful model; the theorem gives the
  witness. `_partial` - the part that holds; the comment has the full claim.

Nondeterminism of Go is modelled explicitly and never resolved in favour of the
code: goroutine schedules are arbitrary lists of scheduling choices, map
iteration is an arbitrary permutation, `slices.SortFunc`/`sort.Slice` (not
stable) is an arbitrary sorted permutation, panics are explicit results.
Recursion on possibly cyclic data uses fuel with an explicit out-of-fuel result
and a theorem that the stated fuel suffices.

## Per property

| id | what is modelled | how it is proved |
|----|------------------|------------------|
| C01 | `writeMessage`, bufio.Writer, writer goroutine, main goroutine success path as bytes | invariant "written = out ++ buffer", then an independent decoder inverts the concatenation |
| C02 | same system with the error path | refuted by a concrete schedule; the safe special case is `_partial` |
| C03 | whole pipeline: workers, bounded channel, writer | multiset invariant over all steps |
| C04 | same | progress + decreasing measure |
| C05 | worker pool over the two closed channels | invariant (linted + in progress + queued = input as multisets) |
| C06 | same | invariant NoDup(checkers held + queued) |
| C07 | same plus per-file engine | permutation of the concatenation of per-file results |
| C08 | same | measure |
| C09 | per-file engine: registry map, rule state machines, map iteration permutations | simulation of the joint run by solo runs |
| C10 | same with the mutable builder | invariant on builder fields at emission |
| C11 | same | registry lookup = filter of config order |
| C12 | timed engine | bisimulation timed/untimed, counting lemma |
| C13 | timing store | commutative monoid of finite maps, uniqueness of sorted permutation for a strict total order |
| C14 | `visitLintNodes` on an abstract AST | mutual structural induction, bracket language |
| C15 | same | refuted (computed key in destructuring assignment); partial on trees without such keys |
| C16 | same | refuted for nested defaults and loop initialisers; partial on the rest |
| C17 | event code arithmetic in int16 | arithmetic |
| C18-C20 | `ApplyRuleFixes` with oracle sorts and panics | induction on the greedy loop; edits compared with an independent "edit script" semantics |
| C21 | report methods of the builder, headless conversion | case analysis + relation between two runs |
| C22 | `FindTsConfigParallel` as goroutines and channels | invariant over schedules |
| C23, C24 | `findConfigWithReferences`, `FindTsconfigForFile` over an abstract config graph | via the search theorem; C24 refuted |
| C25 | `BreadthFirstSearch` | level invariant; simulation by a one-queue search |
| C26, C27 | `runHeadless` assignment, rule selection, `RunLinter`, on top of the parallel lookup of C22 (Run.v) | finite map reasoning for all schedules, iteration orders and sorts; a completion theorem shows the success case is reachable; refuted where the compiler renames a file without config |
| C28 | `deserializePayload`, `getPayloadVersion` on parsed JSON documents (Payload.v); the JSON library by its documented rules | the decoder equals a relational reading of documents (PayloadSpec.v); version 1 equals decoding of its version-2 translation; slice stores shown in range |
| C29 | `overlayFS`, `OverlayVFS` over any file-system state machine (Overlay.v) | simulation over all operation sequences: same disk state, same answers except reads of overridden paths; four refutations (Stat/listing, write-then-read, backslash keys, repeated names) |
| C30 | `QuoteSingleStringLiteral`, `writeUnicodeEscape` on bytes (Quote.v), UTF-8 (Utf8.v); ECMAScript literal grammar (JsText.v) with an equivalent executable reader (JsTextProofs.v) | induction over the code points; the literal is read back by the grammar to the UTF-16 of the text |
| C31 | `UnmarshalJSON`, `MarshalJSON`, `ConvertTypeOrValueSpecifier` (Specifier.v) on the JSON values of Payload.v | meaning of a document as a relation on members, case analysis; permutations of members for the round trip (PropsSpecifier.v). Refuted: bare specifier with a path, same documents for both readers |
| C32 | the thirty generated options.go as tables, the decoder of the options struct, `UnmarshalOptions`, `BoolOr`, and the readers of untyped options (Options.v) | documented properties transcribed from the schema.json files (OptionsSchema.v); a decoding relation per field, and compatibility of every table with its schema by a tactic (PropsOptions.v); round trip of structs, untyped options (PropsOptionsUse.v). Two refutations |
| C33 | `isUnsafeAssignmentWorker` with its visited pairs on abstract type graphs (UnsafeAny.v) | any-flow as an inductive relation; depth-first search invariant: all finished pairs have their successors settled; the number of unvisited pairs bounds the fuel. Equal arity and finiteness are hypotheses, both shown necessary |
| C34 | `compareSnapshotKeys`, `parseSnapshotFile`, `write`, `matchSnapshot` (Snapshot.v); the map order and the sorting algorithm are parameters | keys read as numbers and bytes (a relation), lexicographic order on what is read (PropsSnapshotOrder.v); leftmost cutting at the separator, lengths of pieces for the converse, run invariant (PropsSnapshotFile.v). Refuted: contents with a line ending in three dashes do not survive |
| C35 | `reportTypeScriptDiagnostics` (TsDiag.v), alone and inside a run | exact shape of the report by induction; decimal numeral specification for the ids |
| C36 | the whole rule on expressions without parentheses: literal splitting, text of a pattern, Go quoting, static evaluation, length forms, every comparison, texts of two fixes (StartsEnds.v); string methods (JsString.v), regular expressions (JsRegex.v), literals (JsText.v) | pattern and written literal read to the same units, hence test = startsWith/endsWith (code points for u/v); comparisons by list lemmas; the excluded cases are refuted by witnesses; documented forms are shown to be rewritten |
| C37 | literal check, extraction, quoting and comparison forms of the rule (Includes.v); regular expressions of literal characters (JsRegex.v) and string literals (JsText.v) from the ECMAScript grammar | induction over the pattern: regex and inserted literal read to the same code units, hence test = includes; refuted for escaped backslash/apostrophe, constructor line breaks and flags, reassigned variables; index comparisons exact in both directions, array semantics partial (NaN, holes, optional call refuted) |
| C38 | the whole span check with the positions of its edits (Template.v), on top of `ApplyRuleFixes` (Fixer.v); templates from the ECMAScript grammar with opaque interpolations (JsTemplate.v) | the fixer applies edits that stay clear of each other in one pass (FixerDisjoint.v); the result is computed chunk by chunk (TemplateEditProofs.v) and read by the grammar with backslash parity and dollar/brace adjacency (TemplateValueProofs.v); exact criterion for reports; excluded cases refuted by witnesses |
| C39 | type-part analysis with the Go map iteration as an arbitrary permutation, `checkCondition`, the traversal with its visited set, the asserted-argument search (StrictBool.v) over a shared model of types (Types.v) | the variant of a list is characterised by its set of member variants (StrictBoolProofs.v); table of verdicts; invariant of the visited set over parents-first visits (StrictBoolWalk.v) |
| C40 | metadata of a switch on type objects (TypeRecurser, case types by identity, default comments), the three reports, the suggested clauses as text and edits (Switch.v) | members of a type as an inductive relation, the missing list as the kept sub-list; values through Types.v; text layout by splicing, message literals read by the JsText.v grammar; NaN, enum numbers, duplicates, lost comments refuted |
| C41 | `CreateProgram`, `enhanceHelpDiagnosticMessage` (TsDiag.v) | case analysis; substring search proved against `exists a c, msg = a ++ sub ++ c` |
| C42 | recursion of the same rule through declarations, with fuel (StartsEnds.v) | the answer exists for some fuel iff the chain of initializers ends; refuted for cyclic declarations |
| C43 | values of types (Types.v), same model as C39 | by cases of the verdict table; exceptions refuted by witnesses |
| C44 | operational semantics of switch clauses with fall-through (PropsSwitchText.v), insertion points from C40 | induction on the clauses run; fall-through into the new clauses refuted |
| C45 | type_matches_specifier.go 146-443 and 516-625 (SpecMatch.v); `package.json` reading, the current directory and path resolution are parameters; names with drive letters are not modelled | paths as segments (a relation, unique), innermost package, nearest named directory by induction from the end (PropsSpecMatch.v); sources and matches as predicates on declarations (PropsSpecSource.v). Six refutations |
| C46 | cmd/tsgolint/main.go 232-362: `printDiagnostic` (Print.v); escape sequences left out, 64-bit wrap-around of the sum with MaxInt kept; line lookup of typescript-go from memory, the end of the last line a parameter | texts as lists of lines, rows as a relation over the line (PrintSpec.v); scan over runes (PrintProofs.v), box (PrintBoxProofs.v), rows (PrintRowProofs.v), claims and four refutations (PropsPrint.v) |
| C47 | no_unnecessary_boolean_literal_compare.go and `IsStrongPrecedenceNode` (BoolCompare.v); nodes are trees of tokens, white space left out; fixes go through the model of the fixer (Fixer.v) | grammar, parser and evaluation of expressions as a specification (JsExpr.v); printing and reading back, contexts (JsExprProofs.v); order of fixes with a stable sort (FixOne.v); new text and its value (BoolCompareProofs.v, PropsBoolCompare.v) |
| C48 | consistent_return.go (ConsistentReturn.v): state per function with the memo, search for void in a graph of types; files as trees of the nodes listened to | own returns of a function, reports up to order, silence as a condition on functions; depth-first search against an inductive relation (PropsConsistentReturn.v) |
| C49 | require_await.go and `TypeRecurser` (RequireAwait.v): scopes, text edits of the suggestion | never waits, as a condition on the nodes of a function; the attribution of the language with a refutation; edits applied by the model of the fixer (PropsRequireAwait.v) |
| C50 | no_unnecessary_type_conversion.go, `IsStrongPrecedenceNode` (TypeConversion.v): the nodes reported, their ranges, both suggestions, over token texts; [type_of] and the library symbols are parameters | grammar, parser, contexts and evaluation of JavaScript expressions (Js.v, JsProofs.v: what is printed is read back, a tree may take the place of one that binds no tighter, equal values in equal contexts); five refutations (PropsTypeConversion.v) |
| C51 | no_duplicate_type_constituents.go (DuplicateTypes.v): the recursion with its cache, reports, messages, listeners, and the fix generator over a model of the scanner; type identities are data of the nodes | visited constituents as an inductive set, outcomes from the order of paths, the text around a constituent by induction on its path, values of a type by a covering argument along the order of visits (DuplicateTypesSpec.v, DuplicateTypesProofs.v, DuplicateTypesFix.v, PropsDuplicateTypes.v); three refutations |
| C52 | dot_notation.go (DotNotation.v): reserved words, names, allowances, messages, and both fix generators over a model of SkipTrivia; what the checker says about a property is data | reports as conditions on names and declarations; texts as pieces with a longest-match condition, accesses as chunks of pieces, the fixes of all chunks as one edit script (DotNotationSpec.v, DotNotationProofs.v, DotNotationFix.v, PropsDotNotation.v; FixMany.v: messages with touching fixes are applied in one pass); three refutations |
| C53 | no_redundant_type_constituents.go (RedundantTypes.v): parts of constituents, both listeners, messages; TypeToString, %q, map order and the boolean type are parameters | reports as an inductive specification over constituents by meaning, NoDup; unions and intersections as sets of values with a separate any, constituents left out by index set (RedundantTypesSpec.v, RedundantTypesProofs.v, RedundantTypesMeaning.v, PropsRedundantTypes.v); six refutations |
| C54 | no_unnecessary_condition.go (Condition.v): types always truthy or falsy, tests, left sides of ??, comparisons, loops, callbacks of array methods, reports with labels; the checker is a parameter; optional chains and calls of type guards left out | values of types, evaluation of expressions with chains as an inductive relation, a checker right but for missing elements (record `sound`), claims of reports, questions asked by statements (ConditionSpec.v, ConditionProofs.v, ConditionRuleProofs.v, PropsCondition.v); eight refutations over a program and a checker shown right |
| C55 | no_floating_promises.go (Floating.v) over the trees of Js.v: types of promises, thenables and arrays, handlers, search for a promise without one, messages, suggestions as tokens; the checker is a parameter | evaluation to handled and unhandled promises as an inductive relation, values left over by a statement and inside it, a checker right within the statement, places, `before`/`swapped` for suggestions (FloatingSpec.v, FloatingProofs.v, PropsFloating.v); FloatingWorlds.v has worlds in which the assumptions are computed, for examples and five refutations |
| C56 | prefer_readonly.go (Readonly.v): trees of nodes named by their paths, stack of scopes, search among base types, relation to the class, declarations, destructuring, reports and fixes; types and symbols are parameters | places, own accesses of a class, accesses directly in the constructor, writing as an inductive relation (also patterns), derivation of types, last declaration of a name, expected reports (ReadonlySpec.v, ReadonlyProofs.v, PropsReadonly.v); the visit is a fold over the events of each class |
| C57 | prefer_readonly_parameter_types.go (Params.v): the recursion over types with the set of types seen, arrays and tuples, properties, index signatures, brands, parameters and options; types are numbers with what the checker says of them | flawed types, steps, reachability, ending, brands, wanted parameters (ParamsSpec.v, ParamsProofs.v, PropsParams.v); invariant: each type seen is free of flaws itself, or being worked on, or all it leads to is seen; ending by the number of unseen types and the height of arrays |
| C58 | no_base_to_string.go (Stringify.v): both memos with values and what is being resolved, visited types, verdicts for unions, intersections, tuples, arrays and methods, join, the sites and messages; types are numbers with what the checker says of them | verdicts as inductive relations without memos (with a set of types that may be let pass), parts, acyclic types, values and how they are converted, sites (StringifySpec.v, StringifyProofs.v, PropsStringify.v); invariant: all memoized values are verdicts in which circles may be let pass, what is being resolved contains the type asked about |
| C59 | prefer_nullish_coalescing.go (Nullish.v): similarity of accesses, tests, contexts, eligible types, options, the edits of || and ||=, the sides of new ?? and ??= | evaluation with effects, short circuits and exceptions, values of types, forms that accesses read, which expressions can be written where, when reports are due (NullishSpec.v, NullishProofs.v, PropsNullish.v); texts as token lists with unique reading |
| C60 | prefer_optional_chain.go (OptChain.v): operands, comparison of nodes, chains of &&, when they are reported, the parts and text of the new chain, fix or suggestion | evaluation of expressions with optional chains and exceptions but without effects, values of types, binding strength and unique reading of texts, accesses, guards, options (OptChainSpec.v, OptChainProofs.v, OptChainReport.v, OptChainReading.v, PropsOptChain.v) |
| C61 | prefer_optional_chain.go (OptChain.v): chains of \|\|, when they are reported or cut short, the comparison after the new chain, fix or suggestion | as for C60; operands that hold when an access gives nothing, comparisons that hold for undefined, which steps have ?. (OptChainOrSpec.v, OptChainOr.v, PropsOptChainOr.v) |
| C62 | prefer_optional_chain.go handleEmptyObjectPattern (OptEmpty.v): which access is replaced, by what text, fix or suggestion | expressions, texts, levels and evaluation as for C60; the pattern as a relation, further steps, an object that lacks a property (OptEmptySpec.v, OptEmptyProofs.v, PropsOptEmpty.v) |
| C63 | return_await.go (ReturnAwait.v): try statements and using declarations around a returned expression, the option, tests of conditional branches, new texts; traversal with nested functions | effects on an arbitrary state, statements run with fuel, promises taken over at the end of a call; places as holes, affected places, kinds of places (ReturnAwaitSpec.v, ReturnAwaitProofs.v, PropsReturnAwait.v) |
| C64 | consistent_type_exports.go (TypeExports.v): alias chains, specifiers and their texts, messages, labels, edits of named and star exports | scanner of bytes into tokens, reader of export declarations as TypeScript reads them, exports, what is left in JavaScript, loaded modules; what symbols stand for as an inductive relation (TypeExportsSpec.v, TypeExportsProofs.v, PropsTypeExports.v) |
| C65 | prefer_find.go (PreferFind.v): static values, numbers of strings, property names, zero tests, types of arrays, filter calls, the scan for the access, edits | StringToNumber of ECMA-262, values of index expressions as an inductive relation, white space and comments as a grammar, edited texts, evaluation with effects, exceptions and optional chains (PreferFindSpec.v, PreferFindProofs.v, PropsPreferFind.v). strconv.ParseFloat and names of numbers are parameters |
| C66 | no_confusing_void_expression.go (VoidExpr.v): search for the parent that uses a value, functions that return void, messages, fixes as token lists | use of values from the outside as an inductive relation, grammar of statements, binding strengths, evaluation with effects and exceptions, completions (VoidExprSpec.v, VoidExprProofs.v, PropsVoidExpr.v). Types of expressions and whether a return is the last statement are parameters |
| C67 | no_useless_default_assignment.go (UselessDefault.v): property names, initializers, types of patterns through their parents, reports on elements and parameters, removed ranges as token positions | types of patterns from outside as an inductive relation, destructuring with effects, exceptions and getters, types as any oracle that is right about values (an instance is proved right), texts of patterns (UselessDefaultSpec.v, UselessDefaultProofs.v, PropsUselessDefault.v). Iterators are reduced to access by index |
| C68 | no_unsafe_argument.go (UnsafeArgument.v): the cursor over parameters and rest types, skipped arguments, spreads, tags | values passed by a call and parameters that receive them as relations over tuple types with optional and variable elements (UnsafeArgumentSpec.v, UnsafeArgumentProofs.v, PropsUnsafeArgument.v). IsUnsafeAssignment is any relation here (C33 is about it); which parameters a signature has is taken from the checker |
| C69 | no_unsafe_assignment.go (UnsafeAssignment.v): destructuring of arrays, tuples and objects with the results the functions return, skipped values, outcomes of assignments, members of object literals, the token of the diagnostic | flow of any into parts of patterns as an inductive relation (UnsafeAssignmentSpec.v, UnsafeAssignmentProofs.v, PropsUnsafeAssignment.v). Labels and texts of types are left out |
| C70 | no_unsafe_enum_comparison.go, static_value.go, suggestion.go, string_literal.go (EnumComparison.v): value types of enums, mismatches, static values, member names and qualifiers, quoting | values of expressions as a relation, a scanner of string literals, comparisons that run operands in order with effects and throwing (EnumComparisonSpec.v, EnumComparisonProofs.v, PropsEnumComparison.v). Numbers are any type with negation, addition, equality and text; symbols of accesses and constant values of members are taken from the checker |
| C71 | no_unnecessary_type_parameters.go (TypeParameters.v): visiting types with counts, visited constraints and defaults, early stopping, nodes of classes, repeated references | uses as an inductive relation over finite parts of the unfolded graph of types, hooks (constraints and the default) each once (TypeParametersSpec.v, TypeParametersProofs.v, PropsTypeParameters.v). The graph of types is what the checker says; types of nodes and signatures from declarations are given as roots |
| C72 | no_unnecessary_type_parameters.go (TypeParametersFix.v): ranges of removed type parameters, complex constraints, places with parentheses | lists of type parameters with trivia as text; types with printing and precedence (TypeParametersFixSpec.v, TypeParametersFixProofs.v, PropsTypeParameters.v). Unions and intersections are binary; reading is given by the precedence of the grammar, not by a parser |
| C73 | no_unnecessary_qualifier.go (UnnecessaryQualifier.v): the stack of declarations, the marked access, symbols in scope | where nodes are as paths, meanings of names as innermost symbols, aliases as a relation (UnnecessaryQualifierSpec.v, UnnecessaryQualifierProofs.v, PropsUnnecessaryQualifier.v). What the checker says of symbols is given; GetSymbolsInScope is assumed to keep the innermost symbol with one of the flags |
| C74 | no_mixed_enums.go (MixedEnums.v): kinds of members, the first declaration, the loop over members | numbers and strings as relations, enums as the members of all their declarations (MixedEnumsSpec.v, MixedEnumsProofs.v, PropsMixedEnums.v). Members() of a namespace is assumed to be empty |
| C75 | related_getter_setter_pairs.go, GetNameFromMember of ts_eslint.go (AccessorPairs.v): names, the two maps | getters and setters by position, keys of properties (AccessorPairsSpec.v, AccessorPairsProofs.v, PropsAccessorPairs.v). Types and assignability are given; the type of a getter is the one that is written |
| C76 | no_unnecessary_type_arguments.go (TypeArguments.v): declarations sorted by place, types compared by target and arguments, inference of constructors, removed ranges | types with substitution, defaults filled in, inference by candidates, declarations as relations (TypeArgumentsSpec.v, TypeArgumentsProofs.v, PropsTypeArguments.v). slices.SortFunc is any function that sorts; inference is any choice of candidates for type parameters that the arguments may say something of |
| C77 | unbound_method.go (UnboundMethod.v): the loop over the nodes above, declarations with their first parameter, natively bound members, sources of pattern properties | how places treat a reference (an inductive relation that knows references and values), declarations, first dangerous source (UnboundMethodSpec.v, UnboundMethodProofs.v, PropsUnboundMethod.v). What the checker says of symbols and types is given; typescript-go's notion of logical operators (&& and ||) and assignments is assumed as stated |
| C78 | promise_function_async.go (PromiseFunction.v): promises by name through unions, intersections and bases, the loop over signatures, hybrid unions, the inserted keyword | values as sets of names of types they belong to, promises as values with an allowed name, tokens of headers (PromiseFunctionSpec.v, PromiseFunctionProofs.v, PropsPromiseFunction.v). The types of signatures are given |
| C79 | restrict_plus_operands.go (PlusOperands.v): invalid flags and parts, mismatches, the text of the help, operators | kinds of values and of which types they are, pairs that belong together (PlusOperandsSpec.v, PlusOperandsProofs.v, PropsPlusOperands.v). Literal types are widened, enums are numbers or strings, and the identity of both types is given |
| C80 | await_thenable.go (AwaitThenable.v): needs of await by constraints and parts, aggregators, loops, declarations, removed tokens | exact values of types, what iterations give, results of loops, ends of statements (AwaitThenableSpec.v, AwaitThenableProofs.v, PropsAwaitThenable.v). Whether a type is thenable is given; properties of unions and constraints as in typescript-go |
| C81 | prefer_regexp_exec.go (RegexpExec.v): flags of literals, static values, sure absence of g, which fix, its text | a scanner of literals, patterns as characters and escapes, values of arguments, results of match and exec (RegexpExecSpec.v, RegexpExecProofs.v, PropsRegexpExec.v). Names of types are given, and whether regexp2 compiles a pattern; identifiers carry their initializer |
| C82 | prefer_return_this_type.go (ReturnThis.v): the search in written types, the loop over returns, members, the replaced type | places, values that written types take, references and their order (ReturnThisSpec.v, ReturnThisProofs.v, PropsReturnThis.v). Types of returned expressions are given; both readings of SkipParentheses for types are covered |
| C83 | strict_void_return.go (VoidReturn.v): which types allow and expect, the visit of return statements, what is reported of a function, arguments, members | values of result types, returns that belong to a function, inferred results, places after spreads (VoidReturnSpec.v, VoidReturnProofs.v, PropsVoidReturn.v). Types and contextual types are given; the list of listeners and names of object members are not modelled |
| C84 | non_nullable_type_assertion_style.go (NonNullStyle.v): parts, sets, the comparison, positions of the fixes | values of types, source texts and the text that should result (NonNullStyleSpec.v); pieces of text that are kept or exchanged, with the fixer of C01 (FixPieces.v, NonNullStyleProofs.v, PropsNonNullStyle.v). ast.IsAssertionExpression is not in the repository: both readings are covered |
| C85 | no_array_delete.go (ArrayDelete.v): the underlying type, parentheses, tokens at positions, the fixes | values of types, files as tokens and space, the text that should result (ArrayDeleteSpec.v, ArrayDeleteProofs.v, PropsArrayDelete.v, with FixPieces.v). Types are given; the scanner is a list of tokens |
| C86 | prefer_reduce_type_parameter.go (ReduceParam.v): the conditions, the recursion in types, positions of the fixes | types inside others, values, source texts for both forms of assertions (ReduceParamSpec.v, ReduceParamProofs.v, PropsReduceParam.v, with FixPieces.v). Types, names of properties and assignability are given |
| C87 | no_unsafe_member_access.go (MemberAccess.v): states, the cache, listeners in the walk of the linter, the search for this | unsafe accesses and their origins without a cache, nodes in a file (MemberAccessSpec.v, MemberAccessProofs.v, PropsMemberAccess.v). Types are given; the words of the messages are not modelled |
| C88 | use_unknown_in_catch_callback_variable.go (UseUnknown.v): signatures, the collection of functions, conditions of calls, advice, positions of fixes, panics | functions an expression may be, first types, handlers, source texts (UseUnknownSpec.v, UseUnknownProofs.v, PropsUseUnknown.v, with FixPieces.v). Types, names of properties and thenables are given |
| C89 | no_misused_spread.go (MisusedSpread.v): questions to types, their recursion, order of messages, containers, positions of fixes | parts of types, messages with their order, source texts (MisusedSpreadSpec.v, MisusedSpreadProofs.v, PropsMisusedSpread.v, with FixPieces.v). What is known of a type without parts, allowed types and precedences are given |
| C90 | builtin_symbol_likes.go (BuiltinLike.v): files of the library, the recursion with its three answers, its uses | least relations on the graph of types (BuiltinLikeSpec.v, BuiltinLikeProofs.v, PropsBuiltinLike.v). Constraints, bases, symbols and paths of libraries are given |
| C91 | no_unnecessary_type_assertion.go 170-307 (TypeContains.v): the search with its seen types and active signatures, comparisons of arguments, parts and properties | reachability, origins of signatures, sets (TypeContainsSpec.v, TypeContainsProofs.v, PropsTypeContains.v). Types, signatures and targets are given |
| C92 | no_unnecessary_type_assertion.go 520-647, 1058-1068, 1151-1158 (AssertionFix.v): scanning of white space by bytes, last indices, ranges of fixes | source texts as pieces (AssertionFixSpec.v, AssertionFixProofs.v, PropsAssertionFix.v, with FixPieces.v). Positions of tokens and nodes are given |
| C93 | no_unnecessary_type_assertion.go 75-146, 449-459, 996-1236 (AssertionCheck.v): non-null marks, variables that may be unassigned, the order of the checks, the search of constraints | parts of types, containers, reachability (AssertionCheckSpec.v, AssertionCheckProofs.v, PropsAssertionCheck.v). Answers of the checker about single types are given |
| C94 | no_implied_eval.go 26-131 (ImpliedEval.v): names of callees, what is a function, the two reports | relation of what a callee means and what gives a function (ImpliedEvalSpec.v, ImpliedEvalProofs.v, PropsImpliedEval.v). Types and symbols are answers of the checker |
| C95 | only_throw_error.go 28-158, prefer_promise_reject_errors.go 17-106 (ThrowError.v): caught values, the order of the checks, callees that reject | relations of caught values and rejecting callees (ThrowErrorSpec.v, ThrowErrorProofs.v, PropsThrowError.v). Whether types are like errors or promises is given (C90) |
| C96 | no_unsafe_return.go 14-230, ts_eslint.go 270-287, 431-449, 504-562, ts_api_utils.go 91-117 (UnsafeReturn.v): the search with visited types, collected signatures, this, checks, messages, labels | kinds of types, lists of signatures, what agrees (UnsafeReturnSpec.v, UnsafeReturnProofs.v, PropsUnsafeReturn.v). Unsafe assignments are given (C33), types are answers of the checker |
| C97 | no_unsafe_call.go 12-128, no_unsafe_type_assertion.go 14-180 (UnsafeCall.v): checks, messages, reported nodes, labels | expressions from this, opaque functions, narrower types (UnsafeCallSpec.v, UnsafeCallProofs.v, PropsUnsafeCall.v). Types, assignability and unsafe assignments (C33) are answers; tokens are answers of a scanner |
| C98 | restrict_template_expressions.go 13-91, require_array_sort_compare.go 23-53, no_for_in_array.go 21-45, no_unsafe_unary_minus.go 12-38, base_type_utils.go 7-30, ts_eslint.go 98-145, utils.go 50-61 (TypeParts.v): searches through parts, bases, element types, names | allowed types, string types, parts (TypePartsSpec.v, TypePartsProofs.v, PropsTypeParts.v). Types are a graph of the answers of the checker, specifiers (C31) are given |
| C99 | no_deprecated.go 13-93, 101-248, 322-367, 463-877 (Deprecated.v): comments, alias chains, calls, bindings, declarations, imports, exports, messages | reasons, paths of aliases, what says so, trimmed texts (DeprecatedSpec.v, DeprecatedProofs.v, PropsDeprecated.v). Symbols, the type a pattern reads (371-460) and specifiers (C31) are given |
| C100 | no_meaningless_void_operator.go 12-23, 31-58 (VoidOperator.v): tests on the parts, messages, fix, suggestion | parts of types, texts of segments, texts read otherwise (VoidOperatorSpec.v, VoidOperatorProofs.v, PropsVoidOperator.v). Types and their names are given; the operand starts right behind the keyword |
| C101 | no_deprecated.go 281-343, 369-460, 486-493 (PatternSource.v): nodes above a pattern, type destructured, keys | ways of names, nested patterns, trees of the parser (PatternSourceSpec.v, PatternSourceProofs.v, PropsPatternSource.v). Types of properties and the checker's own answer are given |
| C102 | no_misused_promises.go 246-305, 307-344, 895-922 (PromiseTests.v): promise types, checkConditional with its memory, listeners, walk | values of expressions, what is tested, what is asked (PromiseTestsSpec.v, PromiseTestsProofs.v, PropsPromiseTests.v). Types are given; nodes have numbers of their own; nodes are entered before their children |
| C103 | no_misused_promises.go 121-135, 226-244, 363-381, 448-622 (VoidArgs.v): void and promise types, the two lists of positions, striking out, reports; array predicates | types offered for a position and their counts (VoidArgsSpec.v, VoidArgsProofs.v, PropsVoidArgs.v). Return types and contextual types are given; labels of messages are left out |
| C104 | no_misused_promises.go 76-119, 346-361, 390-446, 624-893, 901-953 (VoidPlaces.v): options, annotations, checks of all places, listeners | what is expected at a place, annotations that can be called, honest types (VoidPlacesSpec.v, VoidPlacesProofs.v, PropsVoidPlaces.v). Types are given; that the table of a symbol holds type parameters is taken from typescript-go |
| C105 | no_unnecessary_type_assertion.go 512-518, 649-666, 750-843, 893-980 (AssertionContext.v): ancestors, generic contexts, overloads, properties, all reasons to leave the contextual type aside | calls that count, types wanted, reasons (AssertionContextSpec.v, AssertionContextProofs.v, PropsAssertionContext.v). Answers of the checker are given |
| C106 | no_unnecessary_type_assertion.go 512-518, 668-719, 845-891 (NestedArrays.v): path of element places, spread offset, parameter and its elements | elements, paths, types wanted as relations (NestedArraysSpec.v, NestedArraysProofs.v, PropsNestedArrays.v). Whether a type contains a type variable is given |
| C107 | no_unnecessary_type_assertion.go 246-250, 309-315, 321-439, 461-510 (Unchanged.v): unchanged types, written receivers, brackets, literals, the type before | reasons by place and by type, what leaves a type (UnchangedSpec.v, UnchangedProofs.v, PropsUnchanged.v). Answers of the checker, same parts, properties and type arguments are given |
| C108 | no_unnecessary_type_parameters.go 16-31, 80-134, 234-299, 560-629 (ParameterUses.v): walk over trees, sort, start of the body, candidates, reports | all nodes, those that refer, two of them that count (ParameterUsesSpec.v, ParameterUsesProofs.v, PropsParameterUses.v). Counts are given (TypeParameters.v) |
| C109 | no_unnecessary_condition.go 475-519, 537-592, 612-1357 (ChainCheck.v): checkOptionalChain and all its helpers, on types and expressions of Condition.v | alternatives of types, relations for calls, names, keys and the type before a ?. (ChainCheckSpec.v, ChainCheckProofs.v, PropsChainCheck.v) |
| C110 | no_unnecessary_condition.go 330-401, 1715-1794, 2106-2207 (GuardCalls.v): checkTypePredicateCallExpression, checkPredicateFunction, checkCallExpression, resolveIndexedAccessType, getResolvedType | arguments before a spread, needless guards, places and words, and a relation for indexed accesses (GuardCallsSpec.v, GuardCallsProofs.v, PropsGuardCalls.v) |
| C111 | strict_void_return.go 12-31, 87-131, 141-191, 193-216, 253-296, 298-360 (VoidReturnPlaces.v): all listeners, names of members, words | an inductive relation of what is judged at a node, the parts of nodes, spelled names (VoidReturnPlacesSpec.v, VoidReturnPlacesProofs.v, PropsVoidReturnPlaces.v; in seeded/LOG.jsonl the proofs of C111 are named after the files VoidPlaces*.v they were in first) |
| C112 | main.go 92-122, 162-230, 364-659 (Terminal.v): the whole run as a list of writes and profile events with a status | pieces between commas, kept and sorted files, nested profiles, lines of the table (TerminalSpec.v, TerminalProofs.v, PropsTerminal.v) |
| C113 | rule_tester.go 27-258 (RuleTester.v): outcome of each case | chains of fixes, agreement of expected and reported (RuleTesterSpec.v, RuleTesterProofs.v, PropsRuleTester.v) |
| C114 | snapshot.go 268-368 (SourceUnderline.v): renderSourceAnnotation, adjustForTabs | columns covered by characters, places between others (SourceUnderlineSpec.v, SourceUnderlineProofs.v, PropsSourceUnderline.v) |
| C115 | snapshot.go 370-466 (SnapshotText.v): formatDiagnosticsSnapshot | what is said of one diagnostic, texts joined (SnapshotTextSpec.v, SnapshotTextProofs.v, PropsSnapshotText.v) |

## Trusted base

* The Coq 8.16.1 kernel (and `vm_compute` where used in Examples).
* Every property theorem is followed by `Print Assumptions`; the target is
  "Closed under the global context" for all of them.
* The hand translation from Go to Gallina. Not modelled: the TypeScript type
  checker, parser and scanner (typescript-go), the operating system, the Go
  runtime's memory model below channel/mutex level, the JSON library's
  tokenizer, logging, profiling. They appear as parameters of the model
  (arbitrary functions), so theorems hold whatever they compute, unless a
  hypothesis in the theorem says otherwise.

## Mutation log

`seeded/LOG.jsonl` has one line per attempt, including edits that turned out to
break no claim and edits that left the development unbuildable (field `note`).
`theorems_failed` lists the property theorems that depend on a proof that no longer
goes through, not only theorems shown false. A proof script can also fail because
the text of the model changed, so a listed theorem is evidence only if the claim in
`claim_broken` really is broken by the edit; where that was checked and found not to
be the case, `note` says so.
