# Formal model of cypher-go-dsl

A Rocq (Coq 8.16.1) model of the Go package `cypher` in /repo and theorems about it.
Sources are in `rocq/theories`, logical name `Verif`. Only the Coq standard library is used.

## Trusted base

* Coq's kernel (8.16.1) and the standard library.
* `Print Assumptions` is run beside every headline theorem (`Properties*.v`); it prints
  "Closed under the global context" for each of them. The development adds no axiom.
  (`coqchk` and `vcheck` also list seven entries `Coq.ssr.ssrunder.Under_rel.*`: fields of a
  module type of the standard library's ssreflect files, which `Lia` loads. No theorem uses
  them.)
* The faithfulness of the hand-written model to the Go text, definition by definition. Every
  definition of the model cites the file and lines it models and says where it simplifies.
* The specification files (`Spec*.v`): lexers, white space, documents and printer, a
  precedence parser with a three-valued semantics, decimal numerals and rounding, maps, builder phrases, paths, brackets,
  immutable programs, the operator grammar, intended texts of calls. Theorem statements use these and the model's entry points.

## Modelling decisions

* Go strings are byte strings: Coq `string`. `range` over a string decodes UTF-8 as Go does
  (invalid bytes give U+FFFD of width one).
* `unicode.IsLetter`/`IsDigit` above ASCII and the generated name (`xid`) are fields of an
  environment record `env`; every theorem quantifies over it. No property of them is assumed.
* Addresses (`getAddress`, `%p`) are the *keys* of elements: arbitrary strings, arguments of
  the modelled constructors. Theorems that need distinct identities say so in a hypothesis
  (`well_keyed`); Alloc.v models how keys come about and AllocProofs.v shows that statements
  built while no address is reused satisfy it. C06 and C07 are about this.
* The elements that a renderer visits are the inductive types `expr` and `query`, a
  constructor per Go struct. `accept` of each struct is a translation into a *visit tree*
  `vt` (enter and leave calls, bare accepts and direct appends); the renderer's `enter`,
  `leave`, `PreEnter`, `postLeave` run on visit trees as in Go, with the same maps and stacks.
* Values that constructors take and return are `gval`: an element, or an error with the type
  it sits in. Elements without error whose parts carry errors are `CBroken`/`StBroken`.
* The renderer model has elements without errors only.
* Slices are lists, except where sharing matters: Slices.v models arrays with capacities and
  `append` with an arbitrary growth policy (`grow`, any function), used by HeapCond.v (C21),
  Patterns.v (C32, C42), Cases.v (C36) and HeapBuilder.v (C28, C29, C45).
  `go_grow` (doubling) is used in witnesses only.
* Panics, calls that do not return and methods that a type does not have are explicit
  outcomes (`Panics`, `Diverges`, `None`).

## What is modelled

| Go files | model |
|---|---|
| cypher_renderer.go, renderer.go, visitable.go, visitable_list.go | VTree.v, Ast.v |
| accept/enter/leave of all elements | Ast.v |
| symbolic_name.go, support.go, string_literal.go, raw_string_literal.go, number_literal.go, bool_literal.go, null_literal.go, parameter.go, property_lookup.go, node_labels.go, relationship_type.go, relationship_length.go | Escape.v, Num.v, Ast.v |
| condition*.go, compound_condition.go, conditions.go, boolean_function_condition.go (as an operand), comparison.go | Cond.v, HeapCond.v |
| map_expression.go, map_projection.go, entry_expression.go, key_value_map_entry.go, property.go, literal.go, cypher.go (MapOf, LiteralOf) | GoVal.v, Maps.v |
| single_part_query.go, multi_part_query.go, multipart_element.go, union_*.go, subquery.go | Queries.v |
| default_statement_*.go, default_ongoing_unwind.go, in_query_call_builder.go, procedure_call.go, procedure_name.go, name_space.go, match_builder.go, updating_clause_builder.go, order_builder.go, sort_item.go, order.go, skip.go, limit.go, where.go, with.go, return*.go, match.go, merge*.go, create.go, delete.go, set.go, remove.go, unwind.go, yield_items.go, condition_builder.go | Builder.v, HeapBuilder.v |
| node.go, relationship.go, relationship_details.go, relationship_chain.go, properties.go | Patterns.v |
| case.go | Cases.v |
| expression_container.go, operation.go, operations.go, comparison.go, alias_expression.go, nested_expression.go, property.go, expression_list.go, list_expression.go, list_operator.go, sort_item.go | Exprs.v |
| functions.go, built_in_function.go, function_invocation.go, predicates.go, list_predicate.go, boolean_function_condition.go, list_comprehension.go, pattern_comprehension.go, name_path.go, has_label_condition.go, existential_subquery.go, excluded_pattern.go, relationship_pattern_condition.go | Functions.v |
| the ByString, ByNamed, ...Pattern, SetWithNamed, Unwinds, UnwindByString and YieldString methods of the builders; expressions.go; cypher.go: ACallSimple; procedure_call.go: AsFunction | Variants.v |

## What is not modelled

* Of pattern comprehensions, WherePattern with an unset pattern;
  FunctionInvocationCreateWithPattern, which nothing calls.
* Infinite floats, and NaN, for which NumberLiteralCreate2 panics.
* Go's memory model: goroutines take steps one at a time (Concurrent.v: a visit of the renderer,
  SpecGoroutines.v: a call of the builder); the runtime error for simultaneous writes to the maps of a
  shared renderer.
* The statement cache of a renderer that is never reused; nil arguments of interface types
  outside Exprs.v, Functions.v and conditions; reflection in LiteralOf beyond its type switch.
* `go vet`-level facts: interfaces satisfied, package layout, generated documentation.

## Files

| file | content |
|---|---|
| GoStr.v | Go strings, UTF-8 decoding, white space trimming and decimal numerals. |
| Escape.v | Escaping of names and string literals, parameters and relationship lengths. |
| SpecLex.v | Specification: how a Cypher lexer reads names, labels, types, string literals, parameters and numbers. Independent of the model: nothing here mentions an escaping function. |
| SpecSpace.v | Specification of white space: the code points for which Go's unicode.IsSpace holds, and their UTF-8 encodings. |
| EscapeProofs.v | Proofs about escaping: every escaped name or literal is read back by the lexers of SpecLex.v. |
| GoStrProofs.v | Proofs about trimming and decimal numerals. |
| Num.v | Text of number literals: math/big's Float.String, which is Text('g', 10). |
| NumProofs.v | Integers below 10^10 keep their value; larger ones are rendered in exponent notation with ten significant digits. |
| PropertiesText.v | Headline theorems about the text of names, literals, numbers and parameters: C10-C15, C33, C34. |
| VTree.v | The renderer: the visitor [CypherRenderer] of cypher_renderer.go run on visit trees. |
| WellKeyed.v | Well-keyed visit trees: the identities of elements are used consistently. |
| VTreeProofs.v | What the renderer does on well-keyed visit trees. |
| VTreeSim.v | The renderer writes [pp]: simulation on well-keyed trees. |
| Ast.v | The elements of /repo that are visited when a statement is rendered, one constructor per Go struct, and their [accept], [enter] and [leave] methods as visit trees. |
| SpecDoc.v | Specification: documents, and what it means to write them. |
| SpecPrint.v | Specification: the Cypher text of a statement. |
| DocProofs.v | Visit trees write documents: [pp] against [write]. |
| PrintProofs.v | The visit tree of a statement writes the document of the specification. |
| Alloc.v | How elements get their keys: support.go:getAddress and the constructors. |
| AllocProofs.v | Statements whose keys were never reused are well keyed. |
| RenderProofs.v | Consequences of the simulation: what [render] returns, what it leaves behind, and how it depends on keys. |
| ReuseProofs.v | Addresses that are used again: renamings of keys that keep apart the keys that matter. |
| PropertiesRender.v | Headline theorems about rendering: C01-C09 and C41. |
| PropertiesColumns.v | C41: which of several aliased items are written as "expression AS alias". |
| SpecCond.v | Specification: boolean conditions and how a Cypher reader understands them. |
| SpecOrder.v | Specification: the order of the operators in the text of a condition. |
| Cond.v | Conditions: compound_condition.go, condition_container.go, conditions.go and the conditions they combine. |
| CondProofs.v | Lemmas about conditions (Cond.v) and their readings (SpecCond.v). |
| PropertiesCond.v | Properties C16 to C20: what the conditions built with And, Or, Xor and Not say. Specification: SpecCond.v; model: Cond.v. |
| CondExact.v | Lemmas for the exact form of C16: a condition keeps its meaning only if in every pair of parentheses its operators are in the order of precedence. |
| PropertiesOrder.v | C16: exactly which conditions keep their meaning. |
| GoVal.v | Values that the constructors of /repo take and return. |
| Maps.v | Model of map expressions and map projections: map_expression.go, map_projection.go, entry_expression.go, key_value_map_entry.go, property_lookup.go. |
| SpecMap.v | Specification: maps and map projections given by argument lists. |
| MapProofs.v | Proofs about maps and map projections (Maps.v, SpecMap.v). |
| PropertiesMap.v | Properties C22 and C23: maps and map projections. Specification: SpecMap.v; model: Maps.v. |
| Queries.v | Statements: single_part_query.go, multi_part_query.go, multipart_element.go, union_query.go, union_part.go, subquery.go and Union, UnionAll (cypher.go). |
| PropertiesQuery.v | Properties of statements: unions (C24), acceptance (C25), error constructors (C39). |
| Builder.v | The statement builder: default_statement_builder.go, default_statement_with_update.go, default_statement_with_with_builder.go, default_statement_with_return_builder.go, in_query_call_builder.go, procedure_call.go, match_builder.go, updating_clause_builder.go, order_builder.go and the clauses they make. |
| SpecBuilder.v | Specification: what a chain of builder calls says. |
| BuilderProofs.v | Proofs about the statement builder: chains of calls without misuse build the statement that they write. |
| SpecErrors.v | Specification: which arguments of builder calls carry an error. |
| BuilderErrors.v | Proofs: which states the interfaces allow, and that errors found by a builder are never forgotten. |
| BuilderText.v | Proofs: the text of a statement is the text of its clauses in order. |
| PropertiesBuilder.v | Properties of the statement builder: C26, C27, C30, C31, C35, C37, C38. |
| PropertiesReturns.v | Headline theorems about C39 for the builder: which calls return. |
| Slices.v | Go slices and append. |
| HeapCond.v | Conditions in memory: compound_condition.go, condition_container.go and conditions.go with the slices they share. |
| HeapCondProofs.v | Proofs about conditions in memory. |
| PropertiesHeap.v | Properties of values that share memory: C21. |
| Patterns.v | Nodes, relationships and chains of relationships: node.go, relationship.go, relationship_details.go, relationship_length.go, relationship_type.go, relationship_chain.go, properties.go, cypher.go:16-58. |
| SpecPattern.v | Specification of patterns: paths of nodes and arrows, the calls that describe them, and their text. |
| PatternProofs.v | Proofs about nodes, relationships and chains. |
| ChainProofs.v | Proofs: chains in memory. A chain that has not been used as a receiver is what the calls that made it say. |
| PropertiesPattern.v | Properties of nodes, relationships and chains: C32, C42, C43, C44. |
| Cases.v | CASE expressions: case.go. |
| Exprs.v | Expressions and the calls that make them: expression_container.go, operations.go, operation.go, comparison.go, alias_expression.go, nested_expression.go, property.go, sort_item.go, expression_list.go, list_expression.go, list_operator.go and the corresponding functions of cypher.go. |
| Functions.v | Functions, predicates, comprehensions and named paths: function_invocation.go, built_in_function.go, functions.go, predicates.go, list_predicate.go, boolean_function_condition.go, list_comprehension.go, pattern_comprehension.go, name_path.go, has_label_condition.go and the methods of expression_container.go. |
| PropertiesCase.v | Properties of CASE expressions: C36. |
| SpecBrackets.v | Specification of balanced texts: the characters of a Cypher text outside of quoted names and string literals, and what it means that every bracket among them is closed by a bracket of its kind. Comments are not considered: the library writes none. |
| BracketProofs.v | Balanced texts: composition, and the texts the renderer writes. |
| SpecLeaves.v | Specification: the texts of a statement that are written as the caller gave them are balanced. |
| PropertiesBrackets.v | Headline theorems: C40. |
| SliceProofs.v | append, seen from slices that share arrays. |
| HeapBuilder.v | Builder values that share memory. |
| SpecPersist.v | Programs that use builder values any number of times. |
| HeapBuilderProofs.v | Builder methods on shared memory do what they do on values, as long as they append only at the tips of arrays. |
| PersistProofs.v | Careful programs: memory shows what immutable values would. |
| AgainProofs.v | Proofs: Build called again on the same state gives the same text. |
| PropertiesPersist.v | Properties of builder values that are used more than once: C28, C29, C45. |
| SpecExpr.v | Specification: how a Cypher reader understands expressions with operators. |
| ReadProofs.v | Readings of expressions (SpecExpr.v) are unique. |
| WrittenProofs.v | How trees of operators are written, and when the text is understood. |
| SpecCalls.v | Specification: what the calls on expressions are intended to mean. |
| ExprProofs.v | Proofs about calls on expressions. |
| FunctionProofs.v | Proofs about function calls and operands of expressions. |
| PropertiesExpr.v | Headline theorems about expressions with operators: C46. |
| PropertiesCalls.v | Headline theorems about function calls, operands, list operators, comprehensions, list predicates, named paths and sort items: C47-C54. |
| PropertiesShort.v | Headline theorems about functions of patterns, refused calls, properties, aliases, label tests, lists, and patterns and subqueries as conditions: C47, C48, C55, C56. |
| Variants.v | Abbreviations of the calls of Builder.v: the methods that take names or named elements instead of expressions, or patterns instead of conditions, and the functions of cypher.go that take the name of a procedure as one string. |
| PropertiesVariants.v | C57: an abbreviation means the call it abbreviates. |
| SpecNum.v | Reading decimal numerals, and rounding to ten significant digits: what C15 says of numbers that need not be integers. |
| NumRead.v | Numbers as they are read: the text of a number denotes the number rounded to ten significant digits. |
| PropertiesNum.v | Property C15 for numbers of any size: what the text of a number literal denotes, and when it denotes the number itself. |
| SpecTokens.v | Specification of the tokens of a Cypher text: words, names in back-quotes, string literals, numbers and marks. Independent of the model: nothing here mentions an element of a statement. |
| TokenProofs.v | Lexing is a function of the text; texts side by side; white space at the ends. |
| TokenTexts.v | The tokens of the texts a statement is made of, and what can stand behind them. |
| SpecShape.v | Specification: the pieces a document is written from, and the statements whose elements stand where the library's constructors put them. |
| TokenDocs.v | Lexing documents: the tokens of a document are those of its pieces. |
| TokenPrint.v | The tokens of printed statements. |
| PropertiesTokens.v | Headline theorems: C59. |
| SpecOutline.v | Specification of the outline of a Cypher text: the words that begin clauses and their parts, and the commas between items, outside of all brackets. [outline] reads it from the tokens of a text (SpecTokens.v); it knows nothing of the elements of statements. |
| SpecClauses.v | Specification: the outline of a statement, from its clauses. |
| OutlineProofs.v | The outline of printed statements. |
| OutlinePrint.v | The outline of printed statements: one case per element. |
| PropertiesOutline.v | Headline theorems: C60. |
| SpecPhrases.v | Specification: the outline of the text that a chain of builder calls should give, from its phrases (SpecBuilder.v), and the arguments for which it does. |
| BuilderOutline.v | Proofs: statements made by a builder from fine arguments have the shape that C59 and C60 ask for, and the outline of their phrases. |
| PropertiesPhrases.v | Headline theorems: C60 for chains of builder calls. |
| Concurrent.v | Goroutines that render: any number of goroutines call [Render] one statement after the other, each on a renderer of its own or on one that they share. |
| SpecConcurrent.v | Specification: what goroutines that render should get. |
| ConcurrentProofs.v | Proofs: a goroutine whose renderer nobody else uses gets the texts it would get alone. |
| PropertiesConcurrent.v | Headline theorems: C61. |
| SpecGoroutines.v | Goroutines that build statements: each makes its own chain of calls, ending with Build; a schedule says which goroutine makes the next call. Simplification: a call is not interrupted. |
| GoroutineProofs.v | Proofs: programs that use no builder value twice are careful; so are goroutines with chains of calls of their own. |
| PropertiesGoroutines.v | Headline theorems: C62; values used once (C29, C45). |
| SpecGrammar.v | Specification: how a Cypher reader understands a text. |
| SpecReading.v | Specification: when a syntax tree of Cypher (SpecGrammar.v) is that of an element of the library, and which elements are written so that a Cypher reader gets them back. |
| GrammarDocs.v | The tokens documents can be written with, whatever has been written before. |
| GrammarProofs.v | Facts about the reader of SpecGrammar.v. |
| GrammarLemmas.v | How the reader of SpecGrammar.v reads each of the constructs. |
| GrammarParts.v | How the reader of SpecGrammar.v reads lists, maps, functions and patterns. |
| GrammarPatterns.v | How the reader of SpecGrammar.v reads patterns. |
| GrammarClauses.v | Reading the clauses of a statement from its tokens. |
| ReadingProofs.v | The tokens of an element that can be read are read as that element. |
| ReadingClauses.v | The tokens of a clause that can be read are read as that clause, and those of a statement as that statement. |
| ReadingStatements.v | The aliases a statement's document introduces are those the statement gives_alias. |
| DottedNames.v | The tokens of names with dots. |
| PropertiesGrammar.v | Headline theorems: C63. |
| SpecStrings.v | Specification: tokens, syntax trees and elements of the library without the values of their string literals. |
| ParserMono.v | A larger bound does not change what is read. |
| ParserErase.v | The reader of SpecGrammar.v does not look at the values of string literals: from tokens without them it reads the tree without them. |
| StringProofs.v | Statements that differ in the values of string literals only are written with the same pieces, but for those literals. |
| PropertiesStrings.v | Headline theorems: C64. |
| SpecCalled.v | Specification: when a clause that a Cypher reader reads (SpecGrammar.v) is the one that a phrase of builder calls (SpecBuilder.v) asks for, and which phrases are written so that it is. |
| PhrasePlaces.v | Statements made of phrases whose elements stand where they may. |
| CalledProofs.v | Proofs: the clauses made by a builder from readable phrases are readable, and a clause read from one of them is what the phrase asks for. |
| PropertiesCalled.v | Headline theorems: C65. |
| SpecTruth.v | Specification: the truth of a condition that a Cypher reader reads, in the three-valued logic of Cypher, and the calls on conditions that a phrase of builder calls consists of. |
| TruthProofs.v | Lemmas for C66: conditions made by calls are readable, and the tree that is read has the truth the calls mean. |
| PropertiesTruth.v | Headline theorems: C66. |
| PropertiesSame.v | Headline theorems: C67, statements with the same text. |
| SpecUses.v | Specification: what a statement uses, and the parameters a text asks for. |
| UsesDocs.v | Documents: nothing is lost by abbreviating. |
| UsesPrint.v | What the text of a statement keeps of the parameters it uses. |
| PropertiesUses.v | Headline theorems: C68. |
| SpecAsked.v | Specification: the Cypher expression (SpecGrammar.v) that calls on expressions ask for, and which of these expressions the library can write. |
| AskedProofs.v | Expressions built by calls are read as what the calls ask for. |
| PropertiesAsked.v | Headline theorems: C69. |
| SpecDrawn.v | Specification: which pattern the calls that make nodes, relationships, chains and paths ask for, as the patterns of SpecGrammar.v. |
| DrawnProofs.v | Patterns built by calls are read as what the calls ask for. |
| DrawnClauses.v | Proofs: clauses whose operands are made by calls are read as the clauses asked for. |
| PropertiesDrawn.v | Headline theorems: C70. |
| SpecUnited.v | Specification vocabulary for C71: unions of statements made by chains of calls. |
| UnitedProofs.v | Proofs for C71. |
| PropertiesUnited.v | Headline theorems: C71. |
| SpecNested.v | Specification vocabulary for C72: statements that call subqueries. |
| NestedProofs.v | Proofs for C72. |
| PropertiesNested.v | Headline theorems: C72. |
| SpecPanic.v | Specification: chains of builder calls that give no reason to panic. |
| Asking.v | Questions a value answers: GetExpressionType and, of a predicate whose list or condition is not given yet, GetError. |
| PropertiesPanic.v | C73: chains of builder calls do not panic. |
| SpecUsed.v | Specification: the parameters that the calls of a chain use. |
| UsedProofs.v | Parameters of the statements that chains of builder calls build (C68). |
| PropertiesUsed.v | Headline theorems: C68 of statements built by chains of calls. |
| SpecExtend.v | Specification: the addresses of what a builder makes while it builds a statement. |
| ExtendProofs.v | Proofs: clauses that say what the same phrase says have the same text. |
| PropertiesExtend.v | Headline theorems: C74. |
| PropertiesSaid.v | Headline theorems: C75. |
| SpecJoined.v | Specification vocabulary for C76: the text of a union, put together from the texts its statements have on their own. |
| JoinedProofs.v | Proofs for C76: documents that do not share elements are written as on their own; white space at the ends of joined texts. |
| PropertiesJoined.v | Headline theorems: C76. |
| PropertiesInner.v | Headline theorems: C77. |
| PropertiesApart.v | Headline theorems: C78. |

## Properties

Each property is stated in `properties.jsonl`. A theorem whose name ends in `_partial` proves the
property under the restriction named in the note; `_refuted` theorems are witnesses, as concrete
programs of the model, that the property is false without it.

| id | property | how it is modelled and proved | outcome | theorems |
|---|---|---|---|---|
| C01 | Rendering prints the statement that was built | the renderer run on the visit tree of every statement equals the trimmed text of an independent printer; induction on trees with an invariant on the renderer state | partial: Proved for every statement whose keys identify elements (well_keyed, implied by never reusing an address) and without a list literal of two or more items inside an element that is abbreviated (well_quiet). False without the second condition: the commas of the list are written although the node is not (witness). | `C01_rendering_prints_the_statement_partial`, `C01_built_statements_partial`, `C01_list_literal_in_repeated_node_refuted` |
| C02 | List items are separated by exactly one comma and blank | part of the C01 invariant, stated separately for the comma lists of the visit tree | proved: with C01 for the rendered text | `C02_separated`, `C02_lists` |
| C03 | The renderer returns to its initial traversal state | frame theorem on the renderer state for every well-keyed tree | proved: for well-keyed trees; fails for nodes without key | `C03_traversal_state_restored`, `C03_between_elements`, `C03_keyless_node_refuted` |
| C04 | A named node is written out once and referred to by name afterwards | on occurrence lists of nodes; refuted for shared keys and for list-literal properties | partial: Proved for nodes with distinct keys and without list literals in their properties. False for copies of one node under two names, which share a key, and for nodes with list literals (witnesses). | `C04_first_occurrence`, `C04_later_occurrence_partial`, `C04_in_statements`, `C04_renamed_copies_refuted`, `C01_list_literal_in_repeated_node_refuted` |
| C05 | An aliased expression is written out once and referred to by its alias afterwards | same for aliases; refuted for list literals inside the aliased expression | partial: Proved for expressions without list literals of two or more items; false for those: the commas of the list are written after the alias (witness). | `C05_first_occurrence`, `C05_expression_again_partial`, `C05_alias_again_partial`, `C05_in_statements`, `C05_list_literal_refuted` |
| C06 | The text does not depend on memory addresses | simulation under any two key assignments that agree on which keys are equal | proved: no condition on the keys | `C06_independent_of_addresses` |
| C07 | Distinct elements stay distinct even if the collector reuses an address | Alloc.v models a build as a list of constructor calls that refer to earlier elements, run with an assignment of addresses to locals. Proved: two assignments with the same coincidences give the same text (injective extension and C06), and an assignment that uses addresses again gives the text of one that does not unless a named node, an alias or an aliased expression shares an address (simulation of well-keyed trees under separating renamings). False if one does (witness). | partial: Proved if no address is reused, and also if reused addresses belong only to elements that are not named nodes, aliases or aliased expressions; whatever is reused, the text depends only on the calls and on which locals share an address. False if the collector reuses the address of the local of a named node (witness). | `C07_text_of_calls_partial`, `C07_coincidences`, `C07_collector_refuted` |
| C08 | Rendering is repeatable | fresh renderer: function of the statement; reuse refuted by witness | partial: a fresh renderer: render is a function; a reused renderer: proved if no named node or alias is shared, false otherwise | `C08_renderer_reuse`, `C08_same_renderer_refuted` |
| C09 | Render reports errors and only errors | case analysis on the model of Render | proved:  | `C09_render_errors` |
| C10 | Rendered text has no leading or trailing white space | induction on byte strings | proved: Render returns trim_space of the accumulated text | `C10_trim_exact`, `C10_trim_idempotent` |
| C11 | Escaped names denote the name | lexer round trip by induction; blank names excluded (raw) | proved: blank names are excluded by the property; they are rendered raw | `C11_name_denotes_itself`, `C11_variable`, `C11_property_key`, `C11_blank_name_refuted` |
| C12 | Labels and relationship types denote the given string | lexer round trip by induction on strings and lists | proved:  | `C12_label`, `C12_types` |
| C13 | String literals denote the given string | lexer round trip by induction | proved:  | `C13_string_literal`, `C13_string_literal_injective`, `C13_quotes_escaped` |
| C14 | Names cannot inject syntax | refuted by witnesses; positive part for identifiers | partial: false in general: raw names are printed for parameters, UNWIND variables, repeated nodes | `C14_plain_names_partial`, `C14_parameter_injection_refuted` |
| C15 | Number literals keep their value | integers: induction on digits; big.Float rounding modelled exactly. A reader for Cypher numerals and a rounding relation (SpecNum.v) state what the text of any integer or float denotes: the number rounded to ten significant digits, half to even; the result is unique, and it is the number itself exactly when ten digits can write it. | partial: the text of every integer and every float denotes the number rounded to ten significant digits, so it denotes the number itself exactly when ten digits can write it; integers keep integer form below 10^10 only | `C15_integer_value_partial`, `C15_integer_injective_partial`, `C15_large_integers_refuted`, `C15_injective_refuted`, `C15_rounded_value`, `C15_rounding_unique`, `C15_ten_digits_exact_partial`, `C15_more_digits_refuted`, `C15_injective_partial`, `C15_text_of_value`, `C15_float_exact` |
| C16 | Condition chains keep their meaning | precedence parser on token sequences, Kleene semantics; proved under a precedence condition (SpecOrder.v), which is shown to be necessary as well by choosing values of the basic conditions that tell the two readings apart (CondExact.v); refuted in general; patterns added to a condition are compared with patterns added to the container | partial: The meaning of a chain is kept when a chain is extended by a chain only with its own connective (and more generally when operators come in precedence order); false otherwise, exactly: for basic conditions told apart by a name the text is read with the value of the calls for all valuations if and only if in every pair of parentheses the operators come from the strongest to the weakest; a.Or(b).And(c.Or(d)) renders (a OR b AND (c OR d)). | `C16_chains_keep_their_meaning`, `C16_reading_unique`, `C16_ordered_operators`, `C16_exactly_ordered_operators`, `C16_patterns_added`, `C16_mixed_chains_refuted`, `C16_pattern_after_more_refuted` |
| C17 | Single-operator chains are flat | induction on the number of operands | proved:  | `C17_single_connective_flat` |
| C18 | The empty condition is neutral | case analysis on the chain algebra | proved:  | `C18_empty_operand`, `C18_empty_receiver`, `C18_no_where` |
| C19 | Negation negates the whole condition | negation of the container proved; ConditionsNot on a derived chain refuted | partial: Not on a container is proved; ConditionsNot negates an outdated copy of a compound condition (refuted), proved for conditions to which nothing was added since creation. | `C19_negation`, `C19_negation_text`, `C19_conditions_not`, `C19_conditions_not_refuted`, `C19_not_after_no_condition_refuted` |
| C20 | Errors in operands are not swallowed by condition chains | proved for creation; refuted for extension of a chain; the exact condition proved for every receiver, operator and operand | partial: Errors of the receiver are always kept; errors of operands are lost when the receiver is compound with the same operator or the operand is compound (refuted); C20_exactly says for every call which errors the result carries. | `C20_receiver_error_kept`, `C20_negation_keeps_error`, `C20_conditions_not_errors`, `C20_operand_error_reported`, `C20_exactly`, `C20_operand_error_refuted`, `C20_method_of_error_panics` |
| C21 | Extending a condition does not change other conditions | memory model of slices; invariant on the tips of arrays, induction on programs | partial: True of programs in which no compound condition is the receiver of And, Or or Xor twice, for every growth policy of slices: each condition keeps standing for what the calls that made it say. False without that restriction: two extensions of the same three-part condition share a slot of the backing array, so the first one changes; and a condition can come to contain itself, after which rendering does not end. | `C21_extended_once_partial`, `C21_later_calls_keep_conditions_partial`, `C21_text_unique`, `C21_two_extensions_refuted`, `C21_condition_contains_itself_refuted` |
| C22 | Map expressions are built only from valid key/value lists | induction on the argument list, iff | partial: Accepted lists are characterised exactly. A failing list gives an error unless a value has a type without literal: then the call does not return (C39). | `C22_map_accepted`, `C22_map_only_if`, `C22_map_rejected_partial`, `C22_value_error_reported` |
| C23 | Map projections have no duplicate keys and keep entry order | induction on the argument list; refuted for And; a broken entry behind accepted ones makes the whole map report its error | partial: repeated keys across And or an alias are not detected, an empty key is dropped and the error of a property item is lost: refuted; the rest holds for arguments without these | `C23_entries_partial`, `C23_accepted`, `C23_repeated_key_rejected`, `C23_and_appends_partial`, `C23_errors_kept`, `C23_errors_reported`, `C23_and_repeats_keys_refuted`, `C23_alias_repeats_key_refuted`, `C23_empty_key_refuted`, `C23_property_error_refuted` |
| C24 | Unions join all statements in order with one kind of union | induction on the list of statements | partial: members and order are kept; mixing UNION and UNION ALL on an existing union is not rejected and an erroneous union can be extended (refuted) | `C24_union`, `C24_union_extended`, `C24_rejected`, `C24_error_reported_partial`, `C24_first_error_reported`, `C24_accepted_only_if`, `C24_mixed_kinds_refuted`, `C24_erroneous_union_refuted` |
| C25 | A query is accepted only if it can be executed | case analysis and induction on the clause list | partial: Proved for queries without WITH, and for queries with WITH which ones are accepted. A query with WITH of which a part carries an error never carries it: the call does not return. | `C25_not_executable`, `C25_first_error`, `C25_accepted`, `C25_accepted_only_if`, `C25_multi_part`, `C25_part_accepted`, `C25_part_with_error_refuted`, `C25_multi_part_error_refuted` |
| C26 | Clauses are rendered in call order | specification of phrases (SpecBuilder.v); induction on call histories | partial: Proved for every chain of calls that Go accepts and that avoids the listed misuses (orderly); for those the property is false: each has a refutation. | `C26_clauses_in_call_order_partial`, `C26_text_in_clause_order`, `C26_chains_have_an_outcome`, `C26_remove_before_merge_refuted`, `C26_set_before_call_refuted`, `C26_unwind_before_call_refuted`, `C26_return_distinct_lost_refuted`, `C26_empty_with_lost_refuted`, `C26_empty_return_after_with_refuted` |
| C27 | WHERE belongs to the clause it was attached to | induction on call histories | partial: Proved for orderly chains, with the meaning of the WHERE; false for WHERE after a subquery (dropped) and And/Or after a procedure call (panic). | `C27_where_of_each_clause_partial`, `C27_conditions_combined_in_order`, `C27_where_meaning`, `C27_where_not_left_out`, `C27_where_after_subquery_refuted`, `C27_and_after_call_refuted` |
| C28 | Building is repeatable | relation on documents that differ in keys without alias; memory model for repeated calls | partial: Build on the same contents gives the same text for every builder state and any keys; with shared memory, all statements of one builder value have the same text in every careful program, and Build of a value that does not end in an updating clause can be repeated any number of times. False for builders ending in an updating clause: each Build adds the clause to the builder behind the pointer (witnesses). | `C28_same_contents_same_text`, `C28_careful_programs_partial`, `C28_build_any_number_of_times_partial`, `C28_update_built_twice_refuted`, `C28_update_with_return_built_again_refuted` |
| C29 | Builder values are persistent | memory model of builders; refinement of immutable values by an invariant on tips and pointers, induction on programs | partial: For every program in which of the values with the same clauses (or sort items) at most one is continued with a further clause (sort item), and every growth policy of append, all values and statements are those of immutable values and of their own chain of calls. False without that: witnesses with a shared array, a shared pointer in an updating clause and one in a procedure call. | `C29_careful_programs_partial`, `C29_own_calls_partial`, `C29_values_used_once`, `C29_two_continuations_refuted`, `C29_two_updates_refuted`, `C29_two_conditions_refuted` |
| C30 | All given patterns are created and merged | refuted by witness; single pattern proved | partial: true with one pattern per call; false with several (only the first is kept) and with none (silently left out) | `C30_patterns_kept_partial`, `C30_only_first_pattern_refuted`, `C30_no_pattern_refuted` |
| C31 | SET items are paired and ordered | induction on the argument list | partial: pairing holds for every list, odd numbers are always reported; operations are moved before pairs (refuted) and ON CREATE SET with a nameless element loses its items (refuted) | `C31_set_items_partial`, `C31_odd_number_reported`, `C31_any_list`, `C31_only_missing_names`, `C31_mixed_list_refuted`, `C31_on_create_dropped_refuted` |
| C32 | Relationships render their direction, name, types, length and properties | paths (SpecPattern.v); induction on the calls, memory model for chains | partial: Proved for relationships and for chains of every length made by one sequence of calls from nodes without errors, for every growth policy of slices. False if the last node was made by NewNodeWithLabels (it is left out), and with the exported Add. The text is that of the pattern when none of its parts has got an alias. | `C32_relationship_text_partial`, `C32_chain_text_partial`, `C32_brackets`, `C32_last_node_left_out_refuted`, `C32_add_loses_node_refuted` |
| C33 | Relationship lengths denote the given bounds | decimal round trip | proved:  | `C33_length_denotes_bounds` |
| C34 | Parameters denote the given name | induction on the name | proved:  | `C34_parameter_name` |
| C35 | Procedure names keep their namespace | refuted for two or more parts; one part proved | partial: true for names of one part; every longer name loses its namespace | `C35_procedure_names_partial`, `C35_namespace_lost_refuted`, `C35_namespace_text_refuted`, `C35_no_part_refuted` |
| C36 | CASE expressions keep every branch | induction on call histories; memory model for reuse | partial: Proved for every sequence of calls without errors in which ELSE comes last. False with a When after ELSE (ELSE lost), after errors (forgotten, or a panic), and when an intermediate value is used twice. | `C36_branches_in_order_partial`, `C36_else_lost_refuted`, `C36_error_forgotten_refuted`, `C36_bad_when_panics_refuted`, `C36_then_twice_refuted`, `C36_two_continuations_refuted` |
| C37 | ORDER BY, SKIP and LIMIT are kept | induction on lists; refuted for limit 0 | partial: proved for orderly chains; LIMIT 0 and erroneous sort items are dropped | `C37_return_sorting_partial`, `C37_with_sorting_partial`, `C37_limit_zero_refuted`, `C37_erroneous_item_refuted` |
| C38 | Errors reach Build or Render | per constructor; refuted for WITH/RETURN bodies | partial: proved for the positions the library examines, for every later continuation; refuted for the others | `C38_errors_reach_build_partial`, `C38_and_refuted`, `C38_where_after_with_refuted`, `C38_yield_refuted`, `C38_arguments_refuted`, `C38_return_after_set_refuted` |
| C39 | Error constructors terminate | refuted: unfolding model never returns; the calls that do return proved by case analysis on builder states and, for chains of calls, by an invariant | partial: false for three error constructors, which call themselves; LiteralOf is proved to return for every value with a literal, every method of every builder state returns or panics, and Build returns for every chain of calls without WITH | `C39_error_constructors_refuted`, `C39_reached_refuted`, `C39_literal_of_returns`, `C39_calls_return_or_panic`, `C39_build_returns_without_with` |
| C40 | Brackets are balanced | scanner for quoted parts (SpecBrackets.v); induction on printed trees | proved: For every statement with consistent identities (all statements built while no address is reused) whose verbatim texts are balanced; strings, labels, types, keys, variables and aliases may be any bytes. Parameter names, raw literals, function names and the names of nodes that occur again are written verbatim, so they are leaves that must be well-lexed: the refuted theorems show what happens otherwise. | `C40_rendered_text_balanced`, `C40_built_statements`, `C40_repeated_node_refuted`, `C40_parameter_refuted`, `C40_reused_address_refuted` |
| C41 | An expression can be returned under two aliases | refuted by witness; the exact text of every list of aliased items proved by induction over the items with the memory of aliases (PropertiesColumns.v) | partial: Exact for every list of aliased items of expressions without aliases and named nodes inside: each item is written in full, except that an item of an expression that had an item before is written as its alias alone; so all columns exist if and only if no two are of the same expression value. The English property is false of the code (witness). | `C41_columns_partial`, `C41_rendered_columns_partial`, `C41_second_alias_refuted` |
| C42 | Patterns do not change when others are derived from them | memory model of chains; invariant on tips, induction on programs | partial: Nodes and relationships are Go values without shared memory; for chains it is proved that a chain on which no method was called is what its calls say, if no chain is used as a receiver twice. False otherwise: naming the last relationship of a chain changes the original, and two continuations share a cell. | `C42_chains_used_once_partial`, `C42_derived_chain_refuted`, `C42_two_continuations_refuted` |
| C43 | A node has the name, labels and properties it was given | induction on the calls on a node; text by C01 | partial: Proved for every constructor and every sequence of calls with non-empty names and valid maps. False with an empty name, for two nodes named from the same one (the second is written without labels), for named nodes of NewNodeWithLabels, and for WithRawProperties() without arguments. | `C43_node_calls`, `C43_constructors`, `C43_node_text`, `C43_empty_name_refuted`, `C43_two_names_refuted`, `C43_nodes_with_labels_refuted`, `C43_no_properties_refuted` |
| C44 | Errors in nodes, names and properties reach the pattern | induction on the calls after the error; witnesses | partial: Creating a node, a relationship and raw properties report errors; chains never do, later calls forget the error, and WithProperties ignores it. | `C44_relationship_error_partial`, `C44_node_errors`, `C44_raw_properties_error`, `C44_only_the_last_call_counts`, `C44_error_forgotten_refuted`, `C44_chain_refuted`, `C44_properties_refuted` |
| C45 | A built statement does not change | corollary of the refinement of C29; witness | partial: Proved for careful programs (as in C29), for every growth policy of append. False in general: a statement with ORDER BY changes when another one sharing its sort items is built (witness). | `C45_built_statements_stay_partial`, `C45_values_used_once`, `C45_built_statement_changes_refuted` |
| C46 | Operators are read with the operands they were called with | grammar of openCypher as an inductive relation on tokens (SpecExpr.v); uniqueness of readings by splitting at the lowest operator; the text of the built expression as tokens; induction on the tree, both directions; witnesses | partial: Exact: the text is read as intended if and only if no comparison is an operand of arithmetic and no power is an exponent or operand of a string, list or null operator; readings are unique. False for the others (witnesses). | `C46_one_reading`, `C46_operators_partial`, `C46_arithmetic`, `C46_power_of_power_refuted`, `C46_power_in_refuted`, `C46_comparison_in_sum_refuted` |
| C47 | A function call names the intended function and arguments | table of intended functions (SpecCalls.v), case analysis over all functions, induction on argument lists; witnesses | partial: Proved for all modelled functions but CollectDistinct, which writes avg; the current times are errors and the current date panics (refuted). | `C47_function_calls_partial`, `C47_pattern_functions`, `C47_shortest_path`, `C47_collect_distinct_refuted`, `C47_now_refuted` |
| C48 | Bad operands are reported, good ones are not | all calls as one type with their operands (SpecCalls.v), case analysis and induction on argument lists; witnesses | partial: Errors always reach the result, sound calls succeed and invalid ones (empty names, bad percentiles, nameless elements) fail; unset operands are reported where the code looks at them and nil by operators, slices, properties, distance, percentiles and range. False elsewhere (witnesses). | `C48_errors_reach_the_result`, `C48_no_panic`, `C48_no_false_errors`, `C48_refused_calls`, `C48_map_arguments`, `C48_pattern_arguments`, `C48_missing_operands_partial`, `C48_nil_operands_partial`, `C48_named_errors`, `C48_missing_operands_refuted`, `C48_nil_arguments_refuted`, `C48_count_of_error_refuted`, `C48_exists_pattern_refuted`, `C48_labelled_node_refuted` |
| C49 | List slices and elements keep target and bounds | intended text (SpecCalls.v), equality of documents; witness | partial: The text is exact for all targets and bounds; a target that is a power is not put into parentheses, so it is misread (witness). | `C49_slices`, `C49_number_bounds`, `C49_target_refuted` |
| C50 | Comprehensions keep variable, list, condition and definition | intended text (SpecCalls.v), equality of documents, conditions by the theorems of C18; witnesses | partial: Texts are exact for parts without errors; only errors of the variable are reported (witnesses). | `C50_list_comprehension`, `C50_list_comprehension_default`, `C50_pattern_comprehension`, `C50_variable_error`, `C50_symbolic_name`, `C50_errors_refuted` |
| C51 | List predicates and exists keep their parts | intended text (SpecCalls.v), equality of documents; witnesses | partial: Texts are exact for parts without errors; a missing list loses the predicate and the error of a property is lost (refuted). | `C51_list_predicates`, `C51_exists`, `C51_missing_condition`, `C51_errors_refuted` |
| C52 | A named path keeps its name and pattern | intended text (SpecCalls.v), equality of documents; witness | partial: Proved for non-empty names; APath accepts an empty name (refuted). | `C52_named_path`, `C52_shortest_path`, `C52_errors`, `C52_path_of_symbolic_name`, `C52_empty_name_refuted`, `C52_symbolic_name_error_refuted` |
| C53 | Calling a method and passing an argument see the same expression | replacement of all operands by copies, case analysis over all calls; witness | partial: Proved for all modelled calls; the value returned by Get and list literals have no working methods (refuted). | `C53_copies`, `C53_methods_of_results`, `C53_get_twice_refuted` |
| C54 | Sort items keep expression, direction and error | intended text (SpecCalls.v), equality of documents; witnesses | partial: Texts are exact; Ascending and Descending of a sort item lose its error, and SortItemsOfRaw sorts by a string literal or panics (refuted). | `C54_sort_items`, `C54_sort_errors`, `C54_errors_refuted`, `C54_raw_refuted` |
| C55 | Properties, aliases, lists and label tests keep what they were given | Models of Property, As, HasLabels, ListOf and ListOfRaw (Exprs.v, Functions.v); the documents property_doc, labels_doc, list_doc (SpecCalls.v) are the intended texts. Proved by computing the printed document and comparing what it writes. | partial: Proved; false for an empty label, which is dropped, and for a list of a value without literal, which is never returned. | `C55_properties`, `C55_named_properties`, `C55_properties_by_name`, `C55_property_errors`, `C55_assignments`, `C55_assignment_errors`, `C55_aliases`, `C55_alias_errors`, `C55_node_aliases`, `C55_labels`, `C55_label_errors`, `C55_lists`, `C55_lists_of_values`, `C55_refuted` |
| C56 | Patterns and subqueries used as conditions keep their contents | not_pattern, pattern_condition and as_condition (Functions.v) on builder states reached by Match and any Where, And, Or (relation subquery, SpecCalls.v). Induction over the calls, with the theorems about conditions for the WHERE. | partial: Texts are exact; a builder with an error panics, and the clauses before a WITH are dropped (refuted). | `C56_patterns`, `C56_pattern_errors`, `C56_exists_subquery`, `C56_only_a_match`, `C56_refuted` |
| C57 | Shorthand calls mean what they abbreviate | Variants.v models the ByString, ByNamed, Pattern and Named methods of the six builders as steps of their own; the relation stands_for says which full call each abbreviates. Case analysis per builder, induction over the chain of calls; witnesses. | partial: Every chain whose names are not empty and whose elements have names and no error builds what the full calls build; errors are reported by the default builder. False: errors are lost after WITH, SET and CALL, empty names are dropped, nameless elements become random names, errors in UNWIND panic, a procedure used as function is called by a wrong name. | `C57_abbreviations_partial`, `C57_errors_reported`, `C57_pattern_errors`, `C57_pattern_error_lost_refuted`, `C57_call_by_name_partial`, `C57_split_name`, `C57_separated_name`, `C57_errors_lost_refuted`, `C57_missing_names_refuted`, `C57_panics_refuted`, `C57_call_by_name_refuted`, `C57_empty_call_refuted`, `C57_as_function_refuted` |
| C58 | A statement is accepted as a subquery exactly when it returns rows | Queries.v models the check of SubqueryCall on every kind of statement. The inductive `returns_rows` says, independently of the model, which statements return rows. Proved for statements without union by case analysis; false for unions, which are accepted whatever their parts return (witness). | partial: Exact for statements that are not unions; a union of statements that return nothing is accepted (witness). | `C58_subquery_partial`, `C58_union_refuted` |
| C59 | The text of a statement has the tokens of its parts | SpecTokens.v is a lexer for Cypher texts that knows nothing of the model. `pieces` (SpecShape.v) lists the texts a document is written from. By induction on printed expressions and clauses (TokenDocs.v, TokenPrint.v) every document is classified by what may stand before and behind it, and lexing its text is shown to give the tokens of its pieces; composed with C01 for rendered texts. Hypotheses (`shaped_q`): elements stand where the constructors put them, texts the library writes unquoted (parameter, function, procedure and UNWIND names, repeated node names, raw texts) are self-contained, no alias shares a key with an unrelated part. False without them (witnesses). | partial: Proved for statements whose unquoted texts (parameter, function, procedure and UNWIND names, names of repeated nodes, raw texts) are self-contained; false for names of repeated nodes, parameters and UNWIND variables that need quotes, and for reused addresses (witnesses). | `C59_name`, `C59_string_literal`, `C59_label`, `C59_number`, `C59_statement_tokens_partial`, `C59_pieces_are_the_text`, `C59_rendered_tokens_partial`, `C59_built_statements_partial`, `C59_strings_stay_strings_partial`, `C59_repeated_node_refuted`, `C59_parameter_refuted`, `C59_unwind_refuted`, `C59_reused_address_refuted` |
| C60 | Who reads the text finds the clauses that were built | SpecOutline.v reads an outline from the tokens of any Cypher text: clause keywords and commas at bracket depth 0. SpecClauses.v gives the outline of a statement from its clauses alone. By induction on printed expressions and clauses (OutlineProofs.v, OutlinePrint.v) the tokens of every piece are shown to change bracket depth and outline as its element demands, at depth 0 and inside of brackets; composed with C59 and C01. Hypotheses (`calm_q`): names written outside of brackets are no keywords (the library does not quote keywords), texts it writes unquoted add nothing to an outline, no alias shares a key with a clause. False without them (witnesses). SpecPhrases.v gives the outline of a chain of builder calls from its phrases (SpecBuilder.v); BuilderOutline.v shows that every clause the builder makes for a phrase has the shape and calmness C60 asks for if the arguments have, that RETURN is the last phrase of every chain Go accepts, and that the text is that of one part holding all the clauses (C26); so the outline read from the text is that of the calls. | partial: Proved for statements whose names outside of brackets are no keywords and whose unquoted texts add no clause word or comma; false for parameter and function names that contain one and for variables named like a keyword (witnesses). | `C60_clauses_read_from_the_text_partial`, `C60_clauses_read_from_the_rendered_text_partial`, `C60_phrases_read_from_the_text_partial`, `C60_phrases_read_from_the_rendered_text_partial`, `C60_names_are_calm`, `C60_quoted_names_are_calm`, `C60_strings_are_calm`, `C60_labels_are_calm`, `C60_property_names_are_calm`, `C60_identifiers_are_calm`, `C60_identifiers_are_calm_inside`, `C60_parameter_refuted`, `C60_keyword_refuted`, `C60_function_name_refuted` |
| C61 | Goroutines that render with renderers of their own do not disturb each other | Concurrent.v splits a call of Render into its visits (enter and leave of an element, the call itself, taking the text): a goroutine's step performs one of them, a schedule is any list of goroutine numbers. Renderers are maps in memory shared by goroutines that hold the same pointer; the builder a call writes into is the copy of the calling goroutine's frame. ConcurrentProofs.v shows by induction over the schedule that a goroutine with its own renderer is, after any schedule, where its own turns alone take it, and that the visits of a statement in turn are `accept`. With C01 each gets its statement's text. A schedule of two goroutines that share a renderer is the witness against sharing. Simplification: a step is atomic and sequentially consistent; the runtime error Go raises for simultaneous map writes (possible only with a shared renderer) is not modelled. | proved: Every schedule of visits; the last theorem is the witness that sharing a renderer loses commas. | `C61_own_renderer`, `C61_new_renderers`, `C61_shared_renderer_refuted` |
| C62 | Goroutines that build their own chains do not disturb each other | SpecGoroutines.v interleaves the chains of any number of goroutines, call by call, into one program of SpecPersist.v, which runs on the heap model of the builder (HeapBuilder.v: arrays with capacity, pointers). Such a program uses every value at most once, hence is careful (GoroutineProofs.v), and C29 gives every statement as that of its own chain. Simplification: a builder call is one step; calls of different chains write no common memory, as used_once shows for all orders of calls. | proved: Every interleaving of builder calls, every growth policy of append; a call is one step. | `C62_goroutines_build_their_own`, `C29_values_used_once`, `C45_values_used_once` |
| C63 | The text of a statement is Cypher and means the statement | SpecGrammar.v is a recursive descent reader of openCypher over the tokens of SpecTokens.v, with its own syntax trees and no reference to the library; its fuel is existentially quantified and any larger amount gives the same tree. SpecReading.v says when a tree is that of an element (`agrees`: an element may be read by its name or its alias only when the statement writes it more than once, `written_again`; C63_case_once is a statement in which nothing is), and which elements are written so that they can be read back (`readable`: operands bind tightly enough for the place they stand in, since the library writes parentheses only around operations and compound conditions). C59 gives the tokens of the text piece by piece; GrammarProofs.v to GrammarClauses.v show for each construct of the grammar that the reader gets it back in front of every admissible rest, ReadingProofs.v to ReadingStatements.v put this together by induction over the statement. A procedure call that stands alone counts as a statement, and labels set or removed are read whichever of the two operations the builder uses for them. `readable` is needed: eight witnesses give statements whose text is read as another statement or not at all. | partial: For statements whose operands bind tightly enough for where they stand (readable_statement) the rendered text is read as the statement. False without that: eight witnesses, because the library writes parentheses around few operands. | `C63_one_reading`, `C63_any_bound`, `C63_text_is_the_statement_partial`, `C63_rendered_text_is_the_statement_partial`, `C63_built_statements_partial`, `C63_list_refuted`, `C63_mixed_refuted`, `C63_not_refuted`, `C63_is_null_refuted`, `C63_power_refuted`, `C63_negative_refuted`, `C63_name_space_refuted`, `C63_chained_refuted` |
| C64 | String values cannot change what a statement does | SpecStrings.v takes the values of string literals out of tokens (`erase`), of syntax trees of Cypher (`hollow`) and of elements of the library (`hollowed`). ParserErase.v shows for every function of the reader of SpecGrammar.v that it does not look at those values: from tokens without them it reads the tree without them. ParserMono.v shows that what is read for one bound of the depth of calls is read for every larger one. StringProofs.v shows by induction over the statement that two statements that are equal when hollowed are written with the same pieces and the same use of aliases, but for the literals, and that the hypotheses of C59 do not depend on the strings. No hypothesis of C63 about operands is needed. It fails behind raw texts that open a literal: C64_raw_text_refuted. | partial: Proved for statements whose raw texts, parameter and function names are self-contained (shaped_q), and for the renderer under the hypotheses of C01. False without that: behind a raw text that opens a literal. | `C64_reader_does_not_look_into_strings`, `C64_strings_do_not_change_the_statement_partial`, `C64_strings_do_not_change_the_rendered_statement_partial`, `C64_built_statements_partial`, `C64_raw_text_refuted` |
| C65 | The text of a chain of builder calls is read as what the calls ask for | SpecCalled.v says, phrase by phrase (SpecBuilder.v: what a chain of calls asks for, a function of the calls only), which clause of openCypher's syntax trees is asked for (`asks`; only what the statement's clauses write more than once may be asked for by its name or alias, `calls`), and when the operands given to the calls can be read back (`readable_phrase`). C26 gives a statement whose clauses say the phrases; CalledProofs.v shows that these clauses are readable when the operands are, and that a tree that agrees with such a clause is one the phrase asks for; C63's reader and C59 do the rest. What is asked of the operands' text (`in_place_phrase`: PhrasePlaces.v shows that it carries over to the statement) is weaker than C61's `fine_phrase`: elements may begin with keywords, and a parameter may be named like one. The hypotheses speak of the calls, except that the addresses the builder hands out are not those of elements with an alias (`kept_apart`) and C01's hypotheses for the renderer. `readable_conditions` is needed: C65_mixed_conditions_refuted is a chain of Where, Or and And whose text is read with another grouping. | partial: Proved for chains whose operands can be read back (readable_phrase) and stand where they may (in_place_phrase) and whose calls are orderly in the sense of C26, and for the renderer under the hypotheses of C01. False for conditions that mix And and Or so that the library drops a grouping. | `C65_calls_read_from_the_text_partial`, `C65_calls_read_from_the_rendered_text_partial`, `C65_mixed_conditions_refuted` |
| C66 | A WHERE is read as true, false or null exactly when the calls say so | SpecTruth.v evaluates the syntax trees of openCypher (SpecGrammar.v) in three-valued logic and collects the calls of Where, And, Or and Not of a phrase; `means` compares the two for all values of the basic conditions. TruthProofs.v shows by induction over the condition that a tree that agrees with it has the value of the calls (with C16's lemmas on the conditions that the calls make), and that conditions made by unmixed calls from readable basic conditions are readable, so that C65's hypothesis about conditions follows from the operands. The statement is C65's. False for mixed chains: C66_mixed_conditions_refuted gives a chain that says false and is read as true. | partial: Proved under C65's hypotheses for conditions in which a chain is extended by a chain only with the connective it has (unmixed) and nothing empty is negated (proper), none of which is itself given an alias. False for mixed chains. | `C66_conditions_are_read_back`, `C66_where_means_the_calls_partial`, `C66_rendered_where_means_the_calls_partial`, `C66_mixed_conditions_refuted` |
| C67 | Statements with the same text ask for the same | The reading of a text is unique (C63_one_reading), so two statements or chains for which C63, C65 and C66 give a reading of the same text are given the same one. C67_case is a pair of chains that build different statements (conditions added call by call, and composed before one Where) with the same text. False for names that are written as they are given: C67_parameter_refuted gives one parameter and two columns with the same text. | partial: Proved for statements that can be read back (C63) and for chains under the hypotheses of C65 and C66. False for names of parameters that contain other tokens. | `C67_same_text_same_reading_partial`, `C67_same_text_same_calls_partial`, `C67_parameter_refuted` |
| C68 | The text asks for exactly the parameters the statement uses | SpecUses.v says what stands in a statement (element, over children and clauses) and what a text asks for (asked, over its tokens). UsesDocs.v shows by induction over documents that writing with abbreviations keeps a text looked for, if repeated nodes and aliased expressions that have it always have it (nothing_lost), and that every piece comes from the document (nothing_added); UsesPrint.v shows by induction over expressions and clauses that printed statements are such documents. C59 gives the tokens. Hypotheses: those of C59; parameters named by identifiers and no dollar sign in the other texts that are written as given (plain_names); elements told apart by their keys (told_apart). C68_case is a statement with a repeated node, an aliased expression and parameters in both. False without them: C68_parameter_refuted, C68_unwind_refuted, C68_reused_address_refuted. UsedProofs.v relates the clauses of built statements to the phrases of the calls: joining conditions keeps exactly their parameters (cuses_chain), each clause holds the parameters of its phrase (says_uses), and C26 gives the clauses; so C68_chains_partial speaks of the arguments of the calls. C68_unions_use_what_the_calls_use says the same of unions of such statements. C68_chains_case is a chain with joined conditions; C68_unwind_alias_refuted is the case the code loses. | partial: Proved for statements under the hypotheses of C59 whose parameters are named by identifiers and whose elements are told apart by their keys. For statements built by chains of calls the parameters are those that the arguments of the calls hold (phrase_exprs of SpecCalled.v), whatever conditions were joined. False for parameter names with other tokens, for dollar signs in UNWIND variables, for UNWIND of an aliased expression, which writes the alias only, and for nodes at a reused address. | `C68_text_asks_for_the_parameters_partial`, `C68_rendered_text_asks_for_the_parameters_partial`, `C68_chains_use_what_the_calls_use`, `C68_chains_partial`, `C68_unions_use_what_the_calls_use`, `C68_unwind_alias_refuted`, `C68_reused_address_refuted`, `C68_parameter_refuted`, `C68_unwind_refuted` |
| C69 | Expressions are read as what the calls that built them ask for | SpecAsked.v says call by call which expression of SpecGrammar.v a value is asked for as (asked), and which expressions the library can write where (writable). AskedProofs.v shows by induction over the calls that the values are set and without errors and denote what was asked for (asked_made), that nothing else agrees with them (denotes_only), and that they can be read in their place (denotes_back, denotes_shaped). With C63 and C65 follow the texts: C69_text_partial, C69_rendered_text_partial, C69_clauses_partial, C69_chains_partial. With C66 follows that conditions joined by Where, And, Or and Not mean what the calls say about the expressions asked for: C69_conditions_partial, C69_where_partial (case: C69_where_case). Hypotheses: writable, and that the elements are not given aliases. C69_case returns six expressions of five levels. False without them: C69_comparison_in_sum_refuted, C69_power_of_power_refuted, C69_list_refuted, C69_property_refuted, C69_collect_distinct_refuted. Missing: conditions joined by AND, OR, XOR and NOT inside of other expressions, patterns (C63) and integers of more than ten digits (C15). | partial: Proved for the calls listed in SpecAsked.v, of any depth, wherever the library can write the expression (writable). False for comparisons inside of arithmetic operations, properties and as the first element of a list, for powers of powers, and for CollectDistinct. | `C69_expressions_partial`, `C69_text_partial`, `C69_rendered_text_partial`, `C69_clauses_partial`, `C69_chains_partial`, `C69_conditions_partial`, `C69_where_partial`, `C69_comparison_in_sum_refuted`, `C69_power_of_power_refuted`, `C69_list_refuted`, `C69_property_refuted`, `C69_collect_distinct_refuted` |
| C70 | Patterns and whole statements are read as what the calls that built them ask for | SpecDrawn.v says call by call which pattern of SpecGrammar.v is asked for (node_asked, leg_asked, chain_asked, part_asked; chains run on the heap of C42), and phrase by phrase which clause (clause_asked, with the expressions of C69). DrawnProofs.v shows that the calls return elements without errors, that what was asked for agrees with them and, unless a named node of the pattern is written more than once in the statement (node_again), nothing else does. C70_statements_partial and C70_rendered_statements_partial: the text of the statement built by a chain of calls is read as exactly the clauses asked for; the hypotheses on the operands are replaced by conditions on the clauses asked for (drawable_clause). C70_chains_partial mixes such phrases with others. C70_case is a chain with a named path of three nodes, a shortest path, a condition and a created node. C70_two_names_refuted: without the hypothesis on nodes written again a label is lost. C70_last_node_refuted: nodes made by NewNodeWithLabels, which are not in node_asked, give a text that is no statement. Aliased items, conditions joined by AND, OR, XOR and NOT to any depth (condition_asked, where_asked), SET and REMOVE of labels, procedure calls with YIELD are covered (DrawnClauses.v); when an element with an alias is written again its alias may stand instead (near_clause, renamed), and C70_case_aliases is a chain with all of these. Missing: conditions joined by one connective to which another one adds conditions that are themselves joined (the code mixes those up, C16_mixed_chains_refuted) and joined conditions on the right of the same connective (written in one row; truth: C66, C69_where_partial). Subqueries are in C72. | partial: Proved for the calls listed in SpecDrawn.v, for patterns of any length, when no named node of them and no element with an alias is written more than once in the statement; subqueries are in C72. Conditions joined by AND, OR, XOR and NOT are covered to any depth, except where a chain joined by one connective is extended with another one by a condition that is itself joined (false of the code, C16_mixed_chains_refuted), and where joined conditions are added on the right of the same connective, which are written in one row. False for a node that is given two names and for nodes made by NewNodeWithLabels at the end of a chain. | `C70_patterns_partial`, `C70_patterns_once_partial`, `C70_clauses_partial`, `C70_chains_partial`, `C70_statements_partial`, `C70_rendered_statements_partial`, `C70_two_names_refuted`, `C70_last_node_refuted` |
| C71 | A union is read as the statements it joins, each as its own calls ask | SpecUnited.v: chains with their addresses, the aliases given by any of them (called_in), what is written again in the whole union (in_union) and the syntax tree of the union of given clauses (union_of). UnitedProofs.v shows that the text of a union is that of the clauses of its parts, in the memory the parts before have left, and takes the reading of C65 through QUnion. C71_unions_partial: every part is read as what its own calls ask for; C71_union_statements_partial and C71_rendered_union_statements_partial: the union is read as exactly the clauses asked for (C70's clause_asked), if no named node of a pattern and no aliased element is written again in another clause or part; C71_adding_to_a_union: adding to a union is joining all at once. C71_case is a UNION ALL of a one-part and a two-part statement, both with aliases. C71_shared_node_refuted: a node that occurs in two parts loses its labels in the second one, where its variable is not bound. Missing: as in C70 (WHERE mixing connectives); subqueries are in C72. | partial: Proved for any number of chains when no named node and no aliased element is written again. False of a node used in two parts: the second part is written without its labels. | `C71_unions_partial`, `C71_union_statements_partial`, `C71_rendered_union_statements_partial`, `C71_adding_to_a_union`, `C71_shared_node_refuted` |
| C72 | Statements that call subqueries are read as what the calls ask for, at every depth | SpecNested.v: nested says which clause a phrase asks for: a clause of C70 or a subquery built by a chain of calls (ne_statement) or a union of such (ne_union), mutually with the lists of phrases of these chains. NestedProofs.v proves by induction on it that what is asked for can be read and that nothing else can (told), with lemmas that take a statement with several parts apart and put it together. C72_statements_partial, C72_rendered_statements_partial and, for unions at the top, C72_unions_partial: the text is read as exactly the clauses asked for, if no named node and no aliased element is written again. C72_case: a union with a subquery in a subquery. C72_shared_node_refuted: a node of the outer statement used in the pattern of a subquery loses its labels there. Missing: WHERE mixing connectives; WHERE behind a subquery, which is lost (C27). | partial: Proved for every depth of nesting when no named node and no aliased element is written again. False of a node of the outer statement that is used in a subquery: it is written there without its labels. | `C72_statements_partial`, `C72_rendered_statements_partial`, `C72_unions_partial`, `C72_shared_node_refuted` |
| C73 | Chains of builder calls do not panic | Which calls are harmless after which others is stated on the phrases of the chain (SpecPanic.v), without the builder's state. An invariant over the chain relates the phrases to the state: no error is stored, a WHERE that was begun has a condition And and Or can extend, a MERGE that was begun is the current update (PropertiesPanic.v). Build is shown not to panic for any chain. Witnesses for chains that Go accepts and that panic; GetError and GetExpressionType are modelled in Asking.v. | partial: Chains of harmless calls (no erroneous argument, and what continues a clause follows one) never panic, Build never does for any chain, and the first call that is not harmless panics only if it is UNWIND of an error, a procedure without name, And or Or; chains that go on after an error can panic (refuted, with witnesses), and so can GetError of a predicate under construction and GetExpressionType of negated patterns and existential subqueries. | `C73_harmless_chains_do_not_panic_partial`, `C73_build_does_not_panic`, `C73_first_mistake`, `C73_panics_refuted`, `C73_asking_refuted` |
| C74 | Adding clauses keeps the text written so far | Both chains are read as phrases (SpecBuilder.v); the phrases of the longer one begin with those of the shorter. Clauses that say what the same phrase says are shown to print the same document up to the addresses of what the builder made for them (listed in SpecExtend.v), including conditions joined by And and Or in two runs (ExtendProofs.v). Every clause starts with a keyword, so trimming cannot remove what was written (PropertiesExtend.v). The hypothesis is that no address the builder made is that of an expression that is given an alias. | partial: Proved for the orderly chains of C26, for any continuation that starts with a new clause. Calls that complete the last clause (Where, OrderBy, ON CREATE, ...) may change that clause; the clauses before it are kept. False for labels set or removed after ON CREATE or ON MATCH, which are written before the MERGE. | `C74_added_clauses_follow_partial`, `C74_rendered_clauses_follow_partial`, `C74_earlier_clauses_stay_partial`, `C74_labels_after_on_create_refuted` |
| C75 | Chains that say the same have the same text | From the same lemma as C74: clauses that say what the same phrase says print the same document up to the addresses of what the builder made. That equivalent calls say the same is proved on the phrases alone, at every position of every chain (PropertiesSaid.v). | partial: Proved for the orderly chains of C26 when no address that the builder made is that of an expression with an alias. False if a sort item or clause is found at such an address, which the garbage collector permits (C07). | `C75_same_phrases_same_text_partial`, `C75_same_phrases_same_rendering_partial`, `C75_sort_items_or_calls`, `C75_pairs_or_assignments`, `C75_reused_address_refuted` |
| C76 | The text of a union is put together from the texts of its statements | The documents of the statements are written one after the other; writing a document depends only on what the memory says about the keys in it (JoinedProofs.v, by induction over documents), so a statement that shares nothing with those before it is written as with an empty memory. Every chain starts with a keyword, so trimming the whole trims the last statement only. SpecJoined.v says what the joined text is and which elements must not be shared. | partial: Proved for any number of the orderly chains of C26 when no named node and no aliased element of one statement is in a later one, and no address of a union or of a part of a statement is that of an expression with an alias. False for a node used in two statements: its labels are written in the first only. | `C76_union_text_partial`, `C76_rendered_union_partial`, `C76_shared_node_refuted` |
| C77 | A subquery is written as the statement is on its own | The phrase of the call stays in its place whatever follows (induction over the calls), so by C26 its clause stands after the clauses of the calls before. What has been written by then says nothing about the keys of the subquery, so its document is written as with an empty memory (JoinedProofs.v); the closing brace is not white space, so trimming the whole leaves the subquery as it is. | partial: Proved for any place in the orderly chains of C26 and for every statement that is called, also unions, when no named node and no aliased element of the clauses before is in it, and no address the builder made is that of an expression with an alias. False for a node of the clauses before: in the subquery its labels are not written. | `C77_subquery_text_partial`, `C77_rendered_subquery_partial`, `C77_shared_node_refuted` |
| C78 | A clause is written the same in every statement | By C26 the document of a statement is that of its clauses. A clause that shares nothing with those before is written as with an empty memory (JoinedProofs.v), by induction over the clauses. Two clauses that say the same phrase have documents that differ only in the keys the builder made (ExtendProofs.v), so they have the same text. | partial: Proved for the orderly chains of C26 when no named node and no aliased element of one clause is in a later one, and no address the builder made is that of an expression with an alias. False for a node that was written before, which is written by its name only (C04). | `C78_clauses_apart_partial`, `C78_rendered_clauses_apart_partial`, `C78_same_clause_partial`, `C78_node_again_refuted` |
