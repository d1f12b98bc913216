{"id": "C01", "title": "Rendering prints the statement that was built", "statement": "Rendering a statement with a fresh renderer returns exactly the Cypher text obtained by writing out the tree of clauses, patterns, expressions and conditions in the documented syntax (keywords, brackets, separators, aliases), with white space trimmed at both ends.", "quantifier": "every statement tree of any size and nesting whose elements carry distinct identities, every environment (letter/digit classification of non-ASCII runes, generated name)", "why_tests_cant": "the renderer is a stateful visitor (level map, stacks, skip flag, alias map); a unit test fixes one tree and cannot exclude a tree on which some state leaks", "anchors": ["cypher_renderer.go: Render, enter, leave, PreEnter, postLeave", "every accept/enter/leave method"]}
{"id": "C02", "title": "List items are separated by exactly one comma and blank", "statement": "In every comma separated construct (return items, patterns, function arguments, maps, order items, yield items) rendering puts ', ' between consecutive items and nowhere else, however deeply the constructs are nested in each other.", "quantifier": "every list length and every nesting of comma separated constructs", "why_tests_cant": "the separator is kept in a map keyed by nesting level that is switched on, reset and deleted along the traversal; correctness is an invariant over all trees", "anchors": ["cypher_renderer.go: enableSeparator, separatorOnCurrentLevel, PreEnter, postLeave"]}
{"id": "C03", "title": "The renderer returns to its initial traversal state", "statement": "After rendering any statement the traversal state (element stack, alias stack, nesting level, separators, skip flag) is back to what it was before, so no construct is left open.", "quantifier": "every well-identified tree and every starting state between two elements", "why_tests_cant": "an invariant of a recursive traversal over arbitrary trees", "anchors": ["cypher_renderer.go: enter, leave, PreEnter, postLeave"]}
{"id": "C04", "title": "A named node is written out once and referred to by name afterwards", "statement": "The first occurrence of a named node in a statement is rendered with its labels and properties, and every later occurrence of the same node is rendered as '(name)' and nothing else.", "quantifier": "every statement and every number and position of occurrences", "why_tests_cant": "depends on the history of nodes already rendered", "anchors": ["node.go: enter, leave, accept, NamedByString", "cypher_renderer.go: visitedNamed"]}
{"id": "C05", "title": "An aliased expression is written out once and referred to by its alias afterwards", "statement": "The first occurrence of an aliased expression renders 'expression AS alias'; any later occurrence of the aliased expression, or of the expression it aliases, renders the alias only.", "quantifier": "every statement, every expression, every alias, every number of occurrences", "why_tests_cant": "depends on the history of aliases already rendered", "anchors": ["alias_expression.go: enter, leave", "cypher_renderer.go: getAliasedIfSeen, leave, PreEnter"]}
{"id": "C06", "title": "The text does not depend on memory addresses", "statement": "Building the same statement again, so that its elements live at other addresses, yields the same text: rendering is invariant under every injective renaming of the address-derived identities.", "quantifier": "every statement and every injective assignment of addresses", "why_tests_cant": "addresses are chosen by the allocator and garbage collector; a test sees one assignment", "anchors": ["support.go: getAddress", "cypher_renderer.go"]}
{"id": "C07", "title": "Distinct elements stay distinct even if the collector reuses an address", "statement": "The text of a statement depends only on the API calls that built it, not on when the garbage collector ran while it was being built.", "quantifier": "every allocation history, including those in which the address of a dead constructor local is reused", "why_tests_cant": "a garbage collection between two constructor calls is not reproducible in a unit test", "anchors": ["support.go: getAddress", "every Create function that stores getAddress of a local"]}
{"id": "C08", "title": "Rendering is repeatable", "statement": "Rendering the same statement twice gives the same text: always with a fresh renderer for each call, and also when the same renderer value is used twice.", "quantifier": "every statement and every sequence of Render calls", "why_tests_cant": "needs all histories of a renderer value", "anchors": ["cypher_renderer.go: NewRenderer, Render (value receiver, shared maps)"]}
{"id": "C09", "title": "Render reports errors and only errors", "statement": "Render returns an error for a nil statement and for a statement that carries an error (that very error, with empty text), and returns text and no error for any other statement.", "quantifier": "every statement value", "why_tests_cant": "ranges over all statements and error values", "anchors": ["cypher_renderer.go: Render"]}
{"id": "C10", "title": "Rendered text has no leading or trailing white space", "statement": "The text returned by Render neither starts nor ends with a Unicode white space character, and trimming removes nothing else.", "quantifier": "every byte string the traversal can produce", "why_tests_cant": "ranges over all byte strings, including invalid UTF-8 and multi-byte spaces", "anchors": ["cypher_renderer.go: Render (strings.TrimSpace)"]}
{"id": "C11", "title": "Escaped names denote the name", "statement": "A name that contains at least one non-blank character is rendered so that a Cypher lexer reads exactly one identifier token with that very name, for names used as variables, aliases, property keys and map keys; in particular no name can break out of its token.", "quantifier": "every non-blank name over arbitrary bytes and every following text that does not extend the token", "why_tests_cant": "ranges over all byte strings", "anchors": ["cypher_renderer.go: EscapeIfNecessary, isIdentifier, resolve", "property_lookup.go", "entry_expression.go", "alias_expression.go"]}
{"id": "C12", "title": "Labels and relationship types denote the given string", "statement": "Every label and every relationship type is rendered as ':`...`' so that a Cypher lexer reads back exactly the given string, whatever characters it contains; several types are joined by '|' and read back as the list of non-empty types in order.", "quantifier": "every label string, every list of types", "why_tests_cant": "ranges over all byte strings and list lengths", "anchors": ["cypher_renderer.go: escapeName", "node.go: NodeLabel.enter", "relationship_type.go: enter"]}
{"id": "C13", "title": "String literals denote the given string", "statement": "A string literal is rendered in single quotes so that a Cypher lexer reads back exactly the given string and stops at the closing quote, whatever characters it contains and whatever text follows; different strings give different texts.", "quantifier": "every byte string and every following text", "why_tests_cant": "ranges over all byte strings", "anchors": ["string_literal.go: escapeStringLiteral, AsString"]}
{"id": "C14", "title": "Names cannot inject syntax", "statement": "Parameter names, the variable introduced by UNWIND ... AS and the name printed for a repeated node are rendered so that the text after them is still read as intended.", "quantifier": "every name", "why_tests_cant": "ranges over all byte strings", "anchors": ["parameter.go: enter", "unwind.go: leave", "node.go: enter"]}
{"id": "C15", "title": "Number literals keep their value", "statement": "An integer literal is rendered as a numeral that denotes exactly that integer, and different integers are rendered differently.", "quantifier": "every int64 value", "why_tests_cant": "2^64 inputs; the failure region starts at ten digits", "anchors": ["number_literal.go: NumberLiteralCreate, NumberLiteralCreate1, AsString"]}
{"id": "C16", "title": "Condition chains keep their meaning", "statement": "The condition text produced by chaining And, Or and Xor denotes, under Cypher's operator precedence (NOT, AND, XOR, OR) and three-valued logic, the left-to-right combination that the calls describe.", "quantifier": "every history of And/Or/Xor calls over arbitrary operands, every valuation of the atoms in {true,false,null}", "why_tests_cant": "ranges over all operator trees; the defect needs a compound operand and a tighter operator", "anchors": ["compound_condition.go: add, CompoundConditionCreate, accept, canBeFlattenedWith", "condition_container.go"]}
{"id": "C17", "title": "Single-operator chains are flat", "statement": "Chaining n conditions with one operator renders '(c1 OP c2 OP ... OP cn)' with the operands in call order; a single condition is rendered without parentheses.", "quantifier": "every number of operands", "why_tests_cant": "ranges over all list lengths", "anchors": ["compound_condition.go: add, accept"]}
{"id": "C18", "title": "The empty condition is neutral", "statement": "Combining any condition with the empty condition, on either side and with any operator, leaves its rendering unchanged; combining only empty conditions renders nothing.", "quantifier": "every condition and operator", "why_tests_cant": "ranges over all conditions", "anchors": ["compound_condition.go: EMPTY_CONDITION, add, hasCondition", "conditions.go: ConditionsNoCondition"]}
{"id": "C19", "title": "Negation negates the whole condition", "statement": "Negating a condition renders NOT applied to the complete condition, so its truth value is the three-valued negation of the condition's truth value.", "quantifier": "every condition and every history that produced it", "why_tests_cant": "the negation of a chain uses a snapshot taken when the chain was created, so it depends on the history", "anchors": ["conditions.go: ConditionsNot", "condition_container.go: Not", "comparison.go: ComparisonCreate1"]}
{"id": "C20", "title": "Errors in operands are not swallowed by condition chains", "statement": "Combining conditions with And, Or or Xor yields a condition that carries an error whenever one of the operands carries an error.", "quantifier": "every pair of conditions and every operator", "why_tests_cant": "ranges over all condition values", "anchors": ["compound_condition.go: CompoundConditionCreate, add", "condition_container.go"]}
{"id": "C21", "title": "Extending a condition does not change other conditions", "statement": "A condition value obtained earlier renders the same text after other conditions have been derived from it by And, Or or Xor.", "quantifier": "every history of derivations from shared values", "why_tests_cant": "depends on spare capacity of shared backing arrays along the history", "anchors": ["compound_condition.go: add (append on c.conditions)"]}
{"id": "C22", "title": "Map expressions are built only from valid key/value lists", "statement": "Building a map from a flat argument list succeeds exactly if the number of arguments is even, every key is a string, no key occurs twice and no value carries an error; the entries are then the given pairs in the given order, and a failing list yields an error and no entries.", "quantifier": "every argument list", "why_tests_cant": "ranges over all list lengths and contents", "anchors": ["map_expression.go: NewMapExpression, MapExpressionCreate"]}
{"id": "C23", "title": "Map projections have no duplicate keys and keep entry order", "statement": "A map projection renders one entry per given key/value pair, property name, symbolic name, property or aliased expression, in order; a repeated explicit key is reported as an error, also when the projection is extended with And.", "quantifier": "every argument list and every chain of And calls", "why_tests_cant": "ranges over all list lengths and contents", "anchors": ["map_projection.go: MapProjectionCreate, And, createNewContent"]}
{"id": "C24", "title": "Unions join all statements in order with one kind of union", "statement": "A union of n >= 2 statements renders the n statements in order separated by UNION (or UNION ALL throughout); fewer than two statements, an erroneous member or extending a union with the other kind is an error.", "quantifier": "every list of statements", "why_tests_cant": "ranges over all list lengths", "anchors": ["cypher.go: unionImpl", "union_query.go: UnionQueryCreate", "union_part.go"]}
{"id": "C25", "title": "A query is accepted only if it can be executed", "statement": "A built query carries an error if it has no RETURN and has no clause or ends in a MATCH, or if one of its parts carries an error (the first one); otherwise it carries none.", "quantifier": "every list of clauses and every optional RETURN", "why_tests_cant": "ranges over all clause lists", "anchors": ["single_part_query.go: SinglePartQueryCreate"]}
{"id": "C26", "title": "Clauses are rendered in call order", "statement": "The clauses of a built statement appear in the text in the order in which the builder methods that added them were called, none lost and none duplicated.", "quantifier": "every sequence of builder calls", "why_tests_cant": "ranges over all call histories; the builder keeps an ongoing match, update and call that are flushed at different moments", "anchors": ["default_statement_builder.go: MatchDefault, Create, Merge, Set, Delete, Unwind, AddWith, ReturningDefault, BuildImpl, BuildListOfVisitable", "default_statement_with_update.go", "default_statement_with_with_builder.go"]}
{"id": "C27", "title": "WHERE belongs to the clause it was attached to", "statement": "The conditions given by Where, And and Or after a MATCH (or WITH) are rendered as the WHERE of exactly that clause, combined in call order.", "quantifier": "every sequence of builder calls", "why_tests_cant": "ranges over all call histories", "anchors": ["default_statement_builder.go: Where, And, Or", "match_builder.go", "condition_builder.go"]}
{"id": "C28", "title": "Building is repeatable", "statement": "Calling Build several times on the same builder gives statements with the same text, for builders ending in RETURN and for builders ending in an updating clause.", "quantifier": "every builder state and every number of Build calls", "why_tests_cant": "depends on the history of Build calls", "anchors": ["default_statement_with_return_builder.go: Build", "default_statement_with_update.go: Build"]}
{"id": "C29", "title": "Builder values are persistent", "statement": "Continuing from the same builder value in two different ways gives two statements each of which contains exactly its own clauses.", "quantifier": "every prefix and every pair of continuations", "why_tests_cant": "depends on spare capacity of shared backing arrays along the history", "anchors": ["default_statement_builder.go: currentSinglePartElements, value receivers"]}
{"id": "C30", "title": "All given patterns are created and merged", "statement": "CREATE and MERGE with several patterns render all the given patterns; no pattern is an error.", "quantifier": "every list of patterns", "why_tests_cant": "ranges over all list lengths", "anchors": ["default_statement_builder.go: Create, Merge, getUpdatingClauseBuilder"]}
{"id": "C31", "title": "SET items are paired and ordered", "statement": "Set with a list of expressions pairs property and value arguments in order, keeps ready-made operations, and reports an odd number of plain expressions as an error.", "quantifier": "every argument list", "why_tests_cant": "ranges over all list lengths and mixtures", "anchors": ["default_statement_builder.go: prepareSetExpression"]}
{"id": "C32", "title": "Relationships render their direction, name, types, length and properties", "statement": "A relationship renders '-[..]->', '<-[..]-' or '-[..]-' according to its direction, with brackets exactly if it has a name, type, length or properties, and a chain renders every node exactly once in order.", "quantifier": "every relationship and every chain length", "why_tests_cant": "ranges over all contents and chain lengths", "anchors": ["relationship_details.go: enter, leave, hasContent", "relationship_chain.go: accept", "relationship_length.go: enter"]}
{"id": "C33", "title": "Relationship lengths denote the given bounds", "statement": "A variable length is rendered as '*', '*min..', '*..max' or '*min..max' and reads back as exactly the given bounds, for all integers.", "quantifier": "every pair of optional bounds", "why_tests_cant": "ranges over all integers", "anchors": ["relationship_length.go: enter"]}
{"id": "C34", "title": "Parameters denote the given name", "statement": "A parameter created from a name renders '$' followed by the name without leading '$' signs; a name consisting only of '$' signs (or empty) is an error.", "quantifier": "every name", "why_tests_cant": "ranges over all byte strings", "anchors": ["parameter.go: ParameterCreate, enter"]}
{"id": "C35", "title": "Procedure names keep their namespace", "statement": "A procedure called by name parts renders all parts joined by '.'.", "quantifier": "every list of name parts", "why_tests_cant": "ranges over all list lengths", "anchors": ["procedure_name.go: ProcedureNameCreate", "name_space.go: AsString", "cypher.go: ACallSimple"]}
{"id": "C36", "title": "CASE expressions keep every branch", "statement": "A CASE expression renders its WHEN ... THEN branches in call order followed by its ELSE, if one was given.", "quantifier": "every sequence of When/Then/Else calls", "why_tests_cant": "ranges over all call histories", "anchors": ["case.go: CaseCreate, When, Then, ElseDefault"]}
{"id": "C37", "title": "ORDER BY, SKIP and LIMIT are kept", "statement": "Sort items, SKIP and LIMIT given to a builder appear in the text after the items, in the given order and with the given direction and amount.", "quantifier": "every list of sort items and every amount", "why_tests_cant": "ranges over all list lengths and integers", "anchors": ["order_builder.go", "return_body.go: ReturnBodyCreate", "limit.go", "skip.go", "sort_item.go"]}
{"id": "C38", "title": "Errors reach Build or Render", "statement": "If any part given to a builder carries an error, then building or rendering the statement reports an error instead of a text that silently lacks the part.", "quantifier": "every statement and every position of the erroneous part", "why_tests_cant": "ranges over all positions in all statements", "anchors": ["with.go: withCreate", "return_body.go: ReturnBodyCreate", "default_statement_builder.go"]}
{"id": "C39", "title": "Error constructors terminate", "statement": "Every API call returns or panics; none recurses forever.", "quantifier": "every argument", "why_tests_cant": "non-termination cannot be observed by a finite test", "anchors": ["string_literal.go: StringLiteralError", "raw_string_literal.go: RawStringLiteralError", "multi_part_query.go: MultiPartQueryError", "cypher.go: LiteralOf"]}
{"id": "C40", "title": "Brackets are balanced", "statement": "In the text of a statement every bracket outside quoted names and string literals is closed by the matching kind.", "quantifier": "every statement built from well-lexed leaves: the texts the library writes as given (parameter names, raw literals, function and procedure names, the UNWIND variable, names of nodes that occur again) are balanced themselves; all other texts are arbitrary", "why_tests_cant": "ranges over all trees", "anchors": ["every enter/leave method"]}
{"id": "C41", "title": "An expression can be returned under two aliases", "statement": "If the same expression value is aliased twice under different names, both items render as 'expression AS alias', so that both columns exist.", "quantifier": "every expression and every pair of different aliases", "why_tests_cant": "depends on the history of aliases already rendered", "anchors": ["alias_expression.go: enter, leave", "cypher_renderer.go: leave (visitableToAliased)"]}
{"id": "C42", "title": "Patterns do not change when others are derived from them", "statement": "Calling a method of a node, relationship or chain (naming it, giving it a length or properties, extending it) leaves the value it is called on, and every other pattern, with the same text.", "quantifier": "every program that derives any number of patterns from each other", "why_tests_cant": "depends on spare capacity of shared backing arrays and on in-place assignment along the history", "anchors": ["relationship_chain.go: NamedC, Min, Max, Length, Unbounded, Properties, RelationshipTo, Add"]}
{"id": "C43", "title": "A node has the name, labels and properties it was given", "statement": "A node renders as '(name:labels {properties})' with the labels of its constructor in order, the last name and the last properties given; other calls keep what was given before.", "quantifier": "every constructor and every sequence of calls", "why_tests_cant": "ranges over all call histories", "anchors": ["node.go: NodeCreate1..5, NamedByString, Named, WithProperties", "cypher.go: NewNodeWithLabels, ANode, AnyNode"]}
{"id": "C44", "title": "Errors in nodes, names and properties reach the pattern", "statement": "A relationship or chain made with a node, name or properties that carry an error carries that error, and keeps it in later calls.", "quantifier": "every sequence of calls and every position of the error", "why_tests_cant": "ranges over all positions and later calls", "anchors": ["relationship.go: RelationshipCreate3", "relationship_chain.go: GetError", "node.go: NodeCreate4"]}
{"id": "C45", "title": "A built statement does not change", "statement": "Once Build has returned a statement, no later call on any builder changes the text of that statement.", "quantifier": "every program that goes on using builder values after Build, and every growth policy of append", "why_tests_cant": "depends on spare capacity of arrays that the statement shares with builders, along the whole later history", "anchors": ["default_statement_with_return_builder.go: Build", "order_builder.go: BuildOrder", "multi_part_query.go: MultiPartQueryCreate"]}
{"id": "C46", "title": "Operators are read with the operands they were called with", "statement": "The text of an expression built with arithmetic, string, list, comparison and null operators, of any depth, is read under Cypher's precedences as the operations the calls describe.", "quantifier": "every tree of operator calls on names, literals, calls, lists and maps", "why_tests_cant": "precedence errors depend on which operator is nested in which at any depth", "anchors": ["expression_container.go", "operation.go: OperationCreate", "comparison.go: ComparisonCreate, nestedIfCondition"]}
{"id": "C47", "title": "A function call names the intended function and arguments", "statement": "Each function of the API writes the Cypher function it is documented to be, DISTINCT exactly if asked for, and all arguments in order.", "quantifier": "every function, every list of arguments, every date and map", "why_tests_cant": "ranges over all argument expressions and numbers of arguments", "anchors": ["functions.go", "built_in_function.go", "function_invocation.go"]}
{"id": "C48", "title": "Bad operands are reported, good ones are not", "statement": "If an operand or argument carries an error, the result carries the first such error; nil and unset operands are errors, not panics; calls on sound operands have no error.", "quantifier": "every operator and function call, every combination of sound, unset, nil and erroneous operands", "why_tests_cant": "the combinations of operand states over all calls are unbounded for variadic calls", "anchors": ["operation.go: OperationCreate", "comparison.go", "function_invocation.go", "list_operator.go", "property.go", "alias_expression.go"]}
{"id": "C49", "title": "List slices and elements keep target and bounds", "statement": "A slice writes its target, the bounds that were given, in order, and an element access writes target and index.", "quantifier": "every target and every bound expression", "why_tests_cant": "ranges over all expressions", "anchors": ["list_operator.go: SubList, SubListFrom, SubListUntil, ValueAt"]}
{"id": "C50", "title": "Comprehensions keep variable, list, condition and definition", "statement": "A list or pattern comprehension writes the variable, the list or pattern, the condition and the definitions that were given, and reports their errors.", "quantifier": "every list, pattern, condition made by any calls, and list of definitions", "why_tests_cant": "ranges over all conditions and numbers of definitions", "anchors": ["list_comprehension.go", "pattern_comprehension.go"]}
{"id": "C51", "title": "List predicates and exists keep their parts", "statement": "all, any, none and single write the variable, list and condition given; exists writes its property; missing parts are reported.", "quantifier": "every predicate, variable, list and condition", "why_tests_cant": "ranges over all lists and conditions", "anchors": ["predicates.go", "list_predicate.go", "boolean_function_condition.go"]}
{"id": "C52", "title": "A named path keeps its name and pattern", "statement": "A named path, or a named shortest path, writes the name and the pattern it is defined by, needs a non-empty name and reports errors of the pattern.", "quantifier": "every name and pattern", "why_tests_cant": "ranges over all names and patterns", "anchors": ["name_path.go", "cypher.go: APath, AShortestPath"]}
{"id": "C53", "title": "Calling a method and passing an argument see the same expression", "statement": "What a call makes depends on its operands only through what they are, not on which copy of an expression is used; methods of a result work on that result.", "quantifier": "every call and every operand", "why_tests_cant": "ranges over all calls and operands", "anchors": ["expression_container.go: Get, ExpressionWrap", "list_literal.go"]}
{"id": "C54", "title": "Sort items keep expression, direction and error", "statement": "A sort item writes its expression and direction; errors of the expression stay with it; sort items from texts sort by the named expression.", "quantifier": "every expression and direction, every later call", "why_tests_cant": "ranges over all expressions", "anchors": ["sort_item.go", "cypher.go: Sort, SortItemsOfRaw"]}
{"id": "C55", "title": "Properties, aliases, lists and label tests keep what they were given", "statement": "A property writes its owner and name, an alias the expression, AS and the alias, a label test the node and all labels in order, a list its items in order; missing names and labels, errors and empty names are reported.", "quantifier": "every expression, node, relationship, path, name, label list, and list of expressions or Go values", "why_tests_cant": "ranges over all names, labels and lists", "anchors": ["property.go", "alias_expression.go", "has_label_condition.go", "list_expression.go", "cypher.go: ListOf, ListOfRaw", "node.go: As, HasLabels, Property"]}
{"id": "C56", "title": "Patterns and subqueries used as conditions keep their contents", "statement": "A pattern used as a condition writes the pattern, negated it writes NOT and the pattern; a matching builder used as a condition writes EXISTS with its patterns and the conditions that were combined; errors are reported.", "quantifier": "every pattern, every sequence of Where, And, Or after Match", "why_tests_cant": "ranges over all patterns and condition chains", "anchors": ["existential_subquery.go", "excluded_pattern.go", "relationship_pattern_condition.go", "default_statement_builder.go: AsCondition"]}
{"id": "C57", "title": "Shorthand calls mean what they abbreviate", "statement": "Returning, With, Delete, Set, Unwind, Where, And, Or and Yield by names, by named elements or by patterns, and procedure calls by one string, build exactly what the full calls with the named variables, pattern conditions and procedure build; errors of what they are given are reported.", "quantifier": "every chain of builder calls and shorthand calls, all names, elements, patterns", "why_tests_cant": "ranges over all chains of calls on all six builders and all names", "anchors": ["expressions.go: CreateSymbolicNameByNamed, CreateSymbolicNameByString", "default_statement_builder.go", "default_statement_with_with_builder.go", "default_statement_with_update.go", "in_query_call_builder.go", "procedure_call.go", "cypher.go: ACallSimple, WithByString, WithByNamed, UnwindMulti"]}
{"id": "C58", "title": "A statement is accepted as a subquery exactly when it returns rows", "statement": "Calling a subquery with a statement that ends in RETURN or is a procedure call that yields is accepted and keeps the statement; one that returns nothing is reported as an error, and so is a statement that carries an error.", "quantifier": "every statement: single-part and multi-part queries, procedure calls, unions of them, and statements with errors", "why_tests_cant": "ranges over all statements and all nestings of unions", "anchors": ["subquery.go: SubqueryCall", "default_statement_builder.go: Call"]}
{"id": "C59", "title": "The text of a statement has the tokens of its parts", "statement": "Split into Cypher tokens, the rendered text of a statement consists of exactly the tokens of the parts it is written from, each split by itself: parts never run together, no part opens a comment or closes a quote of another, and names, labels, types, strings and numbers the caller gives are each one token that denotes what was given.", "quantifier": "every statement of the library's clauses and expressions, all names, labels, strings and numbers", "why_tests_cant": "ranges over all statements and all texts a caller may supply, including texts made to break out of their quotes", "anchors": ["cypher_renderer.go: EscapeIfNecessary, resolve, enter, leave", "string_literal.go", "symbolic_name.go", "node_labels.go", "relationship_type.go", "relationship_length.go", "relationship_details.go", "operator.go"]}
{"id": "C60", "title": "Who reads the text finds the clauses that were built", "statement": "Reading the rendered text of a statement from left to right, skipping what stands in brackets, the clause keywords and the commas found are exactly those of the clauses the statement was built from: the same clauses in the same order, each with its WHERE, ORDER BY, SKIP, LIMIT and YIELD, and with as many items as were given. No name, label, property, string or number a caller supplies adds or removes a clause or an item.", "quantifier": "every statement of the library's clauses and expressions, all names, labels, strings and numbers", "why_tests_cant": "ranges over all statements and all texts a caller may supply, including texts that contain keywords, commas and brackets", "anchors": ["cypher_renderer.go: EscapeIfNecessary, resolve, enter, leave", "match.go", "merge.go", "return_body.go", "with.go", "order.go", "procedure_call.go", "union_query.go", "multi_part_query.go", "expression_list.go", "pattern.go"]}
{"id": "C61", "title": "Goroutines that render with renderers of their own do not disturb each other", "statement": "A goroutine that renders statements with a renderer nobody else uses gets from its calls the same texts and errors as in a program without other goroutines, whatever the others render at the same time (also the same statements) and however they are scheduled. With a renderer that goroutines share this does not hold: texts lose commas.", "quantifier": "any number of goroutines, all statements they render, and all schedules of their steps", "why_tests_cant": "a test sees the schedules that happen; the number of interleavings of the visits of two statements grows exponentially", "anchors": ["cypher_renderer.go: CypherRenderer, NewRenderer, Render, enter, leave, PreEnter, PostLeave", "visitable.go"]}
{"id": "C62", "title": "Goroutines that build their own chains do not disturb each other", "statement": "If goroutines each make their own chain of calls from Match, Create and so on to Build, then however their calls are interleaved each of them gets the statement its own chain gives in a program of its own; values of another goroutine's chain, arrays and pointers behind them included, are never written. The same holds in one goroutine for every program that continues each builder value at most once.", "quantifier": "any number of goroutines, all chains of builder calls that return, all interleavings of the calls, every growth policy of append", "why_tests_cant": "ranges over all interleavings and over all capacities append may choose, of which a run sees one", "anchors": ["default_statement_builder.go: DefaultStatementBuilder", "default_statement_with_return_builder.go", "default_statement_with_with_builder.go", "default_statement_with_update.go", "in_query_call_builder.go", "order_builder.go"]}
{"id": "C63", "title": "The text of a statement is Cypher and means the statement", "statement": "The text rendered for a statement is read by the grammar of openCypher, with its precedences, as one statement, and the syntax tree read back has the clauses, patterns, items and expressions the statement was built from, each operand where the program put it; an expression with an alias may be read back as the alias where it occurs again.", "quantifier": "all statements (clauses, patterns and expressions nested to any depth), all names and literals", "why_tests_cant": "whether an operand ends up under the operator it was given to depends on how operators, conditions, lists and patterns are nested, and there is no bound on the nesting; tests compare texts, they do not parse them", "anchors": ["cypher_renderer.go: Render", "operation.go: OperationCreate", "comparison.go: ComparisonCreate", "compound_condition.go: CompoundConditionCreate", "list_comprehension.go", "pattern_comprehension.go", "relationship.go", "relationship_chain.go", "procedure_name.go", "union_query.go", "multi_part_query.go"]}
{"id": "C64", "title": "String values cannot change what a statement does", "statement": "Two statements that are built the same way and differ only in the values of their string literals are rendered as texts that break into the same tokens and are read by the grammar of openCypher as the same syntax tree, but for the values of the literals: whatever characters a string has (quotes, backslashes, comment marks, keywords), it cannot end its literal, add a clause or condition, or hide one.", "quantifier": "all pairs of statements that differ in string values only, all strings, nested to any depth", "why_tests_cant": "relates two runs for all strings; a test tries a few hostile strings in a few places and cannot show that no other string at no other place breaks out", "anchors": ["string_literal.go: StringLiteralCreate", "cypher.go: LiteralOf", "cypher_renderer.go: Render", "map_expression.go", "comparison.go"]}
{"id": "C65", "title": "The text of a chain of builder calls is read as what the calls ask for", "statement": "The text of the statement built by a chain of builder calls is read by the grammar of openCypher as exactly one query whose clauses are, one for one and in the order of the calls, the clauses asked for: a Match call is read as a MATCH of the given patterns with the conditions added by Where/And/Or, With and Return as projections of the given items with the DISTINCT, ORDER BY (each item with the direction of the Ascending/Descending after it), SKIP and LIMIT asked for, Set/Remove/Delete/Merge (with its ON CREATE and ON MATCH actions), Unwind, procedure calls with their arguments and YIELD, and sub-queries.", "quantifier": "all chains of builder calls the Go compiler accepts, of any length, with any readable operands", "why_tests_cant": "there are infinitely many chains and operands; tests compare the text of a few chains with an expected string and never read the text back", "anchors": ["statement_builder.go", "default_statement_builder.go", "default_statement_with_return_builder.go", "default_statement_with_with_builder.go", "match_builder.go", "condition_builder.go", "order_builder.go", "updating_clause_builder.go", "in_query_call_builder.go", "merge_action.go", "cypher_renderer.go: Render"]}
{"id": "C66", "title": "A WHERE is read as true, false or null exactly when the calls say so", "statement": "In the statement that the grammar of openCypher reads from the rendered text of a chain of builder calls, the condition of every WHERE has, in three-valued logic, the truth value that the calls of Where, And, Or, Xor and Not give it from the values of the basic conditions; a clause has no WHERE exactly when the calls contribute no condition.", "quantifier": "all chains of builder calls, all conditions composed by calls of And, Or, Xor and Not to any depth, all truth values (true, false, null) of the basic conditions", "why_tests_cant": "quantifies over all compositions and all assignments of three-valued truth; a test compares the text of a few compositions", "anchors": ["condition_builder.go", "compound_condition.go", "condition_container.go", "conditions.go", "comparison.go", "default_statement_builder.go", "cypher_renderer.go: Render"]}
{"id": "C67", "title": "Statements with the same text ask for the same", "statement": "When the statements built by two chains of builder calls have the same rendered text, the chains ask for the same: they ask for as many clauses, the clauses at the same place are both what one clause of openCypher says, and their conditions are true, false or null together; so the text can stand for the statement, for instance as the key of a cache.", "quantifier": "all pairs of chains of builder calls, of any length, and all pairs of statements", "why_tests_cant": "quantifies over all pairs of statements; a test cannot show that no two different requests share a text", "anchors": ["cypher_renderer.go: Render", "default_statement_builder.go", "default_statement_with_return_builder.go", "default_statement_with_with_builder.go", "condition_builder.go", "parameter.go: ParameterCreate"]}
{"id": "C68", "title": "The text asks for exactly the parameters the statement uses", "statement": "Who reads the text of a statement finds behind dollar signs, outside of quotes, exactly the names of the parameters that stand somewhere in the statement: writing a node by its name or an expression by its alias loses no parameter, and no name, label, string or other text adds one. So the parameters to supply with the text are those the program put into the statement.", "quantifier": "all statements, and all parameters anywhere in them, to any depth", "why_tests_cant": "quantifies over all statements and over everything that can be abbreviated in them; a test sees one combination of repeated nodes and aliases", "anchors": ["cypher_renderer.go: Render, enter, leave", "parameter.go: ParameterCreate, enter", "node.go: accept", "alias_expression.go: accept", "cypher_renderer.go: EscapeIfNecessary"]}
{"id": "C69", "title": "Expressions are read as what the calls that built them ask for", "statement": "The text of an expression built by calls on names, parameters, literals, lists, maps, properties, operators, functions, predicates and list comprehensions, one inside the other to any depth, is read by the grammar of openCypher as exactly the expression the calls describe and as no other one, wherever it stands: returned, deleted, passed on by WITH, or in the last clause of a chain of builder calls.", "quantifier": "all nestings of expression-building calls, of any depth and with any names, numbers and texts", "why_tests_cant": "quantifies over all nestings of some forty kinds of calls; a test compares the text of one nesting with an expected string and does not read it back", "anchors": ["expression_container.go", "operation.go: OperationCreate", "comparison.go: ComparisonCreate, nestedIfCondition", "functions.go", "function_invocation.go", "list_comprehension.go", "predicates.go", "map_expression.go", "list_expression.go", "property.go", "literal.go", "parameter.go", "symbolic_name.go", "cypher_renderer.go: Render"]}
{"id": "C70", "title": "Patterns and whole statements are read as what the calls that built them ask for", "statement": "A pattern drawn by calls on nodes, relationships, chains, named paths and shortest paths (labels, names, properties, directions, types, lengths) is read from the text of the statement as exactly the pattern the calls describe; and the text of a statement whose clauses are made of such patterns and of expressions built by calls is read as exactly the clauses the calls ask for, in their order.", "quantifier": "all sequences of builder calls of any length, whose patterns have any number of nodes and relationships and whose expressions have any depth", "why_tests_cant": "quantifies over all patterns, of any length, and all combinations of calls on their parts; a test compares one text with an expected string and does not read it back", "anchors": ["node.go: NodeCreate2, WithProperties, NamedByString", "relationship.go", "relationship_chain.go", "relationship_details.go", "name_path.go", "functions.go: shortestPath", "cypher.go: ANode, AnyNode, APath, AShortestPath", "default_statement_builder.go", "cypher_renderer.go: Render"]}
{"id": "C71", "title": "A union is read as the statements it joins, each as its own calls ask", "statement": "Two or more statements built by chains of calls and joined by Union (or UnionAll) give a text that is read as a union of exactly these statements, in the order given, every two joined by UNION (or by UNION ALL); the clauses of each are the ones its own chain of calls asks for, whatever the other statements contain. Statements that are added to the union later are joined as if all had been given at once.", "quantifier": "all lists of two or more chains of builder calls, of any length, with patterns and expressions of any size, and both kinds of union", "why_tests_cant": "ranges over all lists of statements and over what they share: the renderer keeps one memory of nodes and aliases for all parts of a union, so what a part is read as depends on the parts before it", "anchors": ["cypher.go: Union, UnionAll, unionImpl", "union_query.go: UnionQueryCreate, addAdditionalQueries", "union_part.go", "default_statement_builder.go", "cypher_renderer.go: Render, visitedNamed, visitableToAliased"]}
{"id": "C72", "title": "Statements that call subqueries are read as what the calls ask for, at every depth", "statement": "The text of a statement built by a chain of calls, some of which call a subquery, is read as exactly the clauses the calls ask for; the subquery between the braces is read as exactly the clauses that the chain of calls that built it asks for, or as the union of several such statements, and so on in subqueries of subqueries.", "quantifier": "all chains of builder calls with subqueries and unions nested to any depth, and all patterns and expressions in them", "why_tests_cant": "ranges over all nestings of statements, and the renderer keeps one memory of nodes and aliases for all of them; a test compares one text with an expected string and does not read it back", "anchors": ["subquery.go: SubqueryCall", "default_statement_builder.go: Call", "cypher.go: Union, UnionAll, unionImpl", "union_query.go: UnionQueryCreate", "cypher_renderer.go: Render, visitedNamed, visitableToAliased"]}
{"id": "C73", "title": "Chains of builder calls do not panic", "statement": "No chain of builder calls that Go accepts panics, neither in a call nor in Build: mistakes in arguments are kept and reported by Build. Asking a value for its error or its type does not panic either.", "quantifier": "every chain of builder calls with every argument, and every value", "why_tests_cant": "there are infinitely many chains, and a call panics only after particular earlier calls", "anchors": ["default_statement_builder.go: DefaultStatementBuilder", "default_ongoing_unwind.go: As", "default_statement_with_with_builder.go: DefaultStatementWithWithBuilder", "default_statement_with_update.go: DefaultStatementWithUpdateBuilder", "in_query_call_builder.go: InQueryCallBuilder", "procedure_name.go: ProcedureNameCreate", "condition_container.go: And, Or", "predicates.go: PredicateBuilder.GetError", "excluded_pattern.go: GetExpressionType", "existential_subquery.go: GetExpressionType"]}
{"id": "C74", "title": "Adding clauses keeps the text written so far", "statement": "A call that starts a new clause, and the calls after it, add to the end of the statement: the text of the statement that the chain built without them is the beginning of the text that it builds with them, whatever the added calls are given. Calls that complete the last clause leave the clauses before it as they were.", "quantifier": "every chain of builder calls, every continuation of it, in particular those that start with a new clause, all arguments and all addresses of what the builder makes in either run", "why_tests_cant": "there are infinitely many chains and continuations; clauses begun but not yet built, conditions joined so far and aliases introduced later could each change text already written", "anchors": ["default_statement_builder.go: BuildImpl, BuildListOfVisitable, CloseCurrentOngoingMatch, CloseCurrentOngoingUpdate", "default_statement_with_update.go: DefaultStatementWithUpdateBuilder", "default_statement_with_with_builder.go: DefaultStatementWithWithBuilder", "cypher_renderer.go: CypherRenderer"]}
{"id": "C75", "title": "Chains that say the same have the same text", "statement": "The text of a statement depends only on what the calls of its chain say, clause by clause: not on the addresses of what the builder makes, nor on which of several equivalent calls is used. OrderBy with Descending, Ascending and And gives the text of the sort items they stand for, and SET with a target and a value gives the text of SET with their assignment.", "quantifier": "every two chains of builder calls that say the same, all arguments and all addresses of what the builder makes in either run", "why_tests_cant": "a test runs with the addresses of one execution and with finitely many chains", "anchors": ["default_statement_with_return_builder.go: OrderBy, OrderBySortItem", "order_builder.go: OrderBuilder", "default_statement_builder.go: Set, BuildImpl, prepareSetExpression", "default_statement_with_update.go: DefaultStatementWithUpdateBuilder", "compound_condition.go: CompoundConditionCreate, add"]}
{"id": "C76", "title": "The text of a union is put together from the texts of its statements", "statement": "Union and UnionAll write each statement as it is written on its own, in the order given, with UNION or UNION ALL between them and nothing else but white space.", "quantifier": "any number of statements built by any chains of builder calls, both kinds of union, all addresses", "why_tests_cant": "there are infinitely many statements; what the renderer remembers from one statement could change the text of any later one", "anchors": ["union_query.go: UnionQueryCreate, accept", "union_part.go: UnionPart", "cypher.go: Union, UnionAll, unionImpl", "cypher_renderer.go: CypherRenderer"]}
{"id": "C77", "title": "A subquery is written as the statement is on its own", "statement": "A statement that is called as a subquery is written between CALL { and } as it is written on its own, at the place of the call in the chain.", "quantifier": "every chain of builder calls with a subquery at any place, every statement called (also unions and statements with subqueries), all addresses", "why_tests_cant": "there are infinitely many statements and chains; what the renderer remembers from the clauses before could change the text of any subquery", "anchors": ["subquery.go: SubqueryCreate, accept, enter, leave", "default_statement_builder.go: Call", "cypher_renderer.go: CypherRenderer"]}
{"id": "C78", "title": "A clause is written the same in every statement", "statement": "The text of a statement is that of its clauses one after the other, and what a clause writes depends only on the calls that make it: not on the other clauses, its place in the chain or the addresses.", "quantifier": "every two chains of builder calls, every clause of either, all addresses", "why_tests_cant": "there are infinitely many chains around a clause; what the renderer remembers from any clause before could change its text", "anchors": ["default_statement_builder.go: DefaultStatementBuilder, BuildImpl", "single_part_query.go: accept", "multi_part_query.go: accept", "cypher_renderer.go: CypherRenderer", "node.go: enter"]}
