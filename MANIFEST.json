{
 "claims": [
  {
   "property": "C01",
   "status": "partial",
   "theorems": [
    "C01_rendering_prints_the_statement_partial",
    "C01_built_statements_partial",
    "C01_list_literal_in_repeated_node_refuted"
   ],
   "note": "Proved for every statement whose keys identify elements (well_keyed, implied by never reusing an address) and without a list literal of two or more items inside an element that is abbreviated (well_quiet). False without the second condition: the commas of the list are written although the node is not (witness)."
  },
  {
   "property": "C02",
   "status": "proved",
   "theorems": [
    "C02_separated",
    "C02_lists"
   ],
   "note": "with C01 for the rendered text"
  },
  {
   "property": "C03",
   "status": "proved",
   "theorems": [
    "C03_traversal_state_restored",
    "C03_between_elements",
    "C03_keyless_node_refuted"
   ],
   "note": "for well-keyed trees; fails for nodes without key"
  },
  {
   "property": "C04",
   "status": "partial",
   "theorems": [
    "C04_first_occurrence",
    "C04_later_occurrence_partial",
    "C04_in_statements",
    "C04_renamed_copies_refuted",
    "C01_list_literal_in_repeated_node_refuted"
   ],
   "note": "Proved for nodes with distinct keys and without list literals in their properties. False for copies of one node under two names, which share a key, and for nodes with list literals (witnesses)."
  },
  {
   "property": "C05",
   "status": "partial",
   "theorems": [
    "C05_first_occurrence",
    "C05_expression_again_partial",
    "C05_alias_again_partial",
    "C05_in_statements",
    "C05_list_literal_refuted"
   ],
   "note": "Proved for expressions without list literals of two or more items; false for those: the commas of the list are written after the alias (witness)."
  },
  {
   "property": "C06",
   "status": "proved",
   "theorems": [
    "C06_independent_of_addresses"
   ],
   "note": "no condition on the keys"
  },
  {
   "property": "C07",
   "status": "partial",
   "theorems": [
    "C07_text_of_calls_partial",
    "C07_coincidences",
    "C07_collector_refuted"
   ],
   "note": "Proved if no address is reused, and also if reused addresses belong only to elements that are not named nodes, aliases or aliased expressions; whatever is reused, the text depends only on the calls and on which locals share an address. False if the collector reuses the address of the local of a named node (witness)."
  },
  {
   "property": "C08",
   "status": "partial",
   "theorems": [
    "C08_renderer_reuse",
    "C08_same_renderer_refuted"
   ],
   "note": "a fresh renderer: render is a function; a reused renderer: proved if no named node or alias is shared, false otherwise"
  },
  {
   "property": "C09",
   "status": "proved",
   "theorems": [
    "C09_render_errors"
   ],
   "note": ""
  },
  {
   "property": "C10",
   "status": "proved",
   "theorems": [
    "C10_trim_exact",
    "C10_trim_idempotent"
   ],
   "note": "Render returns trim_space of the accumulated text"
  },
  {
   "property": "C11",
   "status": "proved",
   "theorems": [
    "C11_name_denotes_itself",
    "C11_variable",
    "C11_property_key",
    "C11_blank_name_refuted"
   ],
   "note": "blank names are excluded by the property; they are rendered raw"
  },
  {
   "property": "C12",
   "status": "proved",
   "theorems": [
    "C12_label",
    "C12_types"
   ],
   "note": ""
  },
  {
   "property": "C13",
   "status": "proved",
   "theorems": [
    "C13_string_literal",
    "C13_string_literal_injective",
    "C13_quotes_escaped"
   ],
   "note": ""
  },
  {
   "property": "C14",
   "status": "partial",
   "theorems": [
    "C14_plain_names_partial",
    "C14_parameter_injection_refuted"
   ],
   "note": "false in general: raw names are printed for parameters, UNWIND variables, repeated nodes"
  },
  {
   "property": "C15",
   "status": "partial",
   "theorems": [
    "C15_integer_value_partial",
    "C15_integer_injective_partial",
    "C15_large_integers_refuted",
    "C15_injective_refuted",
    "C15_rounded_value",
    "C15_rounding_unique",
    "C15_ten_digits_exact_partial",
    "C15_more_digits_refuted",
    "C15_injective_partial",
    "C15_text_of_value",
    "C15_float_exact"
   ],
   "note": "the text of every integer and every float denotes the number rounded to ten significant digits, so it denotes the number itself exactly when ten digits can write it; integers keep integer form below 10^10 only"
  },
  {
   "property": "C16",
   "status": "partial",
   "theorems": [
    "C16_chains_keep_their_meaning",
    "C16_reading_unique",
    "C16_ordered_operators",
    "C16_exactly_ordered_operators",
    "C16_patterns_added",
    "C16_mixed_chains_refuted",
    "C16_pattern_after_more_refuted"
   ],
   "note": "The meaning of a chain is kept when a chain is extended by a chain only with its own connective (and more generally when operators come in precedence order); false otherwise, exactly: for basic conditions told apart by a name the text is read with the value of the calls for all valuations if and only if in every pair of parentheses the operators come from the strongest to the weakest; a.Or(b).And(c.Or(d)) renders (a OR b AND (c OR d))."
  },
  {
   "property": "C17",
   "status": "proved",
   "theorems": [
    "C17_single_connective_flat"
   ],
   "note": ""
  },
  {
   "property": "C18",
   "status": "proved",
   "theorems": [
    "C18_empty_operand",
    "C18_empty_receiver",
    "C18_no_where"
   ],
   "note": ""
  },
  {
   "property": "C19",
   "status": "partial",
   "theorems": [
    "C19_negation",
    "C19_negation_text",
    "C19_conditions_not",
    "C19_conditions_not_refuted",
    "C19_not_after_no_condition_refuted"
   ],
   "note": "Not on a container is proved; ConditionsNot negates an outdated copy of a compound condition (refuted), proved for conditions to which nothing was added since creation."
  },
  {
   "property": "C20",
   "status": "partial",
   "theorems": [
    "C20_receiver_error_kept",
    "C20_negation_keeps_error",
    "C20_conditions_not_errors",
    "C20_operand_error_reported",
    "C20_exactly",
    "C20_operand_error_refuted",
    "C20_method_of_error_panics"
   ],
   "note": "Errors of the receiver are always kept; errors of operands are lost when the receiver is compound with the same operator or the operand is compound (refuted); C20_exactly says for every call which errors the result carries."
  },
  {
   "property": "C21",
   "status": "partial",
   "theorems": [
    "C21_extended_once_partial",
    "C21_later_calls_keep_conditions_partial",
    "C21_text_unique",
    "C21_two_extensions_refuted",
    "C21_condition_contains_itself_refuted"
   ],
   "note": "True of programs in which no compound condition is the receiver of And, Or or Xor twice, for every growth policy of slices: each condition keeps standing for what the calls that made it say. False without that restriction: two extensions of the same three-part condition share a slot of the backing array, so the first one changes; and a condition can come to contain itself, after which rendering does not end."
  },
  {
   "property": "C22",
   "status": "partial",
   "theorems": [
    "C22_map_accepted",
    "C22_map_only_if",
    "C22_map_rejected_partial",
    "C22_value_error_reported"
   ],
   "note": "Accepted lists are characterised exactly. A failing list gives an error unless a value has a type without literal: then the call does not return (C39)."
  },
  {
   "property": "C23",
   "status": "partial",
   "theorems": [
    "C23_entries_partial",
    "C23_accepted",
    "C23_repeated_key_rejected",
    "C23_and_appends_partial",
    "C23_errors_kept",
    "C23_errors_reported",
    "C23_and_repeats_keys_refuted",
    "C23_alias_repeats_key_refuted",
    "C23_empty_key_refuted",
    "C23_property_error_refuted"
   ],
   "note": "repeated keys across And or an alias are not detected, an empty key is dropped and the error of a property item is lost: refuted; the rest holds for arguments without these"
  },
  {
   "property": "C24",
   "status": "partial",
   "theorems": [
    "C24_union",
    "C24_union_extended",
    "C24_rejected",
    "C24_error_reported_partial",
    "C24_first_error_reported",
    "C24_accepted_only_if",
    "C24_mixed_kinds_refuted",
    "C24_erroneous_union_refuted"
   ],
   "note": "members and order are kept; mixing UNION and UNION ALL on an existing union is not rejected and an erroneous union can be extended (refuted)"
  },
  {
   "property": "C25",
   "status": "partial",
   "theorems": [
    "C25_not_executable",
    "C25_first_error",
    "C25_accepted",
    "C25_accepted_only_if",
    "C25_multi_part",
    "C25_part_accepted",
    "C25_part_with_error_refuted",
    "C25_multi_part_error_refuted"
   ],
   "note": "Proved for queries without WITH, and for queries with WITH which ones are accepted. A query with WITH of which a part carries an error never carries it: the call does not return."
  },
  {
   "property": "C26",
   "status": "partial",
   "theorems": [
    "C26_clauses_in_call_order_partial",
    "C26_text_in_clause_order",
    "C26_chains_have_an_outcome",
    "C26_remove_before_merge_refuted",
    "C26_set_before_call_refuted",
    "C26_unwind_before_call_refuted",
    "C26_return_distinct_lost_refuted",
    "C26_empty_with_lost_refuted",
    "C26_empty_return_after_with_refuted"
   ],
   "note": "Proved for every chain of calls that Go accepts and that avoids the listed misuses (orderly); for those the property is false: each has a refutation."
  },
  {
   "property": "C27",
   "status": "partial",
   "theorems": [
    "C27_where_of_each_clause_partial",
    "C27_conditions_combined_in_order",
    "C27_where_meaning",
    "C27_where_not_left_out",
    "C27_where_after_subquery_refuted",
    "C27_and_after_call_refuted"
   ],
   "note": "Proved for orderly chains, with the meaning of the WHERE; false for WHERE after a subquery (dropped) and And/Or after a procedure call (panic)."
  },
  {
   "property": "C28",
   "status": "partial",
   "theorems": [
    "C28_same_contents_same_text",
    "C28_careful_programs_partial",
    "C28_build_any_number_of_times_partial",
    "C28_update_built_twice_refuted",
    "C28_update_with_return_built_again_refuted"
   ],
   "note": "Build on the same contents gives the same text for every builder state and any keys; with shared memory, all statements of one builder value have the same text in every careful program, and Build of a value that does not end in an updating clause can be repeated any number of times. False for builders ending in an updating clause: each Build adds the clause to the builder behind the pointer (witnesses)."
  },
  {
   "property": "C29",
   "status": "partial",
   "theorems": [
    "C29_careful_programs_partial",
    "C29_own_calls_partial",
    "C29_values_used_once",
    "C29_two_continuations_refuted",
    "C29_two_updates_refuted",
    "C29_two_conditions_refuted"
   ],
   "note": "For every program in which of the values with the same clauses (or sort items) at most one is continued with a further clause (sort item), and every growth policy of append, all values and statements are those of immutable values and of their own chain of calls. False without that: witnesses with a shared array, a shared pointer in an updating clause and one in a procedure call."
  },
  {
   "property": "C30",
   "status": "partial",
   "theorems": [
    "C30_patterns_kept_partial",
    "C30_only_first_pattern_refuted",
    "C30_no_pattern_refuted"
   ],
   "note": "true with one pattern per call; false with several (only the first is kept) and with none (silently left out)"
  },
  {
   "property": "C31",
   "status": "partial",
   "theorems": [
    "C31_set_items_partial",
    "C31_odd_number_reported",
    "C31_any_list",
    "C31_only_missing_names",
    "C31_mixed_list_refuted",
    "C31_on_create_dropped_refuted"
   ],
   "note": "pairing holds for every list, odd numbers are always reported; operations are moved before pairs (refuted) and ON CREATE SET with a nameless element loses its items (refuted)"
  },
  {
   "property": "C32",
   "status": "partial",
   "theorems": [
    "C32_relationship_text_partial",
    "C32_chain_text_partial",
    "C32_brackets",
    "C32_last_node_left_out_refuted",
    "C32_add_loses_node_refuted"
   ],
   "note": "Proved for relationships and for chains of every length made by one sequence of calls from nodes without errors, for every growth policy of slices. False if the last node was made by NewNodeWithLabels (it is left out), and with the exported Add. The text is that of the pattern when none of its parts has got an alias."
  },
  {
   "property": "C33",
   "status": "proved",
   "theorems": [
    "C33_length_denotes_bounds"
   ],
   "note": ""
  },
  {
   "property": "C34",
   "status": "proved",
   "theorems": [
    "C34_parameter_name"
   ],
   "note": ""
  },
  {
   "property": "C35",
   "status": "partial",
   "theorems": [
    "C35_procedure_names_partial",
    "C35_namespace_lost_refuted",
    "C35_namespace_text_refuted",
    "C35_no_part_refuted"
   ],
   "note": "true for names of one part; every longer name loses its namespace"
  },
  {
   "property": "C36",
   "status": "partial",
   "theorems": [
    "C36_branches_in_order_partial",
    "C36_else_lost_refuted",
    "C36_error_forgotten_refuted",
    "C36_bad_when_panics_refuted",
    "C36_then_twice_refuted",
    "C36_two_continuations_refuted"
   ],
   "note": "Proved for every sequence of calls without errors in which ELSE comes last. False with a When after ELSE (ELSE lost), after errors (forgotten, or a panic), and when an intermediate value is used twice."
  },
  {
   "property": "C37",
   "status": "partial",
   "theorems": [
    "C37_return_sorting_partial",
    "C37_with_sorting_partial",
    "C37_limit_zero_refuted",
    "C37_erroneous_item_refuted"
   ],
   "note": "proved for orderly chains; LIMIT 0 and erroneous sort items are dropped"
  },
  {
   "property": "C38",
   "status": "partial",
   "theorems": [
    "C38_errors_reach_build_partial",
    "C38_and_refuted",
    "C38_where_after_with_refuted",
    "C38_yield_refuted",
    "C38_arguments_refuted",
    "C38_return_after_set_refuted"
   ],
   "note": "proved for the positions the library examines, for every later continuation; refuted for the others"
  },
  {
   "property": "C39",
   "status": "partial",
   "theorems": [
    "C39_error_constructors_refuted",
    "C39_reached_refuted",
    "C39_literal_of_returns",
    "C39_calls_return_or_panic",
    "C39_build_returns_without_with"
   ],
   "note": "false for three error constructors, which call themselves; LiteralOf is proved to return for every value with a literal, every method of every builder state returns or panics, and Build returns for every chain of calls without WITH"
  },
  {
   "property": "C40",
   "status": "proved",
   "theorems": [
    "C40_rendered_text_balanced",
    "C40_built_statements",
    "C40_repeated_node_refuted",
    "C40_parameter_refuted",
    "C40_reused_address_refuted"
   ],
   "note": "For every statement with consistent identities (all statements built while no address is reused) whose verbatim texts are balanced; strings, labels, types, keys, variables and aliases may be any bytes. Parameter names, raw literals, function names and the names of nodes that occur again are written verbatim, so they are leaves that must be well-lexed: the refuted theorems show what happens otherwise."
  },
  {
   "property": "C41",
   "status": "partial",
   "theorems": [
    "C41_columns_partial",
    "C41_rendered_columns_partial",
    "C41_second_alias_refuted"
   ],
   "note": "Exact for every list of aliased items of expressions without aliases and named nodes inside: each item is written in full, except that an item of an expression that had an item before is written as its alias alone; so all columns exist if and only if no two are of the same expression value. The English property is false of the code (witness)."
  },
  {
   "property": "C42",
   "status": "partial",
   "theorems": [
    "C42_chains_used_once_partial",
    "C42_derived_chain_refuted",
    "C42_two_continuations_refuted"
   ],
   "note": "Nodes and relationships are Go values without shared memory; for chains it is proved that a chain on which no method was called is what its calls say, if no chain is used as a receiver twice. False otherwise: naming the last relationship of a chain changes the original, and two continuations share a cell."
  },
  {
   "property": "C43",
   "status": "partial",
   "theorems": [
    "C43_node_calls",
    "C43_constructors",
    "C43_node_text",
    "C43_empty_name_refuted",
    "C43_two_names_refuted",
    "C43_nodes_with_labels_refuted",
    "C43_no_properties_refuted"
   ],
   "note": "Proved for every constructor and every sequence of calls with non-empty names and valid maps. False with an empty name, for two nodes named from the same one (the second is written without labels), for named nodes of NewNodeWithLabels, and for WithRawProperties() without arguments."
  },
  {
   "property": "C44",
   "status": "partial",
   "theorems": [
    "C44_relationship_error_partial",
    "C44_node_errors",
    "C44_raw_properties_error",
    "C44_only_the_last_call_counts",
    "C44_error_forgotten_refuted",
    "C44_chain_refuted",
    "C44_properties_refuted"
   ],
   "note": "Creating a node, a relationship and raw properties report errors; chains never do, later calls forget the error, and WithProperties ignores it."
  },
  {
   "property": "C45",
   "status": "partial",
   "theorems": [
    "C45_built_statements_stay_partial",
    "C45_values_used_once",
    "C45_built_statement_changes_refuted"
   ],
   "note": "Proved for careful programs (as in C29), for every growth policy of append. False in general: a statement with ORDER BY changes when another one sharing its sort items is built (witness)."
  },
  {
   "property": "C46",
   "status": "partial",
   "theorems": [
    "C46_one_reading",
    "C46_operators_partial",
    "C46_arithmetic",
    "C46_power_of_power_refuted",
    "C46_power_in_refuted",
    "C46_comparison_in_sum_refuted"
   ],
   "note": "Exact: the text is read as intended if and only if no comparison is an operand of arithmetic and no power is an exponent or operand of a string, list or null operator; readings are unique. False for the others (witnesses)."
  },
  {
   "property": "C47",
   "status": "partial",
   "theorems": [
    "C47_function_calls_partial",
    "C47_pattern_functions",
    "C47_shortest_path",
    "C47_collect_distinct_refuted",
    "C47_now_refuted"
   ],
   "note": "Proved for all modelled functions but CollectDistinct, which writes avg; the current times are errors and the current date panics (refuted)."
  },
  {
   "property": "C48",
   "status": "partial",
   "theorems": [
    "C48_errors_reach_the_result",
    "C48_no_panic",
    "C48_no_false_errors",
    "C48_refused_calls",
    "C48_map_arguments",
    "C48_pattern_arguments",
    "C48_missing_operands_partial",
    "C48_nil_operands_partial",
    "C48_named_errors",
    "C48_missing_operands_refuted",
    "C48_nil_arguments_refuted",
    "C48_count_of_error_refuted",
    "C48_exists_pattern_refuted",
    "C48_labelled_node_refuted"
   ],
   "note": "Errors always reach the result, sound calls succeed and invalid ones (empty names, bad percentiles, nameless elements) fail; unset operands are reported where the code looks at them and nil by operators, slices, properties, distance, percentiles and range. False elsewhere (witnesses)."
  },
  {
   "property": "C49",
   "status": "partial",
   "theorems": [
    "C49_slices",
    "C49_number_bounds",
    "C49_target_refuted"
   ],
   "note": "The text is exact for all targets and bounds; a target that is a power is not put into parentheses, so it is misread (witness)."
  },
  {
   "property": "C50",
   "status": "partial",
   "theorems": [
    "C50_list_comprehension",
    "C50_list_comprehension_default",
    "C50_pattern_comprehension",
    "C50_variable_error",
    "C50_symbolic_name",
    "C50_errors_refuted"
   ],
   "note": "Texts are exact for parts without errors; only errors of the variable are reported (witnesses)."
  },
  {
   "property": "C51",
   "status": "partial",
   "theorems": [
    "C51_list_predicates",
    "C51_exists",
    "C51_missing_condition",
    "C51_errors_refuted"
   ],
   "note": "Texts are exact for parts without errors; a missing list loses the predicate and the error of a property is lost (refuted)."
  },
  {
   "property": "C52",
   "status": "partial",
   "theorems": [
    "C52_named_path",
    "C52_shortest_path",
    "C52_errors",
    "C52_path_of_symbolic_name",
    "C52_empty_name_refuted",
    "C52_symbolic_name_error_refuted"
   ],
   "note": "Proved for non-empty names; APath accepts an empty name (refuted)."
  },
  {
   "property": "C53",
   "status": "partial",
   "theorems": [
    "C53_copies",
    "C53_methods_of_results",
    "C53_get_twice_refuted"
   ],
   "note": "Proved for all modelled calls; the value returned by Get and list literals have no working methods (refuted)."
  },
  {
   "property": "C54",
   "status": "partial",
   "theorems": [
    "C54_sort_items",
    "C54_sort_errors",
    "C54_errors_refuted",
    "C54_raw_refuted"
   ],
   "note": "Texts are exact; Ascending and Descending of a sort item lose its error, and SortItemsOfRaw sorts by a string literal or panics (refuted)."
  },
  {
   "property": "C55",
   "status": "partial",
   "theorems": [
    "C55_properties",
    "C55_named_properties",
    "C55_properties_by_name",
    "C55_property_errors",
    "C55_assignments",
    "C55_assignment_errors",
    "C55_aliases",
    "C55_alias_errors",
    "C55_node_aliases",
    "C55_labels",
    "C55_label_errors",
    "C55_lists",
    "C55_lists_of_values",
    "C55_refuted"
   ],
   "note": "Proved; false for an empty label, which is dropped, and for a list of a value without literal, which is never returned."
  },
  {
   "property": "C56",
   "status": "partial",
   "theorems": [
    "C56_patterns",
    "C56_pattern_errors",
    "C56_exists_subquery",
    "C56_only_a_match",
    "C56_refuted"
   ],
   "note": "Texts are exact; a builder with an error panics, and the clauses before a WITH are dropped (refuted)."
  },
  {
   "property": "C57",
   "status": "partial",
   "theorems": [
    "C57_abbreviations_partial",
    "C57_errors_reported",
    "C57_pattern_errors",
    "C57_pattern_error_lost_refuted",
    "C57_call_by_name_partial",
    "C57_split_name",
    "C57_separated_name",
    "C57_errors_lost_refuted",
    "C57_missing_names_refuted",
    "C57_panics_refuted",
    "C57_call_by_name_refuted",
    "C57_empty_call_refuted",
    "C57_as_function_refuted"
   ],
   "note": "Every chain whose names are not empty and whose elements have names and no error builds what the full calls build; errors are reported by the default builder. False: errors are lost after WITH, SET and CALL, empty names are dropped, nameless elements become random names, errors in UNWIND panic, a procedure used as function is called by a wrong name."
  },
  {
   "property": "C58",
   "status": "partial",
   "theorems": [
    "C58_subquery_partial",
    "C58_union_refuted"
   ],
   "note": "Exact for statements that are not unions; a union of statements that return nothing is accepted (witness)."
  },
  {
   "property": "C59",
   "status": "partial",
   "theorems": [
    "C59_name",
    "C59_string_literal",
    "C59_label",
    "C59_number",
    "C59_statement_tokens_partial",
    "C59_pieces_are_the_text",
    "C59_rendered_tokens_partial",
    "C59_built_statements_partial",
    "C59_strings_stay_strings_partial",
    "C59_repeated_node_refuted",
    "C59_parameter_refuted",
    "C59_unwind_refuted",
    "C59_reused_address_refuted"
   ],
   "note": "Proved for statements whose unquoted texts (parameter, function, procedure and UNWIND names, names of repeated nodes, raw texts) are self-contained; false for names of repeated nodes, parameters and UNWIND variables that need quotes, and for reused addresses (witnesses)."
  },
  {
   "property": "C60",
   "status": "partial",
   "theorems": [
    "C60_clauses_read_from_the_text_partial",
    "C60_clauses_read_from_the_rendered_text_partial",
    "C60_phrases_read_from_the_text_partial",
    "C60_phrases_read_from_the_rendered_text_partial",
    "C60_names_are_calm",
    "C60_quoted_names_are_calm",
    "C60_strings_are_calm",
    "C60_labels_are_calm",
    "C60_property_names_are_calm",
    "C60_identifiers_are_calm",
    "C60_identifiers_are_calm_inside",
    "C60_parameter_refuted",
    "C60_keyword_refuted",
    "C60_function_name_refuted"
   ],
   "note": "Proved for statements whose names outside of brackets are no keywords and whose unquoted texts add no clause word or comma; false for parameter and function names that contain one and for variables named like a keyword (witnesses)."
  },
  {
   "property": "C61",
   "status": "proved",
   "theorems": [
    "C61_own_renderer",
    "C61_new_renderers",
    "C61_shared_renderer_refuted"
   ],
   "note": "Every schedule of visits; the last theorem is the witness that sharing a renderer loses commas."
  },
  {
   "property": "C62",
   "status": "proved",
   "theorems": [
    "C62_goroutines_build_their_own",
    "C29_values_used_once",
    "C45_values_used_once"
   ],
   "note": "Every interleaving of builder calls, every growth policy of append; a call is one step."
  },
  {
   "property": "C63",
   "status": "partial",
   "theorems": [
    "C63_one_reading",
    "C63_any_bound",
    "C63_text_is_the_statement_partial",
    "C63_rendered_text_is_the_statement_partial",
    "C63_built_statements_partial",
    "C63_list_refuted",
    "C63_mixed_refuted",
    "C63_not_refuted",
    "C63_is_null_refuted",
    "C63_power_refuted",
    "C63_negative_refuted",
    "C63_name_space_refuted",
    "C63_chained_refuted"
   ],
   "note": "For statements whose operands bind tightly enough for where they stand (readable_statement) the rendered text is read as the statement. False without that: eight witnesses, because the library writes parentheses around few operands."
  },
  {
   "property": "C64",
   "status": "partial",
   "theorems": [
    "C64_reader_does_not_look_into_strings",
    "C64_strings_do_not_change_the_statement_partial",
    "C64_strings_do_not_change_the_rendered_statement_partial",
    "C64_built_statements_partial",
    "C64_raw_text_refuted"
   ],
   "note": "Proved for statements whose raw texts, parameter and function names are self-contained (shaped_q), and for the renderer under the hypotheses of C01. False without that: behind a raw text that opens a literal."
  },
  {
   "property": "C65",
   "status": "partial",
   "theorems": [
    "C65_calls_read_from_the_text_partial",
    "C65_calls_read_from_the_rendered_text_partial",
    "C65_mixed_conditions_refuted"
   ],
   "note": "Proved for chains whose operands can be read back (readable_phrase) and stand where they may (in_place_phrase) and whose calls are orderly in the sense of C26, and for the renderer under the hypotheses of C01. False for conditions that mix And and Or so that the library drops a grouping."
  },
  {
   "property": "C66",
   "status": "partial",
   "theorems": [
    "C66_conditions_are_read_back",
    "C66_where_means_the_calls_partial",
    "C66_rendered_where_means_the_calls_partial",
    "C66_mixed_conditions_refuted"
   ],
   "note": "Proved under C65's hypotheses for conditions in which a chain is extended by a chain only with the connective it has (unmixed) and nothing empty is negated (proper), none of which is itself given an alias. False for mixed chains."
  },
  {
   "property": "C67",
   "status": "partial",
   "theorems": [
    "C67_same_text_same_reading_partial",
    "C67_same_text_same_calls_partial",
    "C67_parameter_refuted"
   ],
   "note": "Proved for statements that can be read back (C63) and for chains under the hypotheses of C65 and C66. False for names of parameters that contain other tokens."
  },
  {
   "property": "C68",
   "status": "partial",
   "theorems": [
    "C68_text_asks_for_the_parameters_partial",
    "C68_rendered_text_asks_for_the_parameters_partial",
    "C68_chains_use_what_the_calls_use",
    "C68_chains_partial",
    "C68_unions_use_what_the_calls_use",
    "C68_unwind_alias_refuted",
    "C68_reused_address_refuted",
    "C68_parameter_refuted",
    "C68_unwind_refuted"
   ],
   "note": "Proved for statements under the hypotheses of C59 whose parameters are named by identifiers and whose elements are told apart by their keys. For statements built by chains of calls the parameters are those that the arguments of the calls hold (phrase_exprs of SpecCalled.v), whatever conditions were joined. False for parameter names with other tokens, for dollar signs in UNWIND variables, for UNWIND of an aliased expression, which writes the alias only, and for nodes at a reused address."
  },
  {
   "property": "C69",
   "status": "partial",
   "theorems": [
    "C69_expressions_partial",
    "C69_text_partial",
    "C69_rendered_text_partial",
    "C69_clauses_partial",
    "C69_chains_partial",
    "C69_conditions_partial",
    "C69_where_partial",
    "C69_comparison_in_sum_refuted",
    "C69_power_of_power_refuted",
    "C69_list_refuted",
    "C69_property_refuted",
    "C69_collect_distinct_refuted"
   ],
   "note": "Proved for the calls listed in SpecAsked.v, of any depth, wherever the library can write the expression (writable). False for comparisons inside of arithmetic operations, properties and as the first element of a list, for powers of powers, and for CollectDistinct."
  },
  {
   "property": "C70",
   "status": "partial",
   "theorems": [
    "C70_patterns_partial",
    "C70_patterns_once_partial",
    "C70_clauses_partial",
    "C70_chains_partial",
    "C70_statements_partial",
    "C70_rendered_statements_partial",
    "C70_two_names_refuted",
    "C70_last_node_refuted"
   ],
   "note": "Proved for the calls listed in SpecDrawn.v, for patterns of any length, when no named node of them and no element with an alias is written more than once in the statement; subqueries are in C72. Conditions joined by AND, OR, XOR and NOT are covered to any depth, except where a chain joined by one connective is extended with another one by a condition that is itself joined (false of the code, C16_mixed_chains_refuted), and where joined conditions are added on the right of the same connective, which are written in one row. False for a node that is given two names and for nodes made by NewNodeWithLabels at the end of a chain."
  },
  {
   "property": "C71",
   "status": "partial",
   "theorems": [
    "C71_unions_partial",
    "C71_union_statements_partial",
    "C71_rendered_union_statements_partial",
    "C71_adding_to_a_union",
    "C71_shared_node_refuted"
   ],
   "note": "Proved for any number of chains when no named node and no aliased element is written again. False of a node used in two parts: the second part is written without its labels."
  },
  {
   "property": "C72",
   "status": "partial",
   "theorems": [
    "C72_statements_partial",
    "C72_rendered_statements_partial",
    "C72_unions_partial",
    "C72_shared_node_refuted"
   ],
   "note": "Proved for every depth of nesting when no named node and no aliased element is written again. False of a node of the outer statement that is used in a subquery: it is written there without its labels."
  },
  {
   "property": "C73",
   "status": "partial",
   "theorems": [
    "C73_harmless_chains_do_not_panic_partial",
    "C73_build_does_not_panic",
    "C73_first_mistake",
    "C73_panics_refuted",
    "C73_asking_refuted"
   ],
   "note": "Chains of harmless calls (no erroneous argument, and what continues a clause follows one) never panic, Build never does for any chain, and the first call that is not harmless panics only if it is UNWIND of an error, a procedure without name, And or Or; chains that go on after an error can panic (refuted, with witnesses), and so can GetError of a predicate under construction and GetExpressionType of negated patterns and existential subqueries."
  },
  {
   "property": "C74",
   "status": "partial",
   "theorems": [
    "C74_added_clauses_follow_partial",
    "C74_rendered_clauses_follow_partial",
    "C74_earlier_clauses_stay_partial",
    "C74_labels_after_on_create_refuted"
   ],
   "note": "Proved for the orderly chains of C26, for any continuation that starts with a new clause. Calls that complete the last clause (Where, OrderBy, ON CREATE, ...) may change that clause; the clauses before it are kept. False for labels set or removed after ON CREATE or ON MATCH, which are written before the MERGE."
  },
  {
   "property": "C75",
   "status": "partial",
   "theorems": [
    "C75_same_phrases_same_text_partial",
    "C75_same_phrases_same_rendering_partial",
    "C75_sort_items_or_calls",
    "C75_pairs_or_assignments",
    "C75_reused_address_refuted"
   ],
   "note": "Proved for the orderly chains of C26 when no address that the builder made is that of an expression with an alias. False if a sort item or clause is found at such an address, which the garbage collector permits (C07)."
  },
  {
   "property": "C76",
   "status": "partial",
   "theorems": [
    "C76_union_text_partial",
    "C76_rendered_union_partial",
    "C76_shared_node_refuted"
   ],
   "note": "Proved for any number of the orderly chains of C26 when no named node and no aliased element of one statement is in a later one, and no address of a union or of a part of a statement is that of an expression with an alias. False for a node used in two statements: its labels are written in the first only."
  },
  {
   "property": "C77",
   "status": "partial",
   "theorems": [
    "C77_subquery_text_partial",
    "C77_rendered_subquery_partial",
    "C77_shared_node_refuted"
   ],
   "note": "Proved for any place in the orderly chains of C26 and for every statement that is called, also unions, when no named node and no aliased element of the clauses before is in it, and no address the builder made is that of an expression with an alias. False for a node of the clauses before: in the subquery its labels are not written."
  },
  {
   "property": "C78",
   "status": "partial",
   "theorems": [
    "C78_clauses_apart_partial",
    "C78_rendered_clauses_apart_partial",
    "C78_same_clause_partial",
    "C78_node_again_refuted"
   ],
   "note": "Proved for the orderly chains of C26 when no named node and no aliased element of one clause is in a later one, and no address the builder made is that of an expression with an alias. False for a node that was written before, which is written by its name only (C04)."
  }
 ]
}