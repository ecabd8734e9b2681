{
 "claims": [
  {
   "property": "C01",
   "status": "proved",
   "theorems": [
    "C01_round_trip",
    "C01_same_meaning",
    "C01_xor_division_rejected"
   ],
   "note": "Exact characterisation. Assumes only that the floating point path for exponent literals never turns a non-negative literal into a negative one."
  },
  {
   "property": "C02",
   "status": "proved",
   "theorems": [
    "C02_grammar_unambiguous",
    "C02_parser_is_grammar"
   ],
   "note": "Parser equals the precedence grammar over the longest-unit reading of the text; the grammar is unambiguous."
  },
  {
   "property": "C03",
   "status": "proved",
   "theorems": [
    "C03_lexer_exact",
    "C03_last_token_stops",
    "C03_empty_text_undefined",
    "C03_letters_and_digits"
   ],
   "note": "Lexer total on non-empty texts and exactly the longest-unit cut; undefined on the empty text."
  },
  {
   "property": "C04",
   "status": "proved",
   "theorems": [
    "C04_parser_safe_and_total",
    "C04_empty_text_refuted"
   ],
   "note": "No empty-queue access and termination for every non-empty text; the empty text is undefined behaviour."
  },
  {
   "property": "C05",
   "status": "proved",
   "theorems": [
    "C05_literals",
    "C05_decimal_exact_or_saturated",
    "C05_glued_operator"
   ],
   "note": "Decimal literals exact or saturated; exponent notation is an argument of the model."
  },
  {
   "property": "C06",
   "status": "proved",
   "theorems": [
    "C06_builder_is_grammar",
    "C06_builder_safe",
    "C06_second_build_loses_features"
   ],
   "note": "Exact characterisation of the slots-and-frames builder by the precedence grammar; also shows that a second build() returns null features."
  },
  {
   "property": "C07",
   "status": "proved",
   "theorems": [
    "C07_same_constraint",
    "C07_same_failure",
    "C07_every_chain_has_a_text"
   ],
   "note": "Both directions, success and failure; every spellable chain has a text."
  },
  {
   "property": "C08",
   "status": "proved",
   "theorems": [
    "C08_misuse_sticky",
    "C08_otherwise_completable",
    "C08_build_when_complete"
   ],
   "note": "Misplaced calls are sticky, and well-placed chains can always be completed, so the characterisation is tight."
  },
  {
   "property": "C09",
   "status": "proved",
   "theorems": [
    "C09_clone",
    "C09_held_constraint_unique"
   ],
   "note": "Address level model with parent links and owned features; operands are cloned left to right (C++ leaves the order open)."
  },
  {
   "property": "C10",
   "status": "proved",
   "theorems": [
    "C10_outermost_escaped",
    "C10_other_nodes_raw",
    "C10_well_escaped_iff",
    "C10_escaping_refuted"
   ],
   "note": "Exact condition for names without markup characters; witness that escaping is incomplete."
  },
  {
   "property": "C11",
   "status": "proved",
   "theorems": [
    "C11_accepted",
    "C11_operand_order",
    "C11_undefined",
    "C11_safe_refuted"
   ],
   "note": "Lexer, parser and evaluation; doubles are an abstract type with abstract arithmetic. Undefined behaviour (empty text, unreadable numerals) is characterised exactly."
  },
  {
   "property": "C12",
   "status": "proved",
   "theorems": [
    "C12_values",
    "C12_terminates",
    "C12_runs_forever",
    "C12_fixed_point",
    "C12_no_step_function",
    "C12_termination_refuted"
   ],
   "note": "Loop of the registration with the step function as partial function on integers; exact values, termination for increasing steps, exact condition for running forever, null step function."
  },
  {
   "property": "C13",
   "status": "proved",
   "theorems": [
    "C13_order_is_reading_order",
    "C13_irreflexive",
    "C13_transitive",
    "C13_exactly_one",
    "C13_equality"
   ],
   "note": "Exact reading order, strict total order, equality."
  },
  {
   "property": "C14",
   "status": "proved",
   "theorems": [
    "C14_accepted",
    "C14_format_check",
    "C14_round_trip",
    "C14_equality",
    "C14_nested"
   ],
   "note": "All byte strings; acceptance, round trip, class path, equality, nested class names."
  },
  {
   "property": "C15",
   "status": "proved",
   "theorems": [
    "C15_equality",
    "C15_reflexive",
    "C15_symmetric",
    "C15_transitive",
    "C15_revisions_ignored"
   ],
   "note": "Equality characterised field by field; path equality up to repeated separators (POSIX)."
  },
  {
   "property": "C16",
   "status": "proved",
   "theorems": [
    "C16_typing",
    "C16_typing_unique",
    "C16_stable",
    "C16_texts"
   ],
   "note": "Typing characterised by literals and words; stability of printed values."
  },
  {
   "property": "C17",
   "status": "proved",
   "theorems": [
    "C17_last_write_wins",
    "C17_never_set"
   ],
   "note": "All sequences of sets."
  },
  {
   "property": "C18",
   "status": "proved",
   "theorems": [
    "C18_dump_load",
    "C18_json_instance",
    "C18_load",
    "C18_iteration",
    "C18_const_iteration_refuted"
   ],
   "note": "JSON library as argument with a stated contract (an instance is proved correct); arbitrary hash table orders. Const iteration yields nothing (C18_const_iteration_refuted)."
  },
  {
   "property": "C19",
   "status": "proved",
   "theorems": [
    "C19_iteration_is_preorder",
    "C19_parents_first"
   ],
   "note": "Iterator as explicit queue and visited set over a heap of cells; every order of the child sets. Iteration is the pre-order whose siblings are sorted by lower cased name."
  },
  {
   "property": "C20",
   "status": "proved",
   "theorems": [
    "C20_comparison_is_iteration_order",
    "C20_strict_total_order",
    "C20_equal_names_refuted",
    "C20_other_trees_refuted"
   ],
   "note": "Features of one tree with distinct sibling names up to case; refuted for equal names and for features of different trees."
  },
  {
   "property": "C21",
   "status": "proved",
   "theorems": [
    "C21_vector_sorted"
   ],
   "note": "Any sequence of inserts into an ordered vector."
  },
  {
   "property": "C22",
   "status": "proved",
   "theorems": [
    "C22_children_are_nearest",
    "C22_children_defined",
    "C22_relationships_of_descendants"
   ],
   "note": "Nearest descendants of the wanted kind, for every order of the child sets; relationships of descendants are reported too (C22_relationships_of_descendants)."
  },
  {
   "property": "C23",
   "status": "proved",
   "theorems": [
    "C23_histories_keep_the_tree",
    "C23_modifications_keep_the_tree",
    "C23_represented_models_are_trees",
    "C23_cycles_are_accepted_refuted"
   ],
   "note": "History of all twelve kinds of modification on a heap of nodes, for every order of the child sets, errors included. C23_cycles_are_accepted_refuted: a move below the feature's own descendant commits successfully."
  },
  {
   "property": "C24",
   "status": "proved",
   "theorems": [
    "C24_added_as_last_child",
    "C24_present_name_is_rejected"
   ],
   "note": "Stated as an edit of the abstract tree plus a frame for all other nodes."
  },
  {
   "property": "C25",
   "status": "proved",
   "theorems": [
    "C25_removes_exactly_the_subtree",
    "C25_inner_features_are_kept",
    "C25_absent_names_are_reported",
    "C25_removing_the_root_is_undefined"
   ],
   "note": "Both modes; removing the root is undefined behaviour (null parent) and proved so."
  },
  {
   "property": "C26",
   "status": "proved",
   "theorems": [
    "C26_grouping_and_ungrouping_are_inverse",
    "C26_parents_are_restored",
    "C26_takes_a_relationship_from_below"
   ],
   "note": "Inverse up to the order of the child set; deleting a descendant's relationship leaves it listed there (proved for every such model)."
  },
  {
   "property": "C27",
   "status": "proved",
   "theorems": [
    "C27_new_root_takes_the_children",
    "C27_present_names"
   ],
   "note": "Exact resulting tree."
  },
  {
   "property": "C28",
   "status": "proved",
   "theorems": [
    "C28_moves_the_subtree",
    "C28_rejected"
   ],
   "note": "Exact resulting tree, all three rejections."
  },
  {
   "property": "C29",
   "status": "proved",
   "theorems": [
    "C29_check_decides_the_rules",
    "C29_modify_commits_keep_the_rules",
    "C29_copy_commits_keep_the_rules",
    "C29_closed_copies_hand_out_nothing",
    "C29_copy_calls_report",
    "C29_calls_on_closed_copies"
   ],
   "note": "The rules are stated as a separate record; the check decides them whenever it is defined."
  },
  {
   "property": "C30",
   "status": "proved",
   "theorems": [
    "C30_commit_runs_a_prefix",
    "C30_calls_are_queued_in_order",
    "C30_failures_change_nothing",
    "C30_closed_transactions_are_refused",
    "C30_destruction_commits",
    "C30_name_commit_and_path"
   ],
   "note": "Both directions: a commit ends as specified, and whatever is specified is what the commit does."
  },
  {
   "property": "C31",
   "status": "proved",
   "theorems": [
    "C31_copies_are_apart",
    "C31_the_original_stays"
   ],
   "note": "Every cell of the heap that existed before, and separation of the copy."
  },
  {
   "property": "C32",
   "status": "proved",
   "theorems": [
    "C32_clones",
    "C32_cloning_depends_on_the_hash_order_refuted"
   ],
   "note": "For every hash order; the losses are spelled out by the definition kept. The dependence on the hash order is a separate refutation."
  },
  {
   "property": "C33",
   "status": "proved",
   "theorems": [
    "C33_adding_a_child_to_a_copy_does_nothing"
   ],
   "note": "For every state of the copy transaction."
  },
  {
   "property": "C34",
   "status": "proved",
   "theorems": [
    "C34_constraints_are_connected"
   ],
   "note": "Positions of all mentions; missing names included."
  },
  {
   "property": "C35",
   "status": "proved",
   "theorems": [
    "C35_removes_what_is_listed_with_all_below",
    "C35_removing_everything_is_undefined",
    "C35_repeated_names_refuted"
   ],
   "note": "Non-recursive mode, for every order the partition may produce. The condition is stated through parent links only. Listing everything and repeated names are characterised separately."
  },
  {
   "property": "C36",
   "status": "proved",
   "theorems": [
    "C36_merged_model",
    "C36_unlike_features_are_refused",
    "C36_unknown_root_is_undefined",
    "C36_root_ranges_refuted"
   ],
   "note": "All pairs of represented models in one heap whose first model can be cloned (constraints over own features, no other feature named root). Success, refusal and the undefined case are exact; the lost ranges of a shared root are a refuted union."
  },
  {
   "property": "C37",
   "status": "proved",
   "theorems": [
    "C37_the_described_model_is_built",
    "C37_duplicate_names_yield_null",
    "C37_bad_edges_yield_null",
    "C37_bad_constraints_yield_null",
    "C37_groups_of_undeclared_names_are_undefined"
   ],
   "note": "The model is as described, and each of the failing cases."
  },
  {
   "property": "C38",
   "status": "proved",
   "theorems": [
    "C38_solutions_are_valid_configurations",
    "C38_constraints_mean_what_they_say"
   ],
   "note": "Supported models: no unknown features, no binary feature below a numeric one, no empty alternative, ranges that stepping leaves, well-typed constraints. Names of numeric group members or group parents stand for a separate boolean constant, as in the encoding."
  },
  {
   "property": "C39",
   "status": "proved",
   "theorems": [
    "C39_xor_is_not_both",
    "C39_nested_xor_is_not_both",
    "C39_exclusive_or_refuted"
   ],
   "note": "The expected exclusive or is refuted by a witness."
  },
  {
   "property": "C40",
   "status": "proved",
   "theorems": [
    "C40_every_solution_once",
    "C40_every_valid_configuration_once"
   ],
   "note": "The oracle is required to decide the asserted formulas extended by exclusions of option values. Both for arbitrary reached solver states and end to end for loaded models."
  },
  {
   "property": "C41",
   "status": "proved",
   "theorems": [
    "C41_as_many_as_requested",
    "C41_exact_number"
   ],
   "note": ""
  },
  {
   "property": "C42",
   "status": "proved",
   "theorems": [
    "C42_validity_test_always_true",
    "C42_validity_test_refuted",
    "C42_solver_query_before",
    "C42_solver_query_after"
   ],
   "note": "That the test answers according to satisfiability is refuted by a witness."
  },
  {
   "property": "C43",
   "status": "proved",
   "theorems": [
    "C43_every_feature_registered",
    "C43_refused_features",
    "C43_refused_names",
    "C43_refused_calls_change_nothing"
   ],
   "note": ""
  },
  {
   "property": "C44",
   "status": "proved",
   "theorems": [
    "C44_mixed_constraints"
   ],
   "note": ""
  },
  {
   "property": "C45",
   "status": "proved",
   "theorems": [
    "C45_alternatives_are_found"
   ],
   "note": "Stated for the model returned by the reader, for every valid document whose calls describe a tree. Starts from libxml2's element tree."
  },
  {
   "property": "C46",
   "status": "proved",
   "theorems": [
    "C46_written_models_are_read_back",
    "C46_groups_and_values_are_kept_refuted"
   ],
   "note": "Between writer and reader lies the element tree: libxml2's serialisation and parsing are taken to be inverse. Two assumptions on the exponent oracle and the hash order are stated. That or-groups and values are kept is refuted by a witness."
  },
  {
   "property": "C47",
   "status": "proved",
   "theorems": [
    "C47_entries_become_calls",
    "C47_documents_are_read",
    "C47_over_indented_lines_are_rejected",
    "C47_names_with_their_identifier_are_rejected",
    "C47_lines_without_colon_are_rejected",
    "C47_unmarked_lines",
    "C47_lines_left_of_the_root_are_undefined",
    "C47_levels"
   ],
   "note": "From the text of the document to the built model, for every tree of entries in the accepted layout. libxml2 and the DTD are outside. That [1,-1] is taken for [1,*] is shown by an example."
  },
  {
   "property": "C48",
   "status": "proved",
   "theorems": [
    "C48_replaced_identifiers_are_gone",
    "C48_shorter_names_terminate",
    "C48_names_lacking_a_character_terminate",
    "C48_replacement_may_not_terminate_refuted",
    "C48_identifiers_become_names",
    "C48_each_identifier_becomes_its_name_refuted"
   ],
   "note": "Formulas: possibly negated words joined by and/or, in one of the layouts; conditions under which replacements do not disturb each other are explicit. Termination and faithfulness for all identifiers are refuted by witnesses."
  },
  {
   "property": "C49",
   "status": "proved",
   "theorems": [
    "C49_all_flags_are_written",
    "C49_entries_tell_flags_apart",
    "C49_flags_with_quotes_refuted",
    "C49_tables_are_read"
   ],
   "note": "The YAML printer and the CSV library are outside: the model ends with the map of texts and starts with a table of columns and rows. That entries tell flags with quotation marks apart is refuted."
  },
  {
   "property": "C50",
   "status": "proved",
   "theorems": [
    "C50_add",
    "C50_remove",
    "C50_remove_undefined",
    "C50_update",
    "C50_update_missing",
    "C50_add_then_remove"
   ],
   "note": "Exact list effect of add, remove and update; undefined removal characterised."
  },
  {
   "property": "C51",
   "status": "proved",
   "theorems": [
    "C51_visitor_visits_all_leaves"
   ],
   "note": ""
  },
  {
   "property": "C52",
   "status": "proved",
   "theorems": [
    "C52_document_type",
    "C52_calls_of_a_document",
    "C52_only_valid_documents_are_read",
    "C52_documents_are_read",
    "C52_nameless_options_become_the_root",
    "C52_valid_documents_are_defined_refuted",
    "C52_texts_are_read",
    "C52_readings_are_unique",
    "C52_positions_are_unsigned"
   ],
   "note": "libxml2's parser is outside: the model starts with the element tree; DTD validation is modelled. Step functions and exponents are parameters. Definedness of all valid documents is refuted by a witness."
  },
  {
   "property": "C53",
   "status": "proved",
   "theorems": [
    "C53_clones_have_the_same_valid_configurations",
    "C53_clones_are_enumerated_alike",
    "C53_clones_of_stepped_ranges_refuted"
   ],
   "note": "For models with lists of values; refuted for stepped ranges. The enumeration compares any two oracles deciding the formulas."
  },
  {
   "property": "C54",
   "status": "proved",
   "theorems": [
    "C54_models_read_back_have_the_same_valid_configurations",
    "C54_models_read_back_are_enumerated_alike",
    "C54_or_groups_refuted"
   ],
   "note": "Under the stated conditions on groups and values; refuted for or-groups. Element trees as in C46."
  },
  {
   "property": "C55",
   "status": "proved",
   "theorems": [
    "C55_built_models_have_the_described_configurations",
    "C55_built_models_are_enumerated_as_described",
    "C55_documents_have_the_described_configurations",
    "C55_documents_are_enumerated_as_described"
   ],
   "note": "Composes the builder, the XML reader, the solver encoding and the enumeration; the description is stated on names only. The solver is an oracle deciding the formulas."
  },
  {
   "property": "C56",
   "status": "proved",
   "theorems": [
    "C56_all_configurations_are_written",
    "C56_samples_are_written",
    "C56_bad_input_is_refused",
    "C56_success_needs_a_valid_document",
    "C56_only_verified_files_are_loaded",
    "C56_values_are_written_as_numbers_refuted",
    "C56_configurations_are_told_apart_refuted"
   ],
   "note": "Command line, file syntax and messages are outside the model; the output is the map handed to the YAML printer. Two expectations are refuted."
  },
  {
   "property": "C57",
   "status": "proved",
   "theorems": [
    "C57_separate_features_are_removed_with_all_below",
    "C57_nested_features_are_removed_with_all_below",
    "C57_removing_the_root_is_undefined",
    "C57_features_in_groups_refuted",
    "C57_everything_is_removed_or_returned_refuted",
    "C57_unsorted_children_refuted"
   ],
   "note": "Addresses are an injective function, std::set_intersection is the standard merge. Three expectations are refuted."
  },
  {
   "property": "C58",
   "status": "proved",
   "theorems": [
    "C58_models_have_the_stated_configurations",
    "C58_stated_configurations_are_enumerated",
    "C58_negated_formulas_are_not_solved",
    "C58_negation_refuted"
   ],
   "note": "The formula operator ~ becomes an arithmetic minus, so that documents with it are not solved; this is stated exactly and as a refutation."
  },
  {
   "property": "C59",
   "status": "proved",
   "theorems": [
    "C59_graphs_draw_the_tree",
    "C59_graphs_tell_the_tree",
    "C59_labels_are_well_formed",
    "C59_nested_operators_refuted",
    "C59_output_strings_refuted"
   ],
   "note": "Labels with nested markup operators or with brackets in output strings are not HTML-like strings; stated as refutations."
  },
  {
   "property": "C60",
   "status": "proved",
   "theorems": [
    "C60_dumps_list_every_feature",
    "C60_dumps_tell_the_features",
    "C60_children_name_their_parent",
    "C60_parents_list_their_children",
    "C60_grouped_features_refuted"
   ],
   "note": "Members of groups state a parent that does not list them; stated as a refutation."
  },
  {
   "property": "C61",
   "status": "proved",
   "theorems": [
    "C61_features_know_their_constraints",
    "C61_models_are_registered",
    "C61_edits_keep_constraints",
    "C61_constraints_mention_features_of_the_model_refuted",
    "C61_obtained_models_are_drawn"
   ],
   "note": "Added features are taken to be in no constraint yet. That constraints mention features of the model after a removal is refuted."
  },
  {
   "property": "C62",
   "status": "proved",
   "theorems": [
    "C62_dumps_tell_the_description",
    "C62_files_picture_the_description",
    "C62_viewers_picture_the_description",
    "C62_descriptions_are_shown",
    "C62_other_files_are_refused",
    "C62_nothing_else_is_written",
    "C62_verify_makes_no_difference",
    "C62_verify_exits_refuted",
    "C62_exit_codes_report_failures_refuted"
   ],
   "note": "Parsing of the command line, messages and executed programs are outside the model. That --verify exits, and that an unwritable output shows in the exit code, is refuted."
  },
  {
   "property": "C63",
   "status": "proved",
   "theorems": [
    "C63_valid_configurations_obey_the_rules",
    "C63_added_features_add_their_rules",
    "C63_configurations_extend_to_added_features",
    "C63_removed_features_lift_their_rules",
    "C63_configurations_without_a_removed_feature_stay",
    "C63_removals_keep_a_valid_configuration_refuted",
    "C63_moved_features_change_their_parent",
    "C63_grouping_replaces_mandatory_rules",
    "C63_ungrouping_restores_the_configurations",
    "C63_new_roots_replace_the_old_one",
    "C63_added_constraints_have_to_hold",
    "C63_locations_do_not_matter",
    "C63_descriptions_do_not_matter"
   ],
   "note": "Exact changes of the set of valid configurations for every modification; for a member of a group only that configurations without it stay valid. That removals keep a model satisfiable is refuted by an emptied group."
  },
  {
   "property": "C64",
   "status": "proved",
   "theorems": [
    "C64_document_type",
    "C64_verified_documents",
    "C64_documents_say_one_thing",
    "C64_documents_are_read",
    "C64_documents_are_enumerated",
    "C64_meta_data_make_no_difference",
    "C64_other_documents_are_refused",
    "C64_models_come_from_named_documents",
    "C64_nameless_documents_are_undefined",
    "C64_verified_documents_are_defined_refuted",
    "C64_verified_documents_are_read_refuted",
    "C64_only_feature_models_are_read_refuted"
   ],
   "note": "From the element tree; libxml2 itself (text to elements, validation algorithm) is represented by the meaning of the document type. Three readings that one could expect are refuted: verified documents are defined, verified documents are read, only feature models are read."
  },
  {
   "property": "C65",
   "status": "proved",
   "theorems": [
    "C65_name_first",
    "C65_number_first",
    "C65_arithmetic_range",
    "C65_geometric_range",
    "C65_plus_one_ends_refuted",
    "C65_positive_summand_ends_refuted",
    "C65_doubling_defined_refuted"
   ],
   "note": "Doubles are those of Coq's SpecFloat (IEEE 754 binary64); std::pow is an argument that has to be exact for the statement on powers. Termination and definedness for every range are refuted."
  },
  {
   "property": "C66",
   "status": "proved",
   "theorems": [
    "C66_exact",
    "C66_near",
    "C66_never_negative",
    "C66_round_trip",
    "C66_exponent_zero_refuted"
   ],
   "note": "On SpecFloat's doubles; the reading of decimal numerals by APFloat is modelled as correct rounding (overflow gives infinity, underflow zero). Exponents below 24000, where APFloat stops counting. That an exponent of zero changes nothing is refuted."
  },
  {
   "property": "C67",
   "status": "proved",
   "theorems": [
    "C67_acceptable_calls_are_built",
    "C67_groups_of_undeclared_features_are_undefined",
    "C67_all_other_calls_yield_null",
    "C67_cases",
    "C67_trees_exactly_if_rooted",
    "C67_built_models_are_trees_refuted"
   ],
   "note": "For calls that mention features in constraints by name and group no feature twice (grouping twice is C37's regroup assertion). That built models are trees is refuted."
  },
  {
   "property": "C68",
   "status": "proved",
   "theorems": [
    "C68_outcomes",
    "C68_refused_exactly",
    "C68_null_exactly",
    "C68_only_well_written_documents_are_read",
    "C68_bad_texts_are_refused_refuted",
    "C68_documents_give_trees_refuted",
    "C68_well_written_documents_are_defined_refuted",
    "C68_undefined_exactly",
    "C68_read_otherwise",
    "C68_step_functions"
   ],
   "note": "From the tree of elements libxml2 delivers. C68_refused_exactly, C68_null_exactly, C68_undefined_exactly and C68_read_otherwise cover all valid well-written documents; three expectations are refuted."
  },
  {
   "property": "C69",
   "status": "proved",
   "theorems": [
    "C69_features_are_added_up_to_the_first_clash",
    "C69_the_beginning_is_unique",
    "C69_one_feature_is_added",
    "C69_one_feature_is_removed",
    "C69_groups_come_and_go",
    "C69_unknown_names_are_ignored_refuted",
    "C69_the_commit_is_set"
   ],
   "note": "add_relationship of an unknown name is undefined (C69_unknown_names_are_ignored_refuted), see DESIGN.md findings"
  },
  {
   "property": "C70",
   "status": "proved",
   "theorems": [
    "C70_built_as_asked_but_mandatory",
    "C70_configurations",
    "C70_optional_features_are_optional_refuted",
    "C70_null",
    "C70_undefined",
    "C70_features_are_added_as_given",
    "C70_features_are_removed_as_asked",
    "C70_the_commit_is_set"
   ],
   "note": "optionality is lost by the Python builder (C70_optional_features_are_optional_refuted), see DESIGN.md findings"
  },
  {
   "property": "C71",
   "status": "proved",
   "theorems": [
    "C71_options_have_the_written_values",
    "C71_ranges_are_left",
    "C71_documents_are_enumerated",
    "C71_decimals_are_refused_refuted"
   ],
   "note": "composes C52, C55 and C65; decimal places are misread (C71_decimals_are_refused_refuted), see DESIGN.md findings"
  },
  {
   "property": "C72",
   "status": "proved",
   "theorems": [
    "C72_merged_configurations",
    "C72_configurations_extend",
    "C72_configurations_of_both_models",
    "C72_alternatives_of_the_second_model_refuted"
   ],
   "note": "composes C36, C53 and C63; alternatives of the second model become mandatory features (C72_alternatives_of_the_second_model_refuted), see DESIGN.md findings"
  },
  {
   "property": "C73",
   "status": "proved",
   "theorems": [
    "C73_saving_and_loading_goes_on",
    "C73_nothing_more_is_lost",
    "C73_loaded_models_are_the_same"
   ],
   "note": "builds on C46 by showing that what is read back can be written again and that reading back is idempotent"
  },
  {
   "property": "C74",
   "status": "proved",
   "theorems": [
    "C74_equality_ignores_case",
    "C74_equality_is_an_equivalence",
    "C74_one_of_three",
    "C74_python_sets",
    "C74_python_sets_of_a_model",
    "C74_different_features_are_unequal_refuted"
   ],
   "note": "two features of one model can be equal although one is less than the other (C74_different_features_are_unequal_refuted), see DESIGN.md findings"
  },
  {
   "property": "C75",
   "status": "proved",
   "theorems": [
    "C75_numbers_after_saving_and_loading",
    "C75_numbers_after_many_times",
    "C75_saving_and_loading_keeps_the_number_of_constraints_refuted"
   ],
   "note": "that saving and loading keeps the number of constraints is refuted (C75_saving_and_loading_keeps_the_number_of_constraints_refuted), see DESIGN.md findings"
  },
  {
   "property": "C76",
   "status": "proved",
   "theorems": [
    "C76_documents_do_not_depend_on_memory",
    "C76_saving_twice_gives_the_same_document",
    "C76_loaded_models_are_saved_the_same",
    "C76_saving_what_was_loaded_gives_the_document_back",
    "C76_documents_are_reproducible_refuted"
   ],
   "note": "without the condition on the names of siblings it is refuted (C76_documents_are_reproducible_refuted), see DESIGN.md findings"
  },
  {
   "property": "C77",
   "status": "proved",
   "theorems": [
    "C77_modifications_are_defined_exactly_if",
    "C77_constraints_stay_about_the_model_exactly_if",
    "C77_careful_transactions_are_committed",
    "C77_models_made_with_care_are_sound",
    "C77_sound_models_can_be_used",
    "C77_modifications_are_always_defined_refuted"
   ],
   "note": "that modifications of sound models are always defined is refuted (C77_modifications_are_always_defined_refuted), see DESIGN.md findings"
  },
  {
   "property": "C78",
   "status": "proved",
   "theorems": [
    "C78_models_that_look_the_same_have_the_same_valid_configurations",
    "C78_models_that_look_the_same_are_enumerated_alike",
    "C78_loaded_models_keep_their_valid_configurations",
    "C78_loaded_models_are_enumerated_alike"
   ],
   "note": ""
  },
  {
   "property": "C79",
   "status": "proved",
   "theorems": [
    "C79_calls_modify_the_copy",
    "C79_copies_become_what_originals_would",
    "C79_careful_copies_are_handed_out",
    "C79_added_features_are_below_the_feature_asked_for_refuted",
    "C79_refused_calls_stop_the_transaction_refuted"
   ],
   "note": "that an added feature is below the feature asked for, and that a refused call stops the transaction, are refuted (C79_added_features_are_below_the_feature_asked_for_refuted, C79_refused_calls_stop_the_transaction_refuted), see DESIGN.md findings"
  },
  {
   "property": "C80",
   "status": "proved",
   "theorems": [
    "C80_clones_of_plain_models_are_the_same",
    "C80_clones_of_clones_are_the_same",
    "C80_clones_of_plain_models_have_the_same_configurations",
    "C80_clones_are_saved_as_the_same_document",
    "C80_all_clones_are_saved_as_the_same_document_refuted"
   ],
   "note": "that every clone is saved as the same document is refuted (C80_all_clones_are_saved_as_the_same_document_refuted), see DESIGN.md findings"
  },
  {
   "property": "C81",
   "status": "proved",
   "theorems": [
    "C81_texts_are_converted",
    "C81_converted_texts_have_the_configurations_of_alternatives",
    "C81_alternatives_are_kept",
    "C81_or_groups_keep_their_configurations_refuted",
    "C81_roots_are_kept_refuted"
   ],
   "note": "that or-groups keep their configurations and that roots are kept are refuted (C81_or_groups_keep_their_configurations_refuted, C81_roots_are_kept_refuted), see DESIGN.md findings"
  },
  {
   "property": "C82",
   "status": "proved",
   "theorems": [
    "C82_old_roots_hang_below_a_new_one",
    "C82_the_new_root_is_selected",
    "C82_enumerated_with_the_new_root",
    "C82_saving_and_loading_goes_on",
    "C82_the_root_is_added_once"
   ],
   "note": "steps and output strings are not written (C46); the side conditions on groups and numbers are those of C52"
  },
  {
   "property": "C83",
   "status": "proved",
   "theorems": [
    "C83_texts_are_converted_below_a_new_root",
    "C83_converted_texts_have_the_configurations_with_the_new_root",
    "C83_the_new_root_adds_nothing_else"
   ],
   "note": "groups with fewer than two members or optional ones are left out, as in C81"
  },
  {
   "property": "C84",
   "status": "proved",
   "theorems": [
    "C84_merging_with_itself_clones",
    "C84_merging_with_itself_keeps_the_configurations",
    "C84_merging_again_adds_nothing",
    "C84_merging_again_keeps_the_configurations",
    "C84_root_ranges_again_refuted",
    "C84_strict_merging_again_refuted",
    "C84_alternatives_again_refuted"
   ],
   "note": "only the name of the root is kept by merging again, its source ranges change; features below groups and strict mode are covered by refutations"
  },
  {
   "property": "C85",
   "status": "proved",
   "theorems": [
    "C85_strict_merging_either_way",
    "C85_groups_either_way_refuted",
    "C85_kinds_either_way_refuted"
   ],
   "note": "source ranges of the root are not compared; groups and merging outside strict mode are covered by refutations"
  },
  {
   "property": "C86",
   "status": "proved",
   "theorems": [
    "C86_one_modification_is_undone",
    "C86_transactions_are_undone",
    "C86_replaced_roots_come_back_empty",
    "C86_equal_ranges_are_undone_refuted",
    "C86_moves_are_undone_refuted",
    "C86_replaced_roots_keep_their_ranges_refuted"
   ],
   "note": "grouping and ungrouping are C26; constraints cannot be removed, so adding one cannot be undone"
  },
  {
   "property": "C87",
   "status": "proved",
   "theorems": [
    "C87_builder_calls_in_any_order",
    "C87_edges_in_any_order_refuted",
    "C87_names_in_any_order_refuted"
   ],
   "note": "for calls that contradict each other the order matters; see the two refuted theorems"
  },
  {
   "property": "C88",
   "status": "proved",
   "theorems": [
    "C88_transactions_have_one_owner",
    "C88_commits_report",
    "C88_no_modification_twice",
    "C88_every_modification_once",
    "C88_moved_from_needs_no_model_refuted",
    "C88_moved_from_is_aborted_refuted",
    "C88_assigning_commits_refuted",
    "C88_late_calls_fail_refuted"
   ],
   "note": "what does not hold of variables that were moved from or overwritten is stated by the four refuted theorems"
  },
  {
   "property": "C89",
   "status": "proved",
   "theorems": [
    "C89_results_are_passed_on",
    "C89_copies_of_numbers",
    "C89_copies_that_agree",
    "C89_copied_numbers_of_configurations",
    "C89_copied_validity",
    "C89_values_are_taken_once",
    "C89_copies_are_equal_refuted",
    "C89_copies_keep_errors_refuted"
   ],
   "note": "that copies equal the original is false for numbers; see the two refuted theorems"
  },
  {
   "property": "C90",
   "status": "proved",
   "theorems": [
    "C90_number_of_configurations",
    "C90_added_feature",
    "C90_unselected_adds_nothing_refuted"
   ],
   "note": "for models without constraints; that nothing is counted below unselected features is false; see the refuted theorem"
  },
  {
   "property": "C91",
   "status": "proved",
   "theorems": [
    "C91_builders_build_once",
    "C91_at_most_one_model",
    "C91_first_reading",
    "C91_refused_stays_refused",
    "C91_readers_read_once",
    "C91_reading_twice_refuted",
    "C91_late_constraints_refuted"
   ],
   "note": "that a parser can be asked twice, and that late constraints are reported, is false; see the two refuted theorems"
  },
  {
   "property": "C92",
   "status": "proved",
   "theorems": [
    "C92_iterators_share_one_place",
    "C92_second_loop_refuted",
    "C92_early_step_refuted",
    "C92_own_place_refuted"
   ],
   "note": "that a second loop starts again, that an increment before the first look skips a configuration, and that iterators have places of their own is false; see the three refuted theorems"
  },
  {
   "property": "C93",
   "status": "proved",
   "theorems": [
    "C93_opposite_constraints_split",
    "C93_constraints_add_no_configuration",
    "C93_division_refuted"
   ],
   "note": "with divisions by zero the sum is wrong; see C93_division_refuted"
  },
  {
   "property": "C94",
   "status": "proved",
   "theorems": [
    "C94_next_is_new_and_valid",
    "C94_exhausted_when_all_given",
    "C94_current_is_the_last",
    "C94_asked_in_time",
    "C94_asking_is_harmless",
    "C94_late_options_are_enumerated_refuted",
    "C94_current_is_valid_refuted"
   ],
   "note": "that late options are enumerated and that the current configuration stays valid is false; see the two refuted theorems"
  },
  {
   "property": "C95",
   "status": "proved",
   "theorems": [
    "C95_merging_gathers_all",
    "C95_merging_in_any_order",
    "C95_merging_succeeds_pairwise",
    "C95_cases_in_any_order_refuted"
   ],
   "note": "that names which differ in case only do no harm is false; see C95_cases_in_any_order_refuted"
  },
  {
   "property": "C96",
   "status": "proved",
   "theorems": [
    "C96_the_last_saving_counts",
    "C96_saved_models_are_loaded",
    "C96_codes",
    "C96_only_negative_numbers_are_failures_refuted"
   ],
   "note": "that results which are not negative mean success is false; see C96_only_negative_numbers_are_failures_refuted"
  },
  {
   "property": "C97",
   "status": "proved",
   "theorems": [
    "C97_short_documents_are_read_whole",
    "C97_bytes_that_are_read",
    "C97_assertion_fails",
    "C97_longer_documents_look_like_short_ones",
    "C97_assertions_notice_every_long_document_refuted",
    "C97_document_types_are_whole"
   ],
   "note": "that assertions notice every long document is false; see C97_assertions_notice_every_long_document_refuted"
  },
  {
   "property": "C98",
   "status": "proved",
   "theorems": [
    "C98_iterators_are_places",
    "C98_equal_at_the_same_feature",
    "C98_equal_at_the_same_feature_whatever_the_names_refuted",
    "C98_equal_iterators_stay_equal",
    "C98_equal_iterators_from_anywhere_stay_equal_refuted",
    "C98_equal_iterators_part_at_an_end",
    "C98_steps_to_the_end"
   ],
   "note": "that iterators are equal only at the same feature, and that equal iterators stay equal, is false in general; see C98_equal_at_the_same_feature_whatever_the_names_refuted and C98_equal_iterators_from_anywhere_stay_equal_refuted"
  }
 ]
}