{
 "claims": [
  {
   "property": "C01",
   "status": "proved",
   "theorems": [
    "C01_contract_is_einstein_sum",
    "C01_place_meaning"
   ],
   "note": ""
  },
  {
   "property": "C02",
   "status": "proved",
   "theorems": [
    "C02_contract_validation"
   ],
   "note": ""
  },
  {
   "property": "C03",
   "status": "proved",
   "theorems": [
    "C03_dimension_mismatch_silent_refuted"
   ],
   "note": "The property is false of the code; the _refuted theorem gives a witness."
  },
  {
   "property": "C04",
   "status": "proved",
   "theorems": [
    "C04_gradient",
    "C04_divergence"
   ],
   "note": ""
  },
  {
   "property": "C05",
   "status": "proved",
   "theorems": [
    "C05_divergence_positions_refuted",
    "C05_no_position_above_one"
   ],
   "note": "The property is false of the code; the _refuted theorem gives a witness."
  },
  {
   "property": "C06",
   "status": "proved",
   "theorems": [
    "C06_elements",
    "C06_map_to_array"
   ],
   "note": ""
  },
  {
   "property": "C07",
   "status": "proved",
   "theorems": [
    "C07_map_to_array_shape_refuted",
    "C07_every_column_becomes_square"
   ],
   "note": "The property is false of the code; the _refuted theorem gives a witness."
  },
  {
   "property": "C08",
   "status": "proved",
   "theorems": [
    "C08_raise_lower_contracts_with_metric"
   ],
   "note": ""
  },
  {
   "property": "C09",
   "status": "proved",
   "theorems": [
    "C09_raise_lower_round_trip",
    "C09_raise_lower_composition"
   ],
   "note": ""
  },
  {
   "property": "C10",
   "status": "proved",
   "theorems": [
    "C10_transform_applies_jacobians"
   ],
   "note": ""
  },
  {
   "property": "C11",
   "status": "proved",
   "theorems": [
    "C11_transform_composition",
    "C11_transform_undone"
   ],
   "note": ""
  },
  {
   "property": "C12",
   "status": "proved",
   "theorems": [
    "C12_transform_commutes_with_raise_lower"
   ],
   "note": ""
  },
  {
   "property": "C13",
   "status": "proved",
   "theorems": [
    "C13_scalars_invariant"
   ],
   "note": ""
  },
  {
   "property": "C14",
   "status": "proved",
   "theorems": [
    "C14_history_independence",
    "C14_history_values"
   ],
   "note": ""
  },
  {
   "property": "C15",
   "status": "proved",
   "theorems": [
    "C15_metric_requested_first_refuted"
   ],
   "note": "The property is false of the code; the _refuted theorem gives a witness."
  },
  {
   "property": "C16",
   "status": "proved",
   "theorems": [
    "C16_new_metric_representations",
    "C16_transformed_metric_representations",
    "C16_new_metric_stored"
   ],
   "note": ""
  },
  {
   "property": "C17",
   "status": "proved",
   "theorems": [
    "C17_requested_christoffel",
    "C17_christoffel_transform"
   ],
   "note": ""
  },
  {
   "property": "C18",
   "status": "proved",
   "theorems": [
    "C18_christoffel_history_refuted"
   ],
   "note": "The property is false of the code; the _refuted theorem gives a witness."
  },
  {
   "property": "C19",
   "status": "proved",
   "theorems": [
    "C19_jacobian_follows_coordinate_order",
    "C19_jacobian_fails_only_if_singular"
   ],
   "note": ""
  },
  {
   "property": "C20",
   "status": "proved",
   "theorems": [
    "C20_missing_rule_is_positional_refuted"
   ],
   "note": "The property is false of the code; the _refuted theorem gives a witness."
  },
  {
   "property": "C21",
   "status": "proved",
   "theorems": [
    "C21_replaced_rules_refuted"
   ],
   "note": "The property is false of the code; the _refuted theorem gives a witness."
  },
  {
   "property": "C22",
   "status": "proved",
   "theorems": [
    "C22_removed_transformation_refuted"
   ],
   "note": "The property is false of the code; the _refuted theorem gives a witness."
  },
  {
   "property": "C23",
   "status": "proved",
   "theorems": [
    "C23_substitution_not_simultaneous_refuted"
   ],
   "note": "The property is false of the code; the _refuted theorem gives a witness."
  },
  {
   "property": "C24",
   "status": "proved",
   "theorems": [
    "C24_sequential_is_simultaneous",
    "C24_simultaneous_meaning"
   ],
   "note": ""
  },
  {
   "property": "C25",
   "status": "proved",
   "theorems": [
    "C25_failed_coordinates_leave_no_trace",
    "C25_failed_tensor_leaves_no_trace",
    "C25_failed_metric_leaves_no_trace"
   ],
   "note": ""
  },
  {
   "property": "C26",
   "status": "proved",
   "theorems": [
    "C26_failed_metric_registered_refuted"
   ],
   "note": "The property is false of the code; the _refuted theorem gives a witness."
  },
  {
   "property": "C27",
   "status": "proved",
   "theorems": [
    "C27_index_tuples_validated"
   ],
   "note": ""
  },
  {
   "property": "C28",
   "status": "proved",
   "theorems": [
    "C28_tensor_arguments_validated",
    "C28_new_tensor_attributes"
   ],
   "note": ""
  },
  {
   "property": "C29",
   "status": "proved",
   "theorems": [
    "C29_delete_exactly_unused"
   ],
   "note": ""
  },
  {
   "property": "C30",
   "status": "proved",
   "theorems": [
    "C30_referential_integrity"
   ],
   "note": ""
  },
  {
   "property": "C31",
   "status": "proved",
   "theorems": [
    "C31_export_after_deletion_refuted",
    "C31_coordinates_exported",
    "C31_others_exported",
    "C31_session_exported",
    "C31_others_exported_in_sessions",
    "C31_sessions_exported"
   ],
   "note": "The property is false of the code (_refuted theorem): the Jacobians of a removed transformation stay stored under the deleted coordinates. The other theorems show that this is the only reason for a failed export."
  },
  {
   "property": "C32",
   "status": "proved",
   "theorems": [
    "C32_leftover_temporaries_refuted"
   ],
   "note": "The property is false of the code; the _refuted theorem gives a witness."
  },
  {
   "property": "C33",
   "status": "proved",
   "theorems": [
    "C33_temporaries_cleanup_law"
   ],
   "note": ""
  },
  {
   "property": "C34",
   "status": "proved",
   "theorems": [
    "C34_delete_results_law",
    "C34_delete_results_only_results"
   ],
   "note": ""
  },
  {
   "property": "C35",
   "status": "proved",
   "theorems": [
    "C35_clear_instances_empties"
   ],
   "note": ""
  },
  {
   "property": "C36",
   "status": "proved",
   "theorems": [
    "C36_user_tensor_removed_refuted"
   ],
   "note": "The property is false of the code; the _refuted theorem gives a witness."
  },
  {
   "property": "C37",
   "status": "proved",
   "theorems": [
    "C37_sum_of_labelled_components"
   ],
   "note": ""
  },
  {
   "property": "C38",
   "status": "proved",
   "theorems": [
    "C38_adding_zero",
    "C38_adding_other_things",
    "C38_adding_derivatives",
    "C38_adding_mismatches"
   ],
   "note": ""
  },
  {
   "property": "C39",
   "status": "proved",
   "theorems": [
    "C39_subtraction_from_number_refuted"
   ],
   "note": "The property is false of the code; the _refuted theorem gives a witness."
  },
  {
   "property": "C40",
   "status": "proved",
   "theorems": [
    "C40_product_sums_over_shared_symbols",
    "C40_product_with_scalar"
   ],
   "note": "Same default coordinates for both operands; with different ones see C41."
  },
  {
   "property": "C41",
   "status": "proved",
   "theorems": [
    "C41_product_mixes_coordinates_refuted",
    "C41_product_in_different_coordinates"
   ],
   "note": "The property is false of the code; the _refuted theorem gives a witness."
  },
  {
   "property": "C42",
   "status": "proved",
   "theorems": [
    "C42_repeated_symbols_are_traces",
    "C42_three_occurrences_are_rejected"
   ],
   "note": "Tensor and metric have the same default coordinates; with different ones see C43."
  },
  {
   "property": "C43",
   "status": "proved",
   "theorems": [
    "C43_trace_mixes_coordinates_refuted"
   ],
   "note": "The property is false of the code; the _refuted theorem gives a witness."
  },
  {
   "property": "C44",
   "status": "proved",
   "theorems": [
    "C44_gradient",
    "C44_divergence",
    "C44_divergence_over_third_index_refuted"
   ],
   "note": "Proved for the gradient and for the divergence over the first or second index. As stated the property is false: a divergence over a third or later index raises ValueError (_refuted theorem)."
  },
  {
   "property": "C45",
   "status": "proved",
   "theorems": [
    "C45_derivative_on_the_right_refuted"
   ],
   "note": "The property is false of the code; the _refuted theorem gives a witness."
  },
  {
   "property": "C46",
   "status": "proved",
   "theorems": [
    "C46_result_in_requested_order",
    "C46_other_orders_are_rejected"
   ],
   "note": ""
  },
  {
   "property": "C47",
   "status": "proved",
   "theorems": [
    "C47_christoffel_value",
    "C47_christoffel_symmetric",
    "C47_metric_compatible"
   ],
   "note": ""
  },
  {
   "property": "C48",
   "status": "proved",
   "theorems": [
    "C48_upper_metric_refuted"
   ],
   "note": "The property is false of the code; the _refuted theorem gives a witness."
  },
  {
   "property": "C49",
   "status": "proved",
   "theorems": [
    "C49_shared_result_refuted"
   ],
   "note": "The property is false of the code; the _refuted theorem gives a witness."
  },
  {
   "property": "C50",
   "status": "proved",
   "theorems": [
    "C50_riemann_value",
    "C50_riemann_antisymmetric",
    "C50_riemann_bianchi",
    "C50_lowered_antisymmetric",
    "C50_lowered_pairs"
   ],
   "note": ""
  },
  {
   "property": "C51",
   "status": "proved",
   "theorems": [
    "C51_ricci_value",
    "C51_scalar_value",
    "C51_einstein_value",
    "C51_ricci_symmetric",
    "C51_einstein_symmetric",
    "C51_einstein_trace"
   ],
   "note": ""
  },
  {
   "property": "C52",
   "status": "proved",
   "theorems": [
    "C52_weyl_value",
    "C52_weyl_traces",
    "C52_weyl_in_two_dimensions"
   ],
   "note": ""
  },
  {
   "property": "C53",
   "status": "proved",
   "theorems": [
    "C53_weyl_destroys_ricci",
    "C53_weyl_deletes_refuted"
   ],
   "note": "The property is false of the code; the _refuted theorem gives a witness."
  },
  {
   "property": "C54",
   "status": "proved",
   "theorems": [
    "C54_every_component_once",
    "C54_labels_are_right",
    "C54_labels_are_complete",
    "C54_zero_scalar_refuted"
   ],
   "note": "FULL for tensors of rank one and more when the zero test recognises every zero; the rank-0 case of the claim is false (a zero scalar is displayed) and is the _refuted theorem."
  },
  {
   "property": "C55",
   "status": "proved",
   "theorems": [
    "C55_lines"
   ],
   "note": ""
  },
  {
   "property": "C56",
   "status": "proved",
   "theorems": [
    "C56_zero_per_line",
    "C56_zero_per_line_refuted"
   ],
   "note": "The claim is false at zero: set_list_per_line accepts 0 and list() then divides by zero (C56_zero_per_line_refuted); the general theorem gives the outcome for every tensor with a non-zero component."
  },
  {
   "property": "C57",
   "status": "proved",
   "theorems": [
    "C57_parser_terminates_refuted",
    "C57_stuck_list",
    "C57_terminates_without_lists"
   ],
   "note": "The claim is false: the parser loops for ever on a curly bracket followed by ) or ] (refuted, with the general form C57_stuck_list). Termination is proved for every text without an opening curly bracket."
  },
  {
   "property": "C58",
   "status": "proved",
   "theorems": [
    "C58_expressions_parsed_back",
    "C58_expressions_read"
   ],
   "note": ""
  },
  {
   "property": "C59",
   "status": "proved",
   "theorems": [
    "C59_quoted_names_refuted",
    "C59_apostrophe_lost",
    "C59_spaces_refuted",
    "C59_empty_name_swallows"
   ],
   "note": "The claim is false: an apostrophe at the end of a name is lost, repeated spaces are merged, and an empty name swallows the text that follows. C60 is the part that holds."
  },
  {
   "property": "C60",
   "status": "proved",
   "theorems": [
    "C60_names_read_back",
    "C60_rest_is_separate"
   ],
   "note": ""
  },
  {
   "property": "C61",
   "status": "proved",
   "theorems": [
    "C61_decimals_refuted",
    "C61_every_decimal_fails",
    "C61_leading_point"
   ],
   "note": "The claim is false for every decimal with digits on both sides of the point; it holds for those that begin with the point."
  },
  {
   "property": "C62",
   "status": "proved",
   "theorems": [
    "C62_no_characters_dropped_refuted",
    "C62_stray_less",
    "C62_stray_greater",
    "C62_stray_bar",
    "C62_all_characters_kept"
   ],
   "note": "The claim is false for stray <, > and |, which disappear with the next character; it is proved for texts without them, quotes and points."
  },
  {
   "property": "C63",
   "status": "proved",
   "theorems": [
    "C63_geodesics_not_transformed",
    "C63_geodesics_in_other_coordinates_refuted"
   ],
   "note": "The claim is false for every coordinate change: the transformed components are the old ones (general theorem), and a session shows that they are not the equations in the new coordinates (_refuted)."
  },
  {
   "property": "C64",
   "status": "proved",
   "theorems": [
    "C64_mixed_default_refuted"
   ],
   "note": "The property is false of the code; the _refuted theorem gives a witness."
  },
  {
   "property": "C65",
   "status": "proved",
   "theorems": [
    "C65_symbol_count_refuted"
   ],
   "note": "The property is false of the code; the _refuted theorem gives a witness."
  },
  {
   "property": "C66",
   "status": "proved",
   "theorems": [
    "C66_covariant_derivative_of_sum_refuted"
   ],
   "note": "The property is false of the code; the _refuted theorem gives a witness."
  },
  {
   "property": "C67",
   "status": "proved",
   "theorems": [
    "C67_zero_tensor"
   ],
   "note": ""
  },
  {
   "property": "C68",
   "status": "proved",
   "theorems": [
    "C68_documents_parsed_back",
    "C68_documents_read"
   ],
   "note": ""
  },
  {
   "property": "C69",
   "status": "proved",
   "theorems": [
    "C69_association_keys"
   ],
   "note": ""
  },
  {
   "property": "C70",
   "status": "proved",
   "theorems": [
    "C70_call_value",
    "C70_nested_calls_fail",
    "C70_nested_calls_refuted"
   ],
   "note": "The claim is false: the arguments are converted from the printed form of their nodes. The refutation assumes that SymPy refuses the text (Cos[x]), a subscripted symbol; SymPy is outside the model."
  },
  {
   "property": "C71",
   "status": "proved",
   "theorems": [
    "C71_lagrangian_covariant",
    "C71_requested_lagrangian"
   ],
   "note": ""
  },
  {
   "property": "C72",
   "status": "proved",
   "theorems": [
    "C72_lagrangian_value",
    "C72_geodesic_christoffel_value"
   ],
   "note": "Sessions with one metric; requests in the default coordinates of the metric."
  },
  {
   "property": "C73",
   "status": "proved",
   "theorems": [
    "C73_geodesic_lagrangian_value",
    "C73_same_solutions"
   ],
   "note": "Sessions with one metric; requests in the default coordinates of the metric; activate=True."
  },
  {
   "property": "C74",
   "status": "proved",
   "theorems": [
    "C74_geodesic_in_given_coordinates_refuted"
   ],
   "note": "The claim is false (_refuted): only the free index is transformed."
  },
  {
   "property": "C75",
   "status": "proved",
   "theorems": [
    "C75_geodesic_time_value",
    "C75_time_equation_trivial",
    "C75_time_from_geodesic"
   ],
   "note": "Sessions with one metric; requests in the default coordinates of the metric."
  },
  {
   "property": "C76",
   "status": "proved",
   "theorems": [
    "C76_shared_lagrangian_refuted"
   ],
   "note": "The claim is false (_refuted)."
  },
  {
   "property": "C77",
   "status": "proved",
   "theorems": [
    "C77_expression_value"
   ],
   "note": "Proved for the grammar of expressions of SpecParse.v, which covers every operator of the parser except unary plus; SymPy's operations are a parameter."
  },
  {
   "property": "C78",
   "status": "proved",
   "theorems": [
    "C78_greek_arguments_refuted",
    "C78_every_greek_argument_fails"
   ],
   "note": "False: the argument is converted from its printed form GREEK:Theta, which SymPy refuses (hypothesis of the theorem)."
  },
  {
   "property": "C79",
   "status": "proved",
   "theorems": [
    "C79_document_value"
   ],
   "note": "Proved for all documents; hypothesis: SymPy's == decides equality of expressions."
  },
  {
   "property": "C80",
   "status": "proved",
   "theorems": [
    "C80_greek_letters_in_names"
   ],
   "note": "Proved: the 49 replacements do not interfere."
  },
  {
   "property": "C81",
   "status": "proved",
   "theorems": [
    "C81_all_groups_count_refuted",
    "C81_later_groups_lost",
    "C81_groups_of_derivative",
    "C81_unequal_groups_of_derivative",
    "C81_several_functions",
    "C81_short_derivative"
   ],
   "note": "False: only the first group is used, except for Derivative."
  },
  {
   "property": "C82",
   "status": "proved",
   "theorems": [
    "C82_blank_text"
   ],
   "note": "Proved."
  },
  {
   "property": "C83",
   "status": "proved",
   "theorems": [
    "C83_export_changes_nothing"
   ],
   "note": ""
  },
  {
   "property": "C84",
   "status": "proved",
   "theorems": [
    "C84_tensor_round_trip"
   ],
   "note": "Hypotheses CodeLaws on SymPy: == is equality, a symbol is a scalar, 1 and -1 are read as integers; the codes of the stored scalars are read back (scalar_back). The components that are not the default ones are recomputed on request and are not compared."
  },
  {
   "property": "C85",
   "status": "proved",
   "theorems": [
    "C85_metric_round_trip"
   ],
   "note": "Hypotheses CodeLaws on SymPy: == is equality, a symbol is a scalar, 1 and -1 are read as integers; the codes of the stored scalars are read back (scalar_back). The components that are not the default ones are recomputed on request and are not compared."
  },
  {
   "property": "C86",
   "status": "proved",
   "theorems": [
    "C86_coordinates_round_trip"
   ],
   "note": "Hypotheses CodeLaws and that the codes of symbols and rules are read back. Jacobians are recomputed on request."
  },
  {
   "property": "C87",
   "status": "proved",
   "theorems": [
    "C87_session_round_trip",
    "C87_empty_session"
   ],
   "note": "Hypotheses CodeLaws on SymPy: == is equality, a symbol is a scalar, 1 and -1 are read as integers; the codes of the stored scalars are read back (scalar_back). The components that are not the default ones are recomputed on request and are not compared."
  },
  {
   "property": "C88",
   "status": "proved",
   "theorems": [
    "C88_import_leaves_no_trace"
   ],
   "note": "Hypothesis DetLaws: the determinant test accepts only matrices that have an inverse."
  },
  {
   "property": "C89",
   "status": "proved",
   "theorems": [
    "C89_import_is_an_operation",
    "C89_import_all_keeps_integrity"
   ],
   "note": ""
  },
  {
   "property": "C90",
   "status": "proved",
   "theorems": [
    "C90_names_are_unique"
   ],
   "note": ""
  },
  {
   "property": "C91",
   "status": "proved",
   "theorems": [
    "C91_equal_names_refuted"
   ],
   "note": "The property is false of the code; the _refuted theorem gives a witness."
  },
  {
   "property": "C92",
   "status": "proved",
   "theorems": [
    "C92_failed_import_all_refuted",
    "C92_unreadable_text"
   ],
   "note": "False of the code (_refuted theorem); the other theorem shows that every unreadable text has this effect."
  },
  {
   "property": "C93",
   "status": "proved",
   "theorems": [
    "C93_one_dimension_refuted"
   ],
   "note": "The property is false of the code; the _refuted theorem gives a witness."
  },
  {
   "property": "C94",
   "status": "proved",
   "theorems": [
    "C94_options_refuted"
   ],
   "note": "The property is false of the code; the _refuted theorem gives a witness."
  },
  {
   "property": "C95",
   "status": "proved",
   "theorems": [
    "C95_empty_symbol_refuted"
   ],
   "note": "The property is false of the code; the _refuted theorem gives a witness."
  },
  {
   "property": "C96",
   "status": "proved",
   "theorems": [
    "C96_mixed_metric_refuted"
   ],
   "note": "The property is false of the code; the _refuted theorem gives a witness."
  },
  {
   "property": "C97",
   "status": "proved",
   "theorems": [
    "C97_namesakes_refuted"
   ],
   "note": "The property is false of the code; the _refuted theorem gives a witness."
  },
  {
   "property": "C98",
   "status": "proved",
   "theorems": [
    "C98_unlucky_name_refuted"
   ],
   "note": "The property is false of the code; the _refuted theorem gives a witness."
  },
  {
   "property": "C99",
   "status": "proved",
   "theorems": [
    "C99_references_have_their_class"
   ],
   "note": ""
  },
  {
   "property": "C100",
   "status": "proved",
   "theorems": [
    "C100_gradient_value",
    "C100_letters"
   ],
   "note": "Hypotheses as in C47 (metric with default configuration (-1,-1), temporary tensors unused, T not called TEMP), and two letters that are not used as symbols; C100_letters shows that up to 24 symbols leave two."
  },
  {
   "property": "C101",
   "status": "proved",
   "theorems": [
    "C101_divergence_value"
   ],
   "note": "Hypotheses as in C47 (metric with default configuration (-1,-1), temporary tensors unused, T not called TEMP), and two letters that are not used as symbols; C100_letters shows that up to 24 symbols leave two."
  },
  {
   "property": "C102",
   "status": "proved",
   "theorems": [
    "C102_right_value",
    "C102_derivative_on_the_right_refuted"
   ],
   "note": "False of the code (_refuted theorem); the other theorem gives the value for every session."
  },
  {
   "property": "C103",
   "status": "proved",
   "theorems": [
    "C103_sum_of_covariant_derivatives_refuted"
   ],
   "note": "False of the code (_refuted theorem)."
  },
  {
   "property": "C104",
   "status": "proved",
   "theorems": [
    "C104_metric_constant"
   ],
   "note": ""
  },
  {
   "property": "C105",
   "status": "proved",
   "theorems": [
    "C105_second_bianchi"
   ],
   "note": ""
  },
  {
   "property": "C106",
   "status": "proved",
   "theorems": [
    "C106_einstein_divergence"
   ],
   "note": ""
  },
  {
   "property": "C107",
   "status": "proved",
   "theorems": [
    "C107_symbol_of_import"
   ],
   "note": ""
  },
  {
   "property": "C108",
   "status": "proved",
   "theorems": [
    "C108_norm_value",
    "C108_norm_configuration",
    "C108_norm_vector",
    "C108_norm_scalar",
    "C108_norm_metric"
   ],
   "note": ""
  },
  {
   "property": "C109",
   "status": "proved",
   "theorems": [
    "C109_shared_norm_refuted"
   ],
   "note": "Refuted: two vectors with the same name share the result of the first, which is not the norm squared of the second (Calc.py 1345-1348)."
  },
  {
   "property": "C110",
   "status": "proved",
   "theorems": [
    "C110_line_element_value",
    "C110_line_element_invariant"
   ],
   "note": ""
  },
  {
   "property": "C111",
   "status": "proved",
   "theorems": [
    "C111_line_element_symbol_refuted"
   ],
   "note": "Refuted: the differential of a coordinate called s is the symbol ds (Metric.py 239-247)."
  },
  {
   "property": "C112",
   "status": "proved",
   "theorems": [
    "C112_volume_element_value",
    "C112_volume_element_change",
    "C112_volume_element_nonzero",
    "C112_determinant_laws"
   ],
   "note": ""
  },
  {
   "property": "C113",
   "status": "proved",
   "theorems": [
    "C113_simplify_keeps_values"
   ],
   "note": ""
  },
  {
   "property": "C114",
   "status": "proved",
   "theorems": [
    "C114_simplify_scalar_refuted",
    "C114_no_scalar_simplifies"
   ],
   "note": "Refuted: sympy.Array(...)[0] indexes an array of rank 0 (BaseTensor.py 638-639); assumes that SymPy raises ValueError for an index of a rank 0 array. C114_no_scalar_simplifies: this happens to every scalar."
  },
  {
   "property": "C115",
   "status": "proved",
   "theorems": [
    "C115_scalar_chain_refuted",
    "C115_no_further_coordinates",
    "C115_the_error"
   ],
   "note": "Refuted: the transformed components of a scalar are stored as an expression, not as an array, and tensorproduct/tensorcontraction of an expression fails with AttributeError at the next transformation. C115_no_further_coordinates gives the extent."
  },
  {
   "property": "C116",
   "status": "proved",
   "theorems": [
    "C116_negation",
    "C116_multiple",
    "C116_division",
    "C116_difference",
    "C116_difference_is_sum"
   ],
   "note": ""
  },
  {
   "property": "C117",
   "status": "proved",
   "theorems": [
    "C117_negation_refuted",
    "C117_moved_scalars"
   ],
   "note": "Refuted: the stored components of a scalar in coordinates it was not made in are an expression, which map_to_array cannot handle. C117_moved_scalars gives the extent."
  },
  {
   "property": "C118",
   "status": "proved",
   "theorems": [
    "C118_function_of_components",
    "C118_function_of_default_components"
   ],
   "note": ""
  },
  {
   "property": "C119",
   "status": "proved",
   "theorems": [
    "C119_function_of_scalar_refuted",
    "C119_function_of_moved_scalar"
   ],
   "note": "Refuted: map_to_array of an expression raises TypeError. C119_function_of_moved_scalar gives the extent."
  },
  {
   "property": "C120",
   "status": "proved",
   "theorems": [
    "C120_moved_scalar_import_refuted"
   ],
   "note": "Refuted: the components are exported without braces and len() of an expression raises TypeError (Export.py 201)."
  },
  {
   "property": "C121",
   "status": "proved",
   "theorems": [
    "C121_curvature_changes_coordinates",
    "C121_weyl_changes_coordinates"
   ],
   "note": ""
  },
  {
   "property": "C122",
   "status": "proved",
   "theorems": [
    "C122_covariant_derivative_changes_coordinates"
   ],
   "note": ""
  },
  {
   "property": "C123",
   "status": "proved",
   "theorems": [
    "C123_curvature_is_consistent"
   ],
   "note": ""
  },
  {
   "property": "C124",
   "status": "proved",
   "theorems": [
    "C124_curvature_in_all_coordinates",
    "C124_weyl_in_all_coordinates"
   ],
   "note": ""
  },
  {
   "property": "C125",
   "status": "proved",
   "theorems": [
    "C125_letters_and_labels",
    "C125_keywords"
   ],
   "note": ""
  },
  {
   "property": "C126",
   "status": "proved",
   "theorems": [
    "C126_one_letter",
    "C126_accepted_letters_label_refuted",
    "C126_few_letters_refuted"
   ],
   "note": "Refuted: sympy.symbols of one name is a Symbol, which cannot be sliced (TypeError for every object, scalars included), and fewer letters than indices raise IndexError. C126_one_letter gives the extent of the first."
  },
  {
   "property": "C127",
   "status": "proved",
   "theorems": [
    "C127_labels_tell_configurations_apart"
   ],
   "note": ""
  },
  {
   "property": "C128",
   "status": "proved",
   "theorems": [
    "C128_component_labels",
    "C128_component_labels_refuted"
   ],
   "note": "Refuted: with coordinates x and x_x the components x,x_x and x_x,x have the same label. C128_component_labels: true if no name contains an underscore or a circumflex (as LaTeX: an opening brace before a space)."
  },
  {
   "property": "C129",
   "status": "proved",
   "theorems": [
    "C129_str_symbols",
    "C129_only_texts"
   ],
   "note": ""
  },
  {
   "property": "C130",
   "status": "proved",
   "theorems": [
    "C130_options_of_a_session",
    "C130_documented_defaults",
    "C130_rejected_calls",
    "C130_positive_size_refuted"
   ],
   "note": "The size part is refuted: 0 and booleans are accepted though the messages ask for a positive integer."
  },
  {
   "property": "C131",
   "status": "proved",
   "theorems": [
    "C131_first_curve_parameter",
    "C131_symbol_or_keyword",
    "C131_several_parameters_rejected_refuted"
   ],
   "note": "First part proved; the rejection is refuted: the other names are dropped silently."
  },
  {
   "property": "C132",
   "status": "proved",
   "theorems": [
    "C132_info_entries",
    "C132_users_listed",
    "C132_info_printed",
    "C132_metric_lists_itself",
    "C132_unused_metric_shown_unused_refuted",
    "C132_info_entries_in_sessions",
    "C132_info_printed_in_sessions",
    "C132_metric_lists_itself_in_sessions"
   ],
   "note": "The last part is refuted: a metric is its own metric and lists itself always (C132_metric_lists_itself)."
  },
  {
   "property": "C133",
   "status": "proved",
   "theorems": [
    "C133_listed_users_block_delete",
    "C133_unlisted_deletable_refuted",
    "C133_listed_users_block_delete_in_sessions"
   ],
   "note": "First part proved for all sessions. The second is refuted: stored representations and transformation rules block the deletion as well and are not listed."
  },
  {
   "property": "C134",
   "status": "proved",
   "theorems": [
    "C134_replace_is_simultaneous"
   ],
   "note": ""
  },
  {
   "property": "C135",
   "status": "proved",
   "theorems": [
    "C135_exchange_refuted"
   ],
   "note": "False. The dictionary is substituted one symbol after the other, in the order of the names, so {x: y, y: x} turns x into y and back into x. C134 gives the dictionaries for which the order does not matter."
  },
  {
   "property": "C136",
   "status": "proved",
   "theorems": [
    "C136_components_as_functions",
    "C136_functions_can_be_turned_back"
   ],
   "note": ""
  },
  {
   "property": "C137",
   "status": "proved",
   "theorems": [
    "C137_replacement_follows_the_curve",
    "C137_with_time_parameter",
    "C137_lagrangian_on_the_curve",
    "C137_geodesic_on_the_curve"
   ],
   "note": ""
  },
  {
   "property": "C138",
   "status": "proved",
   "theorems": [
    "C138_coordinate_in_its_own_value_refuted"
   ],
   "note": "False. SymPy substitutes yddot before ydot (order of the names), so in the value 2*ydot**2 + 2*y*yddot for {y: y**2} the velocities are replaced once more. C137 excludes values that contain replaced symbols."
  },
  {
   "property": "C139",
   "status": "proved",
   "theorems": [
    "C139_velocities_are_ignored",
    "C139_velocity_replaced_refuted"
   ],
   "note": "False. The key xdot becomes the function xdot(parameter), which _inverse_coord_functions does not turn back, so nothing is replaced. The second theorem proves that no velocity or acceleration is ever replaced."
  },
  {
   "property": "C140",
   "status": "proved",
   "theorems": [
    "C140_zero_stays_zero_refuted"
   ],
   "note": "False. For {M: y}, where M is not a coordinate, the derivative of the key is 0 and that of the value is ydot or yddot, so the number 0 is replaced by yddot: a component 0 becomes yddot."
  },
  {
   "property": "C141",
   "status": "proved",
   "theorems": [
    "C141_parameter_that_does_not_occur_refuted"
   ],
   "note": "False. For {x: 5}, where x is the parameter, the derivative of the key is 1 and that of the value is 0, so the number 1 is replaced by 0: the component yddot + 1 becomes yddot."
  },
  {
   "property": "C142",
   "status": "proved",
   "theorems": [
    "C142_value_of_a_formula"
   ],
   "note": ""
  },
  {
   "property": "C143",
   "status": "proved",
   "theorems": [
    "C143_calc_of_a_formula"
   ],
   "note": ""
  },
  {
   "property": "C144",
   "status": "proved",
   "theorems": [
    "C144_formula_is_consistent",
    "C144_formula_in_all_coordinates"
   ],
   "note": ""
  },
  {
   "property": "C145",
   "status": "proved",
   "theorems": [
    "C145_own_transformations_refuted",
    "C145_others_are_unchanged",
    "C145_sharers_agree"
   ],
   "note": "False. Coordinates.__init__ keeps a reference to the dictionary it is given: two systems made from one non-empty dictionary have one _transformations, and add_coord_transformation on the first may even give the second a transformation to itself. The other theorems show that exactly the systems with one dictionary are concerned."
  },
  {
   "property": "C146",
   "status": "proved",
   "theorems": [
    "C146_sessions_as_with_copies"
   ],
   "note": ""
  },
  {
   "property": "C147",
   "status": "proved",
   "theorems": [
    "C147_rules_are_equations"
   ],
   "note": ""
  },
  {
   "property": "C148",
   "status": "proved",
   "theorems": [
    "C148_indices_none_refuted",
    "C148_changed_dictionary_refuted"
   ],
   "note": "False. With indices=None ValidateCoordinates does not look at the rules, and nobody looks at them when the caller changes the dictionary after the constructor."
  },
  {
   "property": "C149",
   "status": "proved",
   "theorems": [
    "C149_function_then_replace",
    "C149_show_is_get_components",
    "C149_same_errors",
    "C149_function_on_expression"
   ],
   "note": ""
  },
  {
   "property": "C150",
   "status": "proved",
   "theorems": [
    "C150_vectors_become_squares",
    "C150_vector_with_function_refuted",
    "C150_equations_become_squares"
   ],
   "note": "False. show reshapes the components to a column of shape (n, 1) before map_to_array, which takes the first dimension for all dimensions and returns an n by n array: the column followed by n - 1 columns of zeros. The other theorems show that this happens for every vector and all geodesic equations in two or more dimensions."
  },
  {
   "property": "C151",
   "status": "proved",
   "theorems": [
    "C151_list_is_get_components"
   ],
   "note": ""
  },
  {
   "property": "C152",
   "status": "proved",
   "theorems": [
    "C152_show_of_curves",
    "C152_list_of_curves"
   ],
   "note": ""
  },
  {
   "property": "C153",
   "status": "proved",
   "theorems": [
    "C153_mode",
    "C153_other_modes",
    "C153_coordinates"
   ],
   "note": ""
  },
  {
   "property": "C154",
   "status": "proved",
   "theorems": [
    "C154_export_to_file",
    "C154_export_all_to_file",
    "C154_other_arguments"
   ],
   "note": ""
  },
  {
   "property": "C155",
   "status": "proved",
   "theorems": [
    "C155_import_from_file",
    "C155_import_all_from_file",
    "C155_session_through_a_file"
   ],
   "note": ""
  },
  {
   "property": "C156",
   "status": "proved",
   "theorems": [
    "C156_missing_file_refuted",
    "C156_unreadable_file"
   ],
   "note": "False. import_all_from_file calls clear_instances before it looks at its argument: a misspelled file name deletes all objects of the session. import_from_file does keep the session; the other theorem says this for every session."
  },
  {
   "property": "C157",
   "status": "proved",
   "theorems": [
    "C157_sessions_keep_the_invariants",
    "C157_reachable_states_are_sessions"
   ],
   "note": ""
  },
  {
   "property": "C158",
   "status": "proved",
   "theorems": [
    "C158_formulas_refer_to_registered_or_deleted",
    "C158_references_after_a_call"
   ],
   "note": ""
  },
  {
   "property": "C159",
   "status": "proved",
   "theorems": [
    "C159_results_are_registered",
    "C159_any_name_refuted"
   ],
   "note": "True for every name but one: Calc(name=\"TEMP\") returns an object that the clean-up has deleted (C159_any_name_refuted). The theorem says that this is the only exception."
  },
  {
   "property": "C160",
   "status": "proved",
   "theorems": [
    "C160_clear_instances_deletes_refuted"
   ],
   "note": "False. clear_instances makes four passes of delete and then empties the list, also if objects could not be deleted. Two coordinate systems with transformations to each other keep each other from being deleted; they stay alive without being registered, and a metric made with one of them refers to an object outside the registry."
  },
  {
   "property": "C161",
   "status": "proved",
   "theorems": [
    "C161_einstein_in_two_dimensions"
   ],
   "note": ""
  },
  {
   "property": "C162",
   "status": "proved",
   "theorems": [
    "C162_weyl_in_three_dimensions"
   ],
   "note": ""
  },
  {
   "property": "C163",
   "status": "proved",
   "theorems": [
    "C163_vacuum"
   ],
   "note": ""
  },
  {
   "property": "C164",
   "status": "proved",
   "theorems": [
    "C164_flat_metric",
    "C164_flat_weyl",
    "C164_flat_christoffel"
   ],
   "note": ""
  },
  {
   "property": "C165",
   "status": "proved",
   "theorems": [
    "C165_lagrangian_conserved"
   ],
   "note": ""
  },
  {
   "property": "C166",
   "status": "proved",
   "theorems": [
    "C166_momentum_conserved"
   ],
   "note": ""
  },
  {
   "property": "C167",
   "status": "proved",
   "theorems": [
    "C167_nested_covariant_derivative_refuted",
    "C167_covariant_derivative_of_a_sum_refuted"
   ],
   "note": "False. The value of a formula is a temporary tensor; the covariant derivative calls Calc, which deletes temporary tensors, and then reads the attributes of its operand, which raises AttributeError. A second derivative, or the derivative of a sum, has to be taken of a tensor made with Calc. C100 says what is obtained then."
  },
  {
   "property": "C168",
   "status": "proved",
   "theorems": [
    "C168_repeated_derivatives"
   ],
   "note": ""
  },
  {
   "property": "C169",
   "status": "proved",
   "theorems": [
    "C169_ricci_identity"
   ],
   "note": ""
  },
  {
   "property": "C170",
   "status": "proved",
   "theorems": [
    "C170_product_rule"
   ],
   "note": ""
  },
  {
   "property": "C171",
   "status": "proved",
   "theorems": [
    "C171_raising_commutes"
   ],
   "note": ""
  },
  {
   "property": "C172",
   "status": "proved",
   "theorems": [
    "C172_gradient_under_letters",
    "C172_divergence_under_letters",
    "C172_enough_letters",
    "C172_keywords"
   ],
   "note": ""
  },
  {
   "property": "C173",
   "status": "proved",
   "theorems": [
    "C173_all_letters_in_use",
    "C173_one_letter",
    "C173_repeated_letter_refuted"
   ],
   "note": "False. Letters may be repeated: with \"i i\" the divergence of a vector silently has another value, since the dummy and the derivative get the same symbol. If all letters are in use as symbols every covariant derivative of an existing session raises IndexError, and after one letter alone every one raises TypeError; these two are proved in general."
  },
  {
   "property": "C174",
   "status": "proved",
   "theorems": [
    "C174_geodesics_under_parameter"
   ],
   "note": ""
  },
  {
   "property": "C175",
   "status": "proved",
   "theorems": [
    "C175_parameter_is_coordinate_refuted"
   ],
   "note": "False. With the parameter x in coordinates (x, y) the equation of x is 0 = 0 and the equation of y is not equivalent to the geodesic equation, without an error or a warning."
  },
  {
   "property": "C176",
   "status": "proved",
   "theorems": [
    "C176_volume_and_christoffel"
   ],
   "note": ""
  },
  {
   "property": "C177",
   "status": "proved",
   "theorems": [
    "C177_divergence_and_volume",
    "C177_covector_divergence"
   ],
   "note": ""
  },
  {
   "property": "C178",
   "status": "proved",
   "theorems": [
    "C178_laplacian"
   ],
   "note": ""
  },
  {
   "property": "C179",
   "status": "proved",
   "theorems": [
    "C179_curl",
    "C179_cyclic_sum"
   ],
   "note": ""
  },
  {
   "property": "C180",
   "status": "proved",
   "theorems": [
    "C180_constant_curvature",
    "C180_constant_curvature_weyl"
   ],
   "note": ""
  },
  {
   "property": "C181",
   "status": "proved",
   "theorems": [
    "C181_cosmological_constant"
   ],
   "note": ""
  },
  {
   "property": "C182",
   "status": "proved",
   "theorems": [
    "C182_curvature_in_two_dimensions"
   ],
   "note": ""
  },
  {
   "property": "C183",
   "status": "proved",
   "theorems": [
    "C183_names_do_not_matter",
    "C183_displays_do_not_depend_on_names",
    "C183_any_names_refuted"
   ],
   "note": "Proved for renamings that respect the names of results. For renamings that are one to one only it is false: a tensor that the user calls 'g Christoffel' is returned as the Christoffel symbols of a metric called g. Calls of export and import are not part of the programs, since their texts contain the names."
  },
  {
   "property": "C184",
   "status": "proved",
   "theorems": [
    "C184_symbols_do_not_matter"
   ],
   "note": "Calls of export and import are not part of the programs, since their texts contain the symbols."
  },
  {
   "property": "C185",
   "status": "proved",
   "theorems": [
    "C185_formula_from_a_result",
    "C185_calc_from_a_covariant_derivative",
    "C185_calc_from_a_covariant_divergence",
    "C185_formula_on_the_left_refuted"
   ],
   "note": "Proved for formulas in which only plain tensors are evaluated before the covariant derivative. With another formula to its left it is refuted: CovariantD deletes the temporary tensors that exist when it is evaluated."
  },
  {
   "property": "C186",
   "status": "proved",
   "theorems": [
    "C186_coordinates_validated",
    "C186_metric_validated",
    "C186_new_coordinates_attributes",
    "C186_new_metric_attributes"
   ],
   "note": ""
  },
  {
   "property": "C187",
   "status": "proved",
   "theorems": [
    "C187_metric_new_tensor",
    "C187_method_new_metric",
    "C187_method_new_tensor",
    "C187_new_tensor_follows_the_metric",
    "C187_coordinates_new_metric",
    "C187_new_coordinates_defaults"
   ],
   "note": ""
  },
  {
   "property": "C188",
   "status": "proved",
   "theorems": [
    "C188_unstated_indices_refuted",
    "C188_distinct_symbols_refuted"
   ],
   "note": "Refuted: None as indices is accepted, stored as (-1,) beside components under (1,), and the exported text is not read back; equal symbols, numbers and (with None as indices) rules that are not equations are accepted."
  },
  {
   "property": "C189",
   "status": "proved",
   "theorems": [
    "C189_rescaled_metric"
   ],
   "note": ""
  },
  {
   "property": "C190",
   "status": "proved",
   "theorems": [
    "C190_weyl_of_conformal_metrics",
    "C190_conformally_flat"
   ],
   "note": ""
  },
  {
   "property": "C191",
   "status": "proved",
   "theorems": [
    "C191_show",
    "C191_show_with_one_letter",
    "C191_list",
    "C191_coordinates_in_a_formula"
   ],
   "note": ""
  },
  {
   "property": "C192",
   "status": "proved",
   "theorems": [
    "C192_product_of_spaces"
   ],
   "note": ""
  },
  {
   "property": "C193",
   "status": "proved",
   "theorems": [
    "C193_lie_derivative",
    "C193_coordinate_vector"
   ],
   "note": ""
  },
  {
   "property": "C194",
   "status": "proved",
   "theorems": [
    "C194_derivative_of_a_formula"
   ],
   "note": ""
  },
  {
   "property": "C195",
   "status": "proved",
   "theorems": [
    "C195_schwarzschild_computed",
    "C195_schwarzschild_weyl",
    "C195_schwarzschild_norm"
   ],
   "note": ""
  },
  {
   "property": "C196",
   "status": "proved",
   "theorems": [
    "C196_flrw_computed",
    "C196_flrw_weyl",
    "C196_flrw_norm"
   ],
   "note": ""
  },
  {
   "property": "C197",
   "status": "proved",
   "theorems": [
    "C197_new_coordinates_start",
    "C197_new_metric_start"
   ],
   "note": ""
  },
  {
   "property": "C198",
   "status": "proved",
   "theorems": [
    "C198_import_defaults_run",
    "C198_import_defaults_curvature"
   ],
   "note": ""
  },
  {
   "property": "C199",
   "status": "proved",
   "theorems": [
    "C199_symbols_of_derivatives",
    "C199_derivatives_as_operands",
    "C199_tensor_times_derivative",
    "C199_subtracting_other_things",
    "C199_subtracting_mismatches",
    "C199_multiplying_other_things",
    "C199_multiplying_tensors",
    "C199_zero_times",
    "C199_contracting_different_metrics"
   ],
   "note": ""
  },
  {
   "property": "C200",
   "status": "proved",
   "theorems": [
    "C200_metric_argument",
    "C200_coords_argument",
    "C200_coords_argument_of_get_components"
   ],
   "note": ""
  },
  {
   "property": "C201",
   "status": "proved",
   "theorems": [
    "C201_divergence_of_a_divergence"
   ],
   "note": ""
  },
  {
   "property": "C202",
   "status": "proved",
   "theorems": [
    "C202_rate_along_a_curve",
    "C202_conserved_along_geodesics"
   ],
   "note": ""
  },
  {
   "property": "C203",
   "status": "proved",
   "theorems": [
    "C203_divergence_of_a_formula",
    "C203_current_of_a_symmetry"
   ],
   "note": ""
  },
  {
   "property": "C204",
   "status": "proved",
   "theorems": [
    "C204_arguments_keep_their_value_refuted",
    "C204_values_differ_refuted",
    "C204_arguments_value",
    "C204_arguments_as_read"
   ],
   "note": "False. The parser drops parentheses and MinusNode.__repr__ does not print any, so that the base of (-x)^2 is printed as -x and Sin[(-x)^2] is read as Sin[-(x^2)]. Proved for arguments in which no negative is the base of a power, and in general with the sign put before the power."
  },
  {
   "property": "C205",
   "status": "proved",
   "theorems": [
    "C205_metric_in_new_coordinates",
    "C205_minkowski_in_spherical_coordinates"
   ],
   "note": ""
  },
  {
   "property": "C206",
   "status": "proved",
   "theorems": [
    "C206_transformation_added",
    "C206_transformation_removed",
    "C206_transformation_refused"
   ],
   "note": ""
  },
  {
   "property": "C207",
   "status": "proved",
   "theorems": [
    "C207_there_and_back_refuted",
    "C207_cartesian_there_and_back",
    "C207_spherical_there_and_back"
   ],
   "note": "False. The rule phi = atan(y/x) gives the angle of the opposite point where x < 0, so that components change there. Proved: no change where x > 0, the value at (t, -x, -y, z) where x < 0; the other way round phi is kept between -pi/2 and pi/2 and loses pi between pi/2 and 3/2 pi. Uses the axioms of the standard library's real numbers."
  },
  {
   "property": "C208",
   "status": "proved",
   "theorems": [
    "C208_needed_number_refuted",
    "C208_refused_exactly",
    "C208_tensor_refused_exactly",
    "C208_constructor_message",
    "C208_request_message",
    "C208_value_message",
    "C208_shape_message"
   ],
   "note": "False. IndicesDimensionError knows the errors \"tensor\" and \"metric\", but ValidateIndices raises it with \"symbol\" when default indices are changed or components asked for, and the needed number is missing there. Proved: the constructor's message has the number of indices and the rank, and the rank can be read off it; the other message has the tuple only; messages about values and shapes have the refused tuple and shapes."
  },
  {
   "property": "C209",
   "status": "proved",
   "theorems": [
    "C209_scalar_times_scalar_refuted",
    "C209_product_value",
    "C209_either_order",
    "C209_product_refused",
    "C209_contraction_refused"
   ],
   "note": "False for two scalars: __mul__ transforms each of two scalars to the coordinates of the other, so that rules are needed in both directions. Proved for tensors of rank 1 and more: the value of the product, the same in either order and for any metric of the scalar; it is refused exactly as get_components of the scalar is."
  },
  {
   "property": "C210",
   "status": "proved",
   "theorems": [
    "C210_lagrangians_of_conformal_metrics",
    "C210_geodesics_of_conformal_metrics",
    "C210_time_geodesics_of_conformal_metrics",
    "C210_geodesics_of_rescaled_metric",
    "C210_time_geodesics_of_rescaled_metric",
    "C210_lagrangian_geodesics_of_rescaled_metric"
   ],
   "note": ""
  },
  {
   "property": "C211",
   "status": "proved",
   "theorems": [
    "C211_schwarzschild_geodesics",
    "C211_flrw_geodesics",
    "C211_flat_geodesics"
   ],
   "note": ""
  },
  {
   "property": "C212",
   "status": "proved",
   "theorems": [
    "C212_ricci_of_conformal_metrics",
    "C212_scalar_of_conformal_metrics"
   ],
   "note": ""
  },
  {
   "property": "C213",
   "status": "proved",
   "theorems": [
    "C213_way_back_refuted",
    "C213_indices_changed",
    "C213_indices_refused",
    "C213_coordinates_changed",
    "C213_coordinates_refused",
    "C213_no_rules",
    "C213_same_coordinates"
   ],
   "note": "Refuted as stated: after a change of default coordinates the old components are still there and can be asked for, but the change back is refused if there are no rules for the way back. Proved for indices, and for coordinates with rules; what happens without rules is proved too."
  },
  {
   "property": "C214",
   "status": "proved",
   "theorems": [
    "C214_metric_refuted",
    "C214_default_components",
    "C214_default_components_in_sessions"
   ],
   "note": "Refuted for metrics: a request that fails leaves some components in the new coordinates, after which a change to these coordinates succeeds and get_components() raises KeyError. Proved for all other tensors, in sessions of all public calls."
  },
  {
   "property": "C215",
   "status": "proved",
   "theorems": [
    "C215_own_rules_refuted",
    "C215_request",
    "C215_metric_request",
    "C215_change_of_coordinates",
    "C215_change_of_indices",
    "C215_found"
   ],
   "note": "Refuted: a tensor whose metric lives in other coordinates is refused other indices, even in its own coordinates, if there are no rules for the metric. Proved: TransformationError is raised only if rules are missing from the default coordinates of the tensor, or from those of its metric, to the requested coordinates, or from those of its metric to those of the tensor; components that are found were stored before or there are rules."
  },
  {
   "property": "C216",
   "status": "proved",
   "theorems": [
    "C216_number_reported",
    "C216_block_reported",
    "C216_texts_differ"
   ],
   "note": ""
  },
  {
   "property": "C217",
   "status": "proved",
   "theorems": [
    "C217_systems_told_refuted",
    "C217_jacobians",
    "C217_jacobians_only",
    "C217_change_of_coordinates",
    "C217_change_without_rules",
    "C217_names_told",
    "C217_names_told_refuted"
   ],
   "note": "Refuted: two systems with the same name give the same message, and so do 'A and B', 'C' and 'A', 'B and C'. Proved: the error of _check_jacobians, and that of the check in change_default_coords, comes with the name of the system that lacks the rules and then that of the requested one; the text tells both names if the first has no blanks."
  },
  {
   "property": "C218",
   "status": "proved",
   "theorems": [
    "C218_metric_of_rank_one_refuted",
    "C218_rank_counts_indices",
    "C218_rank_constant",
    "C218_coordinates",
    "C218_accepted_metric",
    "C218_stored_configurations",
    "C218_rank_in_sessions",
    "C218_stored_in_sessions"
   ],
   "note": "Refuted: a metric given as a list of one component without indices is refused with a TypeError but stays registered, with rank 1. Proved: rank and number of default indices agree in every reachable state and never change, stored configurations of objects other than metrics and coordinates have that many indices, coordinates have rank 1, accepted metrics have rank 2. All but the constancy also for sessions of all public calls."
  },
  {
   "property": "C219",
   "status": "proved",
   "theorems": [
    "C219_export_tells_version",
    "C219_export_all_tells_version",
    "C219_imported_texts_are_complete",
    "C219_role_missing",
    "C219_role_unknown",
    "C219_entry_missing"
   ],
   "note": ""
  }
 ]
}