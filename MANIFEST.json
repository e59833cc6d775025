{
 "claims": [
  {
   "property": "C01",
   "status": "proved",
   "theorems": [
    "C01_graph_is_a_set",
    "C01_add_present_changes_nothing",
    "C01_remove_outcome"
   ],
   "note": ""
  },
  {
   "property": "C02",
   "status": "proved",
   "theorems": [
    "C02_match_exact"
   ],
   "note": ""
  },
  {
   "property": "C03",
   "status": "proved",
   "theorems": [
    "C03_empty_iri_is_wildcard",
    "C03_documented_match_refuted"
   ],
   "note": "Proved of the statement in properties.jsonl; a stronger claim is false of the code, with a witness in C03_documented_match_refuted."
  },
  {
   "property": "C04",
   "status": "proved",
   "theorems": [
    "C04_match_leaves_graph",
    "C04_next_never_modifies"
   ],
   "note": ""
  },
  {
   "property": "C05",
   "status": "proved",
   "theorems": [
    "C05_removeMatches"
   ],
   "note": ""
  },
  {
   "property": "C06",
   "status": "proved",
   "theorems": [
    "C06_listings_are_ever_used",
    "C06_exact_without_removal",
    "C06_never_misses",
    "C06_stale_refuted"
   ],
   "note": "Proved of the statement in properties.jsonl; a stronger claim is false of the code, with a witness in C06_stale_refuted."
  },
  {
   "property": "C07",
   "status": "proved",
   "theorems": [
    "C07_merge_frame",
    "C07_merge_is_union",
    "C07_match_on_merge"
   ],
   "note": ""
  },
  {
   "property": "C08",
   "status": "proved",
   "theorems": [
    "C08_insertion_order",
    "C08_match_is_drain"
   ],
   "note": ""
  },
  {
   "property": "C09",
   "status": "proved",
   "theorems": [
    "C09_dataset_is_a_set",
    "C09_remove_outcome"
   ],
   "note": ""
  },
  {
   "property": "C10",
   "status": "proved",
   "theorems": [
    "C10_match_exact"
   ],
   "note": ""
  },
  {
   "property": "C11",
   "status": "proved",
   "theorems": [
    "C11_query_creates",
    "C11_remove_creates"
   ],
   "note": ""
  },
  {
   "property": "C12",
   "status": "proved",
   "theorems": [
    "C12_add_graph",
    "C12_unnamed_graph_accepted"
   ],
   "note": ""
  },
  {
   "property": "C13",
   "status": "proved",
   "theorems": [
    "C13_two_names",
    "C13_iteration_agrees_without_aliasing",
    "C13_query_created_graph_refuted"
   ],
   "note": "Proved of the statement in properties.jsonl; a stronger claim is false of the code, with a witness in C13_query_created_graph_refuted."
  },
  {
   "property": "C14",
   "status": "proved",
   "theorems": [
    "C14_removeMatches"
   ],
   "note": ""
  },
  {
   "property": "C15",
   "status": "proved",
   "theorems": [
    "C15_remove_graph_has_no_effect",
    "C15_removed_graph_stays_visible"
   ],
   "note": ""
  },
  {
   "property": "C16",
   "status": "proved",
   "theorems": [
    "C16_escape_round_trip",
    "C16_round_trip_exact_iff",
    "C16_escape_denotes"
   ],
   "note": ""
  },
  {
   "property": "C17",
   "status": "proved",
   "theorems": [
    "C17_printable",
    "C17_token_ends_at_the_quote",
    "C17_injective",
    "C17_injective_without_proviso_refuted"
   ],
   "note": "Proved of the statement in properties.jsonl; a stronger claim is false of the code, with a witness in C17_injective_without_proviso_refuted."
  },
  {
   "property": "C18",
   "status": "proved",
   "theorems": [
    "C18_identity_without_backslash",
    "C18_decodes_what_is_denoted",
    "C18_raises_only_above_10FFFF",
    "C18_which_exception"
   ],
   "note": ""
  },
  {
   "property": "C19",
   "status": "proved",
   "theorems": [
    "C19_labels_injective",
    "C19_labels_legal"
   ],
   "note": ""
  },
  {
   "property": "C20",
   "status": "proved",
   "theorems": [
    "C20_toNT_raises_iff_surrogate",
    "C20_legal_text"
   ],
   "note": ""
  },
  {
   "property": "C21",
   "status": "proved",
   "theorems": [
    "C21_idempotent",
    "C21_identity_iff",
    "C21_same_octets"
   ],
   "note": ""
  },
  {
   "property": "C22",
   "status": "proved",
   "theorems": [
    "C22_encode_char",
    "C22_surrogates_raise",
    "C22_decode_text",
    "C22_decode_only_encodings",
    "C22_otherwise_raises"
   ],
   "note": ""
  },
  {
   "property": "C23",
   "status": "proved",
   "theorems": [
    "C23_idempotent",
    "C23_stays_well_formed",
    "C23_without_proviso_refuted"
   ],
   "note": "Proved of the statement in properties.jsonl; a stronger claim is false of the code, with a witness in C23_without_proviso_refuted."
  },
  {
   "property": "C24",
   "status": "proved",
   "theorems": [
    "C24_quote_of_normalized",
    "C24_normalize_of_quoted",
    "C24_normalize_raises_iff",
    "C24_stray_percent_refuted"
   ],
   "note": "Proved of the statement in properties.jsonl; a stronger claim is false of the code, with a witness in C24_stray_percent_refuted."
  },
  {
   "property": "C25",
   "status": "proved",
   "theorems": [
    "C25_round_trip_general",
    "C25_round_trip_exact",
    "C25_graph_round_trip",
    "C25_bytes"
   ],
   "note": ""
  },
  {
   "property": "C26",
   "status": "proved",
   "theorems": [
    "C26_one_line",
    "C26_as_many_lines_as_triples"
   ],
   "note": ""
  },
  {
   "property": "C27",
   "status": "proved",
   "theorems": [
    "C27_string_atomic",
    "C27_stream_keeps_earlier_lines"
   ],
   "note": ""
  },
  {
   "property": "C28",
   "status": "proved",
   "theorems": [
    "C28_agree_on_success",
    "C28_agree_on_failure",
    "C28_blank_line_in_stream",
    "C28_empty_lines_in_string",
    "C28_blank_line_in_string",
    "C28_cr_line_loses_triples"
   ],
   "note": ""
  },
  {
   "property": "C29",
   "status": "proved",
   "theorems": [
    "C29_label_scope",
    "C29_no_schedule_fails"
   ],
   "note": ""
  },
  {
   "property": "C30",
   "status": "proved",
   "theorems": [
    "C30_string_only_adds",
    "C30_stream_only_adds"
   ],
   "note": ""
  },
  {
   "property": "C31",
   "status": "proved",
   "theorems": [
    "C31_blanks_dropped"
   ],
   "note": ""
  },
  {
   "property": "C32",
   "status": "proved",
   "theorems": [
    "C32_only_these_tags",
    "C32_round_trip_iff",
    "C32_other_tags_rejected"
   ],
   "note": ""
  },
  {
   "property": "C33",
   "status": "proved",
   "theorems": [
    "C33_unreadable",
    "C33_ambiguous",
    "C33_terms_unquoted"
   ],
   "note": ""
  },
  {
   "property": "C34",
   "status": "proved",
   "theorems": [
    "C34_match_reports_only_the_later",
    "C34_removing_both_raises"
   ],
   "note": ""
  },
  {
   "property": "C35",
   "status": "proved",
   "theorems": [
    "C35_absolute_iris_are_not_rewritten"
   ],
   "note": ""
  },
  {
   "property": "C36",
   "status": "proved",
   "theorems": [
    "C36_parse_curie_result",
    "C36_parse_curie_error"
   ],
   "note": ""
  },
  {
   "property": "C37",
   "status": "proved",
   "theorems": [
    "C37_shrink_then_resolve",
    "C37_explicit_curie_then_resolve",
    "C37_repeated_namespace_refuted",
    "C37_empty_namespace_refuted",
    "C37_colon_in_prefix_refuted",
    "C37_scheme_prefix_refuted",
    "C37_empty_remainder_refuted",
    "C37_bracketed_result_refuted"
   ],
   "note": "Proved of the statement in properties.jsonl; a stronger claim is false of the code, with a witness in C37_repeated_namespace_refuted, C37_empty_namespace_refuted, C37_colon_in_prefix_refuted, C37_scheme_prefix_refuted, C37_empty_remainder_refuted, C37_bracketed_result_refuted."
  },
  {
   "property": "C38",
   "status": "proved",
   "theorems": [
    "C38_to_curie_uses_the_longest_namespace",
    "C38_choice_is_unique",
    "C38_single_occurrence"
   ],
   "note": ""
  },
  {
   "property": "C39",
   "status": "proved",
   "theorems": [
    "C39_resolve_shrink",
    "C39_shrink_first_term",
    "C39_resolve"
   ],
   "note": ""
  },
  {
   "property": "C40",
   "status": "proved",
   "theorems": [
    "C40_addAll",
    "C40_addAll_keeps_order",
    "C40_importProfile"
   ],
   "note": ""
  },
  {
   "property": "C41",
   "status": "proved",
   "theorems": [
    "C41_new_profile",
    "C41_profiles_always_know_rdf_and_xsd"
   ],
   "note": ""
  },
  {
   "property": "C42",
   "status": "proved",
   "theorems": [
    "C42_createProfile_shares_prefixes",
    "C42_setPrefix_changes_both",
    "C42_createPrefixMap_is_independent",
    "C42_createTermMap_is_independent"
   ],
   "note": ""
  },
  {
   "property": "C43",
   "status": "proved",
   "theorems": [
    "C43_lang_match_characterised",
    "C43_lang_match_reflexive",
    "C43_lang_match_symmetric",
    "C43_none_matches_only_none",
    "C43_lang_match_transitive_refuted"
   ],
   "note": "Proved of the statement in properties.jsonl; a stronger claim is false of the code, with a witness in C43_lang_match_transitive_refuted."
  },
  {
   "property": "C44",
   "status": "proved",
   "theorems": [
    "C44_strings_are_kept",
    "C44_ints",
    "C44_decimal_text_determines_the_int",
    "C44_other_types"
   ],
   "note": ""
  },
  {
   "property": "C45",
   "status": "proved",
   "theorems": [
    "C45_round_trip",
    "C45_nothing_is_escaped",
    "C45_wrong_string_read_back_refuted"
   ],
   "note": "Proved of the statement in properties.jsonl; a stronger claim is false of the code, with a witness in C45_wrong_string_read_back_refuted."
  },
  {
   "property": "C46",
   "status": "proved",
   "theorems": [
    "C46_blank_subject",
    "C46_blank_object",
    "C46_outcome",
    "C46_blank_object_attribute_error"
   ],
   "note": ""
  },
  {
   "property": "C47",
   "status": "proved",
   "theorems": [
    "C47_literals",
    "C47_other_types_cannot_be_read",
    "C47_no_xsd_prefix",
    "C47_numbers_are_readable_refuted"
   ],
   "note": "Proved of the statement in properties.jsonl; a stronger claim is false of the code, with a witness in C47_numbers_are_readable_refuted."
  },
  {
   "property": "C48",
   "status": "proved",
   "theorems": [
    "C48_layout",
    "C48_other_elements_raise",
    "C48_lists_of_literals_are_written_refuted"
   ],
   "note": "Proved of the statement in properties.jsonl; a stronger claim is false of the code, with a witness in C48_lists_of_literals_are_written_refuted."
  },
  {
   "property": "C49",
   "status": "proved",
   "theorems": [
    "C49_collections_are_lists",
    "C49_collection_documents",
    "C49_two_triples_per_member"
   ],
   "note": ""
  },
  {
   "property": "C50",
   "status": "proved",
   "theorems": [
    "C50_triples_of_the_semantics",
    "C50_meaningful_documents_parse",
    "C50_generator_objects",
    "C50_nested_triples_are_lost"
   ],
   "note": ""
  },
  {
   "property": "C51",
   "status": "proved",
   "theorems": [
    "C51_latest_prefix",
    "C51_latest_base",
    "C51_statements_in_order",
    "C51_names_and_references",
    "C51_unbound_prefix",
    "C51_no_binding_survives"
   ],
   "note": ""
  },
  {
   "property": "C52",
   "status": "proved",
   "theorems": [
    "C52_validate_iri",
    "C52_rejects_exactly_illegal_refuted"
   ],
   "note": "Proved of the statement in properties.jsonl; a stronger claim is false of the code, with a witness in C52_rejects_exactly_illegal_refuted."
  },
  {
   "property": "C53",
   "status": "proved",
   "theorems": [
    "C53_plain_literals",
    "C53_never_equal"
   ],
   "note": ""
  },
  {
   "property": "C54",
   "status": "proved",
   "theorems": [
    "C54_reading",
    "C54_reading_by_class",
    "C54_bad_keys",
    "C54_by_class_without_mixtures"
   ],
   "note": ""
  },
  {
   "property": "C55",
   "status": "proved",
   "theorems": [
    "C55_deleting",
    "C55_deleting_by_class",
    "C55_by_class_without_mixtures"
   ],
   "note": ""
  },
  {
   "property": "C56",
   "status": "proved",
   "theorems": [
    "C56_frame",
    "C56_contents",
    "C56_accepted_only_if",
    "C56_accepted_if",
    "C56_accepted_without_mixtures"
   ],
   "note": ""
  },
  {
   "property": "C57",
   "status": "proved",
   "theorems": [
    "C57_text_on_a_scalar",
    "C57_text_in_a_language",
    "C57_text_with_a_datatype",
    "C57_empty_language_refuted"
   ],
   "note": "Proved of the statement in properties.jsonl; a stronger claim is false of the code, with a witness in C57_empty_language_refuted."
  },
  {
   "property": "C58",
   "status": "proved",
   "theorems": [
    "C58_erase"
   ],
   "note": ""
  },
  {
   "property": "C59",
   "status": "proved",
   "theorems": [
    "C59_copy_never_copies",
    "C59_copy_of_nothing"
   ],
   "note": ""
  },
  {
   "property": "C60",
   "status": "proved",
   "theorems": [
    "C60_new"
   ],
   "note": ""
  },
  {
   "property": "C61",
   "status": "proved",
   "theorems": [
    "C61_one_type",
    "C61_some_subject_has_all",
    "C61_lacking_a_type_refuted"
   ],
   "note": "Proved of the statement in properties.jsonl; a stronger claim is false of the code, with a witness in C61_lacking_a_type_refuted."
  },
  {
   "property": "C62",
   "status": "proved",
   "theorems": [
    "C62_list_that_ends",
    "C62_list_that_breaks",
    "C62_list_that_cycles"
   ],
   "note": ""
  },
  {
   "property": "C63",
   "status": "proved",
   "theorems": [
    "C63_type_error_only_if",
    "C63_independent_classes",
    "C63_one_class_for_two_types",
    "C63_literals",
    "C63_at_most_one_class",
    "C63_any_classes",
    "C63_late_registration_refuted"
   ],
   "note": "Proved of the statement in properties.jsonl; a stronger claim is false of the code, with a witness in C63_late_registration_refuted."
  },
  {
   "property": "C64",
   "status": "proved",
   "theorems": [
    "C64_class_body"
   ],
   "note": ""
  },
  {
   "property": "C65",
   "status": "proved",
   "theorems": [
    "C65_differences",
    "C65_exclude",
    "C65_changeset",
    "C65_changeset_decodes"
   ],
   "note": ""
  },
  {
   "property": "C66",
   "status": "proved",
   "theorems": [
    "C66_query_request",
    "C66_update_request",
    "C66_not_encodable",
    "C66_update_outcome",
    "C66_query_outcome"
   ],
   "note": ""
  },
  {
   "property": "C67",
   "status": "proved",
   "theorems": [
    "C67_no_request",
    "C67_serialisation_fails",
    "C67_with_server"
   ],
   "note": ""
  },
  {
   "property": "C68",
   "status": "proved",
   "theorems": [
    "C68_parse",
    "C68_parse_fails",
    "C68_document_parse_raises",
    "C68_document_parse_after_failure",
    "C68_blank_graph_names_refuted",
    "C68_language_strings_refuted"
   ],
   "note": "Proved of the statement in properties.jsonl; a stronger claim is false of the code, with a witness in C68_blank_graph_names_refuted, C68_language_strings_refuted."
  },
  {
   "property": "C69",
   "status": "proved",
   "theorems": [
    "C69_parse_raises"
   ],
   "note": ""
  },
  {
   "property": "C70",
   "status": "proved",
   "theorems": [
    "C70_smart_urljoin",
    "C70_keeps_the_empty_fragment",
    "C70_otherwise_urljoin"
   ],
   "note": ""
  },
  {
   "property": "C71",
   "status": "proved",
   "theorems": [
    "C71_one_or_none",
    "C71_grouper",
    "C71_groups_unique"
   ],
   "note": ""
  },
  {
   "property": "C72",
   "status": "proved",
   "theorems": [
    "C72_nested_parse_breaks_the_outer"
   ],
   "note": ""
  },
  {
   "property": "C73",
   "status": "proved",
   "theorems": [
    "C73_language_smuggles_triples"
   ],
   "note": ""
  },
  {
   "property": "C74",
   "status": "proved",
   "theorems": [
    "C74_statement_kinds",
    "C74_no_common_documents"
   ],
   "note": ""
  },
  {
   "property": "C75",
   "status": "proved",
   "theorems": [
    "C75_createTermMap_loses_the_default",
    "C75_createProfile_without_terms_loses_the_default"
   ],
   "note": ""
  },
  {
   "property": "C76",
   "status": "proved",
   "theorems": [
    "C76_profile_resolve",
    "C76_parse_curies"
   ],
   "note": ""
  },
  {
   "property": "C77",
   "status": "proved",
   "theorems": [
    "C77_unknown_name_without_a_colon"
   ],
   "note": ""
  },
  {
   "property": "C78",
   "status": "proved",
   "theorems": [
    "C78_prefix_setters",
    "C78_setTerm",
    "C78_setDefaultVocabulary",
    "C78_names_use_the_new_prefix"
   ],
   "note": ""
  },
  {
   "property": "C79",
   "status": "proved",
   "theorems": [
    "C79_all_or_nothing",
    "C79_adds_the_triples_of_the_document"
   ],
   "note": ""
  },
  {
   "property": "C80",
   "status": "proved",
   "theorems": [
    "C80_output_depends_on_the_triples_only",
    "C80_object_order_refuted"
   ],
   "note": "Proved of the statement in properties.jsonl; a stronger claim is false of the code, with a witness in C80_object_order_refuted."
  },
  {
   "property": "C81",
   "status": "proved",
   "theorems": [
    "C81_names_in_namespaces",
    "C81_documents_raise",
    "C81_about_raises",
    "C81_other_properties_are_dropped",
    "C81_first_li_raises",
    "C81_later_li",
    "C81_exactly",
    "C81_foreign_resource",
    "C81_foreign_property",
    "C81_only_references_with_a_scheme_are_kept_refuted",
    "C81_references"
   ],
   "note": "Proved of the statement in properties.jsonl; a stronger claim is false of the code, with a witness in C81_only_references_with_a_scheme_are_kept_refuted."
  },
  {
   "property": "C82",
   "status": "proved",
   "theorems": [
    "C82_texts_are_parsed",
    "C82_parsed_texts",
    "C82_other_texts_are_rejected",
    "C82_result_or_syntax_error",
    "C82_one_document_per_text",
    "C82_keywords_refuted"
   ],
   "note": "Proved of the statement in properties.jsonl; a stronger claim is false of the code, with a witness in C82_keywords_refuted."
  },
  {
   "property": "C83",
   "status": "proved",
   "theorems": [
    "C83_adds_the_triples_of_the_text",
    "C83_added_triples_are_of_the_text",
    "C83_all_or_nothing",
    "C83_syntax_errors",
    "C83_bytes",
    "C83_streams_refuted",
    "C83_streams_fail"
   ],
   "note": "Proved of the statement in properties.jsonl; a stronger claim is false of the code, with a witness in C83_streams_refuted."
  },
  {
   "property": "C84",
   "status": "proved",
   "theorems": [
    "C84_header_text",
    "C84_header_meaning",
    "C84_all_prefixes_are_declared_refuted",
    "C84_rdf_bound_elsewhere_refuted"
   ],
   "note": "Proved of the statement in properties.jsonl; a stronger claim is false of the code, with a witness in C84_all_prefixes_are_declared_refuted, C84_rdf_bound_elsewhere_refuted."
  },
  {
   "property": "C85",
   "status": "proved",
   "theorems": [
    "C85_full_names",
    "C85_abbreviated_names",
    "C85_based_names",
    "C85_literals",
    "C85_names_are_readable_refuted",
    "C85_namespace_occurs_again_refuted"
   ],
   "note": "Proved of the statement in properties.jsonl; a stronger claim is false of the code, with a witness in C85_names_are_readable_refuted, C85_namespace_occurs_again_refuted."
  },
  {
   "property": "C86",
   "status": "proved",
   "theorems": [
    "C86_output_is_turtle",
    "C86_own_output",
    "C86_without_lists",
    "C86_removed_triples_refuted",
    "C86_number_sign_refuted",
    "C86_lists_among_objects_refuted",
    "C86_list_cells_are_lost_refuted"
   ],
   "note": "Proved of the statement in properties.jsonl; a stronger claim is false of the code, with a witness in C86_removed_triples_refuted, C86_number_sign_refuted, C86_lists_among_objects_refuted, C86_list_cells_are_lost_refuted."
  },
  {
   "property": "C87",
   "status": "proved",
   "theorems": [
    "C87_relative_references",
    "C87_absolute_references",
    "C87_network_path_references",
    "C87_references_in_documents",
    "C87_one_reading",
    "C87_empty_reference_refuted",
    "C87_empty_query_refuted",
    "C87_absolute_dot_segments_refuted",
    "C87_empty_segments_refuted",
    "C87_other_schemes_refuted",
    "C87_same_scheme_refuted",
    "C87_parameters_refuted",
    "C87_empty_parameters_refuted",
    "C87_no_authority_refuted",
    "C87_upper_case_refuted"
   ],
   "note": "Proved of the statement in properties.jsonl; a stronger claim is false of the code, with a witness in C87_empty_reference_refuted, C87_empty_query_refuted, C87_absolute_dot_segments_refuted, C87_empty_segments_refuted, C87_other_schemes_refuted, C87_same_scheme_refuted, C87_parameters_refuted, C87_empty_parameters_refuted, C87_no_authority_refuted, C87_upper_case_refuted."
  },
  {
   "property": "C88",
   "status": "proved",
   "theorems": [
    "C88_joins_are_clean",
    "C88_documents",
    "C88_added_triples",
    "C88_round_trip",
    "C88_based_names_refuted",
    "C88_two_slashes_refuted",
    "C88_urn_bases_refuted"
   ],
   "note": "Proved of the statement in properties.jsonl; a stronger claim is false of the code, with a witness in C88_based_names_refuted, C88_two_slashes_refuted, C88_urn_bases_refuted."
  },
  {
   "property": "C89",
   "status": "proved",
   "theorems": [
    "C89_import_needs_a_global_prefix",
    "C89_import_with_a_global_prefix",
    "C89_preflabels_are_not_scalar",
    "C89_skos_can_be_imported_refuted"
   ],
   "note": "Proved of the statement in properties.jsonl; a stronger claim is false of the code, with a witness in C89_skos_can_be_imported_refuted."
  },
  {
   "property": "C90",
   "status": "proved",
   "theorems": [
    "C90_resources",
    "C90_names",
    "C90_blank_nodes",
    "C90_symmetric",
    "C90_equivalence",
    "C90_resources_hash",
    "C90_sets",
    "C90_as",
    "C90_transitive_refuted",
    "C90_hash_refuted"
   ],
   "note": "Proved of the statement in properties.jsonl; a stronger claim is false of the code, with a witness in C90_transitive_refuted, C90_hash_refuted."
  },
  {
   "property": "C91",
   "status": "proved",
   "theorems": [
    "C91_text",
    "C91_every_resource_has_a_text_refuted"
   ],
   "note": "Proved of the statement in properties.jsonl; a stronger claim is false of the code, with a witness in C91_every_resource_has_a_text_refuted."
  },
  {
   "property": "C92",
   "status": "proved",
   "theorems": [
    "C92_object_of",
    "C92_object_of_a_predicate",
    "C92_unknown_predicates",
    "C92_iteration",
    "C92_classes",
    "C92_without_mixtures"
   ],
   "note": ""
  },
  {
   "property": "C93",
   "status": "proved",
   "theorems": [
    "C93_make",
    "C93_attributes",
    "C93_replace",
    "C93_replace_all",
    "C93_copies",
    "C93_constructors",
    "C93_constructed_values_copy",
    "C93_copies_are_equal_refuted",
    "C93_equality",
    "C93_equality_ignores_the_class"
   ],
   "note": "Proved of the statement in properties.jsonl; a stronger claim is false of the code, with a witness in C93_copies_are_equal_refuted."
  },
  {
   "property": "C94",
   "status": "proved",
   "theorems": [
    "C94_createGraph",
    "C94_createGraph_of_toArray",
    "C94_createDataset",
    "C94_createDataset_of_triples",
    "C94_createDataset_of_toArray"
   ],
   "note": ""
  },
  {
   "property": "C95",
   "status": "proved",
   "theorems": [
    "C95_accepted_texts",
    "C95_one_document_per_text",
    "C95_adds_the_triples_of_the_text",
    "C95_added_triples_are_of_the_text",
    "C95_errors",
    "C95_other_texts_are_errors",
    "C95_w3c_documents",
    "C95_w3c_documents_without_labels_and_tags",
    "C95_w3c_white_space_refuted",
    "C95_w3c_tags_refuted",
    "C95_w3c_labels_refuted",
    "C95_w3c_iris_refuted"
   ],
   "note": "Proved of the statement in properties.jsonl; a stronger claim is false of the code, with a witness in C95_w3c_white_space_refuted, C95_w3c_tags_refuted, C95_w3c_labels_refuted, C95_w3c_iris_refuted."
  },
  {
   "property": "C96",
   "status": "proved",
   "theorems": [
    "C96_turtle_texts",
    "C96_same_triples",
    "C96_same_triples_urljoin",
    "C96_plain_literals_refuted",
    "C96_labels_refuted"
   ],
   "note": "Proved of the statement in properties.jsonl; a stronger claim is false of the code, with a witness in C96_plain_literals_refuted, C96_labels_refuted."
  },
  {
   "property": "C97",
   "status": "proved",
   "theorems": [
    "C97_ntriples_output_as_turtle",
    "C97_ntriples_output_as_turtle_no_base",
    "C97_stable_triples",
    "C97_tags_refuted"
   ],
   "note": "Proved of the statement in properties.jsonl; a stronger claim is false of the code, with a witness in C97_tags_refuted."
  },
  {
   "property": "C98",
   "status": "proved",
   "theorems": [
    "C98_first_line_with_an_error",
    "C98_what_follows_an_error",
    "C98_only_these_exceptions"
   ],
   "note": ""
  },
  {
   "property": "C99",
   "status": "proved",
   "theorems": [
    "C99_turtle_adds_rdf_triples",
    "C99_ntriples_adds_rdf_triples",
    "C99_turtle_to_ntriples",
    "C99_ntriples_to_ntriples",
    "C99_changed_once",
    "C99_surrogates_refuted",
    "C99_tags_refuted"
   ],
   "note": "Proved of the statement in properties.jsonl; a stronger claim is false of the code, with a witness in C99_surrogates_refuted, C99_tags_refuted."
  },
  {
   "property": "C100",
   "status": "proved",
   "theorems": [
    "C100_escaped_names",
    "C100_no_other_iri",
    "C100_nothing_lost",
    "C100_colons_refuted",
    "C100_no_colon",
    "C100_not_used"
   ],
   "note": "Proved of the statement in properties.jsonl; a stronger claim is false of the code, with a witness in C100_colons_refuted."
  },
  {
   "property": "C101",
   "status": "proved",
   "theorems": [
    "C101_only_value_errors",
    "C101_exactly",
    "C101_nothing_checked",
    "C101_plain_texts",
    "C101_in_documents",
    "C101_absolute_references_refuted"
   ],
   "note": "Proved of the statement in properties.jsonl; a stronger claim is false of the code, with a witness in C101_absolute_references_refuted."
  },
  {
   "property": "C102",
   "status": "proved",
   "theorems": [
    "C102_objects",
    "C102_bare_literals",
    "C102_objects_by_lang",
    "C102_objects_by_datatype",
    "C102_resources",
    "C102_objects_by_type",
    "C102_four_kinds"
   ],
   "note": ""
  },
  {
   "property": "C103",
   "status": "proved",
   "theorems": [
    "C103_accepted",
    "C103_order",
    "C103_one_base"
   ],
   "note": ""
  },
  {
   "property": "C104",
   "status": "proved",
   "theorems": [
    "C104_texts_are_literals",
    "C104_literals_have_one_value",
    "C104_quotation_mark",
    "C104_texts_can_be_encoded",
    "C104_raises",
    "C104_statements_raise",
    "C104_one_line",
    "C104_terms",
    "C104_statements",
    "C104_uris",
    "C104_distinct_terms_look_different_refuted",
    "C104_resources",
    "C104_resources_of_equal_texts_refuted"
   ],
   "note": "Proved of the statement in properties.jsonl; a stronger claim is false of the code, with a witness in C104_distinct_terms_look_different_refuted, C104_resources_of_equal_texts_refuted."
  },
  {
   "property": "C105",
   "status": "proved",
   "theorems": [
    "C105_undisturbed",
    "C105_growing",
    "C105_shrinking",
    "C105_current",
    "C105_noticed"
   ],
   "note": ""
  },
  {
   "property": "C106",
   "status": "proved",
   "theorems": [
    "C106_outcomes",
    "C106_undisturbed",
    "C106_new_graph"
   ],
   "note": ""
  },
  {
   "property": "C107",
   "status": "proved",
   "theorems": [
    "C107_reads",
    "C107_every_tree"
   ],
   "note": ""
  },
  {
   "property": "C108",
   "status": "proved",
   "theorems": [
    "C108_total",
    "C108_in_order",
    "C108_only_notation_refuted",
    "C108_empty_alternative_refuted"
   ],
   "note": "Proved of the statement in properties.jsonl; a stronger claim is false of the code, with a witness in C108_only_notation_refuted, C108_empty_alternative_refuted."
  },
  {
   "property": "C109",
   "status": "proved",
   "theorems": [
    "C109_rule",
    "C109_file",
    "C109_comments",
    "C109_table",
    "C109_numbers",
    "C109_total",
    "C109_numbers_refuted",
    "C109_line_break_refuted",
    "C109_unread_refuted"
   ],
   "note": "Proved of the statement in properties.jsonl; a stronger claim is false of the code, with a witness in C109_numbers_refuted, C109_line_break_refuted, C109_unread_refuted."
  },
  {
   "property": "C110",
   "status": "proved",
   "theorems": [
    "C110_escape",
    "C110_outcome",
    "C110_shown",
    "C110_faithful",
    "C110_grouping_refuted"
   ],
   "note": "Proved of the statement in properties.jsonl; a stronger claim is false of the code, with a witness in C110_grouping_refuted."
  },
  {
   "property": "C111",
   "status": "proved",
   "theorems": [
    "C111_set",
    "C111_only_adds",
    "C111_ends"
   ],
   "note": ""
  },
  {
   "property": "C112",
   "status": "proved",
   "theorems": [
    "C112_apart",
    "C112_alone",
    "C112_lost_refuted",
    "C112_clash_refuted"
   ],
   "note": "Proved of the statement in properties.jsonl; a stronger claim is false of the code, with a witness in C112_lost_refuted, C112_clash_refuted."
  },
  {
   "property": "C113",
   "status": "proved",
   "theorems": [
    "C113_apart",
    "C113_alone",
    "C113_sound",
    "C113_ends",
    "C113_lost_refuted",
    "C113_graph_refuted"
   ],
   "note": "Proved of the statement in properties.jsonl; a stronger claim is false of the code, with a witness in C113_lost_refuted, C113_graph_refuted."
  },
  {
   "property": "C114",
   "status": "proved",
   "theorems": [
    "C114_ends",
    "C114_outcome",
    "C114_harmless",
    "C114_noticed",
    "C114_three",
    "C114_order_refuted",
    "C114_raise_refuted"
   ],
   "note": "Proved of the statement in properties.jsonl; a stronger claim is false of the code, with a witness in C114_order_refuted, C114_raise_refuted."
  },
  {
   "property": "C115",
   "status": "proved",
   "theorems": [
    "C115_linear",
    "C115_apart",
    "C115_ends",
    "C115_seen_refuted"
   ],
   "note": "Proved of the statement in properties.jsonl; a stronger claim is false of the code, with a witness in C115_seen_refuted."
  },
  {
   "property": "C116",
   "status": "proved",
   "theorems": [
    "C116_scan",
    "C116_undisturbed",
    "C116_silent",
    "C116_ends",
    "C116_one_writer",
    "C116_loses_refuted"
   ],
   "note": "Proved of the statement in properties.jsonl; a stronger claim is false of the code, with a witness in C116_loses_refuted."
  },
  {
   "property": "C117",
   "status": "proved",
   "theorems": [
    "C117_generators_without_next",
    "C117_output_is_turtle",
    "C117_own_output",
    "C117_repeated_labels_merge_refuted",
    "C117_repeated_labels_fail_refuted"
   ],
   "note": "Proved of the statement in properties.jsonl; a stronger claim is false of the code, with a witness in C117_repeated_labels_merge_refuted, C117_repeated_labels_fail_refuted."
  },
  {
   "property": "C118",
   "status": "proved",
   "theorems": [
    "C118_ends",
    "C118_outcome",
    "C118_harmless",
    "C118_new_graph",
    "C118_order_refuted"
   ],
   "note": "Proved of the statement in properties.jsonl; a stronger claim is false of the code, with a witness in C118_order_refuted."
  },
  {
   "property": "C119",
   "status": "proved",
   "theorems": [
    "C119_as_match",
    "C119_reads_all",
    "C119_self",
    "C119_remove",
    "C119_remove_copy",
    "C119_rule"
   ],
   "note": ""
  },
  {
   "property": "C120",
   "status": "proved",
   "theorems": [
    "C120_view",
    "C120_returns",
    "C120_raises",
    "C120_tag",
    "C120_removing",
    "C120_stale_refuted"
   ],
   "note": "Proved of the statement in properties.jsonl; a stronger claim is false of the code, with a witness in C120_stale_refuted."
  },
  {
   "property": "C121",
   "status": "proved",
   "theorems": [
    "C121_stream_adds",
    "C121_stream_accepts",
    "C121_stream_errors",
    "C121_faults_raise",
    "C121_lines",
    "C121_newlines",
    "C121_file",
    "C121_stringio",
    "C121_stringio_cr_refuted"
   ],
   "note": "Proved of the statement in properties.jsonl; a stronger claim is false of the code, with a witness in C121_stringio_cr_refuted."
  },
  {
   "property": "C122",
   "status": "proved",
   "theorems": [
    "C122_file_as_string",
    "C122_round_trip",
    "C122_append"
   ],
   "note": ""
  },
  {
   "property": "C123",
   "status": "proved",
   "theorems": [
    "C123_as_match",
    "C123_idle",
    "C123_stirs",
    "C123_self",
    "C123_remove",
    "C123_remove_copy",
    "C123_iter"
   ],
   "note": ""
  },
  {
   "property": "C124",
   "status": "proved",
   "theorems": [
    "C124_again",
    "C124_query",
    "C124_update",
    "C124_not_encodable",
    "C124_cleared_refuted",
    "C124_to_direct_refuted",
    "C124_from_direct_refuted"
   ],
   "note": "Proved of the statement in properties.jsonl; a stronger claim is false of the code, with a witness in C124_cleared_refuted, C124_to_direct_refuted, C124_from_direct_refuted."
  },
  {
   "property": "C125",
   "status": "proved",
   "theorems": [
    "C125_has",
    "C125_len",
    "C125_list",
    "C125_silent",
    "C125_ends",
    "C125_len_refuted",
    "C125_new_graph_refuted"
   ],
   "note": "Proved of the statement in properties.jsonl; a stronger claim is false of the code, with a witness in C125_len_refuted, C125_new_graph_refuted."
  },
  {
   "property": "C126",
   "status": "proved",
   "theorems": [
    "C126_run",
    "C126_clean",
    "C126_leak_refuted",
    "C126_shared_refuted"
   ],
   "note": "Proved of the statement in properties.jsonl; a stronger claim is false of the code, with a witness in C126_leak_refuted, C126_shared_refuted."
  },
  {
   "property": "C127",
   "status": "proved",
   "theorems": [
    "C127_threads",
    "C127_any_time",
    "C127_ends",
    "C127_alone"
   ],
   "note": ""
  }
 ]
}