{
 "claims": [
  {
   "property": "C01",
   "status": "proved",
   "theorems": [
    "C01_normalisation_canonical",
    "C01_normalisation_keeps_text",
    "C01_plain_snake_case_unchanged"
   ],
   "note": "ASCII strings; str.to_snake_case of the convert_case crate is modelled from its documentation."
  },
  {
   "property": "C02",
   "status": "proved",
   "theorems": [
    "C02_split_compose",
    "C02_split_any",
    "C02_no_collisions",
    "C02_collision_iff",
    "C02_distinct_identifiers_refuted"
   ],
   "note": "Proved for identifiers in normal form; for other spellings the exact collision condition is proved and a collision is exhibited (refuted)."
  },
  {
   "property": "C03",
   "status": "proved",
   "theorems": [
    "C03_same_spelling_same_entity",
    "C03_references_lead_to_the_declaration"
   ],
   "note": "For type and id texts without dots (a dot is the separator of the reference syntax). Both the id denoted and the edge in the loaded graph."
  },
  {
   "property": "C04",
   "status": "partial",
   "theorems": [
    "C04_fields_that_can_be_asked_for",
    "C04_types_that_can_be_asked_for",
    "C04_other_spellings_are_out_of_reach",
    "C04_names_mean_their_normal_form",
    "C04_normal_names_are_seen_partial",
    "C04_declared_names_refuted",
    "C04_declared_types_refuted",
    "C04_unknown_metadata_refuted"
   ],
   "note": "Query names denote their normal form, and names in normal form are found; names declared in another spelling are not (refuted), nor unknown metadata fields. Exactly which fields and types any accepted query can ask for: those with a name in normal form of ASCII letters, digits and underscores, so a name declared in another spelling is out of reach of every query."
  },
  {
   "property": "C05",
   "status": "proved",
   "theorems": [
    "C05_lookup_and_results",
    "C05_first_added_wins",
    "C05_duplicate_is_refused_without_effect",
    "C05_references_stand_for_what_was_added"
   ],
   "note": "Includes what a reference to an entity resolves to, after any list of additions."
  },
  {
   "property": "C06",
   "status": "proved",
   "theorems": [
    "C06_build_links_exactly_resolvable_references",
    "C06_build_idempotent_and_keeps_entities"
   ],
   "note": ""
  },
  {
   "property": "C07",
   "status": "proved",
   "theorems": [
    "C07_get_related_exact_sorted",
    "C07_outgoing_incoming_dual"
   ],
   "note": ""
  },
  {
   "property": "C08",
   "status": "proved",
   "theorems": [
    "C08_resolves_exactly_chains_of_at_most_ten_hops",
    "C08_never_yields_a_field_reference",
    "C08_cycles_are_errors",
    "C08_failures_are_named"
   ],
   "note": ""
  },
  {
   "property": "C09",
   "status": "proved",
   "theorems": [
    "C09_list_by_type_in_insertion_order",
    "C09_types_partition_the_entities"
   ],
   "note": "The 'from *' query itself is covered by the query theorems."
  },
  {
   "property": "C10",
   "status": "proved",
   "theorems": [
    "C10_where_keeps_exactly_the_matching",
    "C10_where_error_is_the_first_failure",
    "C10_and_equals_two_wheres",
    "C10_missing_field_never_matches",
    "C10_two_wheres_and_refuted"
   ],
   "note": "C10_two_wheres_and_refuted is an extra: the equality with two wheres does not hold when the former fails."
  },
  {
   "property": "C11",
   "status": "partial",
   "theorems": [
    "C11_integers",
    "C11_integer_field_float_literal",
    "C11_currencies_of_one_code",
    "C11_dates",
    "C11_texts",
    "C11_booleans",
    "C11_references",
    "C11_finite_floats",
    "C11_floats_agree_iff",
    "C11_floats_beyond_one",
    "C11_float_field_integer_literal",
    "C11_integer_field_is_rounded",
    "C11_floats_refuted",
    "C11_infinity_refuted",
    "C11_currency_codes_refuted"
   ],
   "note": "Proved for integers, one-currency amounts, dates, texts, booleans and references. For finite floats the outcome of every operator is given exactly: the inequalities compare the values, == asks whether they are less than told_apart (S_Round) apart; the six operators agree if and only if the values are equal or at least that far apart, which is always so when one of them is beyond 1 in magnitude. Integer literals against float fields and the reverse are rounded to 53 digits first. Refuted with witnesses: close floats below 1, infinities, different currencies."
  },
  {
   "property": "C12",
   "status": "proved",
   "theorems": [
    "C12_limit_is_a_prefix",
    "C12_limits_compose_as_minimum",
    "C12_no_new_entities"
   ],
   "note": ""
  },
  {
   "property": "C13",
   "status": "partial",
   "theorems": [
    "C13_order_is_the_stable_sort",
    "C13_ordered_by_value_missing_last",
    "C13_order_by_metadata",
    "C13_integers_and_floats_together",
    "C13_mixed_texts_refuted",
    "C13_mixed_numbers_refuted"
   ],
   "note": "Order proved to be the stable sort and value-ascending per type, including integers mixed with moderate floats; columns mixing other kinds are refuted with witnesses."
  },
  {
   "property": "C14",
   "status": "proved",
   "theorems": [
    "C14_related_is_bounded_reachability",
    "C14_independent_of_hash_order",
    "C14_more_degrees_never_lose_entities",
    "C14_degree_zero_ignores_type"
   ],
   "note": ""
  },
  {
   "property": "C15",
   "status": "proved",
   "theorems": [
    "C15_aggregation_sees_the_result_set",
    "C15_count",
    "C15_select"
   ],
   "note": ""
  },
  {
   "property": "C16",
   "status": "partial",
   "theorems": [
    "C16_integer_sum_exact",
    "C16_integer_sum_checked",
    "C16_integer_sum_unchecked",
    "C16_integer_sum_order_independent",
    "C16_currency_sum_exact",
    "C16_currency_sum_is_added_up",
    "C16_currency_sum_order_independent",
    "C16_currency_with_plain_numbers_is_an_error",
    "C16_mixed_currencies_are_an_error",
    "C16_non_numbers_are_an_error",
    "C16_metadata_is_an_error",
    "C16_overflow_wraps_refuted",
    "C16_checked_order_refuted",
    "C16_float_order_refuted"
   ],
   "note": "Exact where the total fits; wrap/panic on overflow and float order-dependence are refuted with witnesses."
  },
  {
   "property": "C17",
   "status": "partial",
   "theorems": [
    "C17_empty_is_an_error",
    "C17_non_numbers_are_an_error",
    "C17_entities_without_the_field_are_skipped",
    "C17_odd_median_is_the_middle_value",
    "C17_even_median_is_half_the_middle_sum",
    "C17_average_is_sum_over_count",
    "C17_integer_average_is_exact_total_over_count",
    "C17_median_order_independent",
    "C17_mixed_currencies_refuted",
    "C17_median_bound_refuted",
    "C17_average_order_refuted"
   ],
   "note": "Median (odd and even) and average formulas, and order independence of the median, proved; even-median overflow bound, mixed currencies and average order-dependence refuted with witnesses."
  },
  {
   "property": "C18",
   "status": "partial",
   "theorems": [
    "C18_from_selects_exactly",
    "C18_same_entities_up_to_order",
    "C18_order_by_id_is_deterministic",
    "C18_results_are_known_entities_once",
    "C18_unordered_limit_refuted",
    "C18_related_after_order_refuted"
   ],
   "note": "Same entities whatever the hash order for queries without limit; limit without a total order, and related after order, are refuted with witnesses."
  },
  {
   "property": "C19",
   "status": "partial",
   "theorems": [
    "C19_single_values_err_exactly_off_the_table",
    "C19_list_operators",
    "C19_operators_usable",
    "C19_in_never_matches_refuted"
   ],
   "note": "Errors are exactly off the documented table and every operator evaluates on some field type; but in, though it evaluates, never selects anything (refuted)."
  },
  {
   "property": "C20",
   "status": "partial",
   "theorems": [
    "C20_gregorian",
    "C20_date_literals_compare_calendar_dates",
    "C20_calendar",
    "C20_rfc3339_literals_compare_instants",
    "C20_time_literals_refuted"
   ],
   "note": "Date and RFC 3339 literals proved; 'at HH:MM' literals never match (refuted). C20_gregorian: the day numbers that dates are compared by follow the calendar from 1970-01-01 one by one, and exactly the days of the calendar are valid."
  },
  {
   "property": "C21",
   "status": "partial",
   "theorems": [
    "C21_text_denotes_its_query",
    "C21_one_text_one_query",
    "C21_mixed_combinators_refused",
    "C21_time_before_and_refuted",
    "C21_single_blanks"
   ],
   "note": "Every spelling of a query with the layout the grammar allows parses to that query and to no other; a time followed by 'and' is refuted."
  },
  {
   "property": "C22",
   "status": "partial",
   "theorems": [
    "C22_integer_literal_is_rounded",
    "C22_integer_literal_anywhere",
    "C22_rounded_is_nearest",
    "C22_matches_exactly_the_rounded",
    "C22_matches_exactly_that_integer_partial",
    "C22_beyond_the_range",
    "C22_large_literals_refuted"
   ],
   "note": "What a literal denotes is given exactly for every integer: the nearest integer of 53 binary digits, ties to even, clamped to 64 bits, and a literal of 309 digits or so becomes infinite. Hence an integer of 53 binary digits (with zeros behind) matches exactly itself among integer fields whose literal it is; larger ones are refuted with a witness. Missing: the property itself beyond 53 digits, which is false."
  },
  {
   "property": "C23",
   "status": "partial",
   "theorems": [
    "C23_texts_that_can_be_asked_for",
    "C23_both_quotes_refuted",
    "C23_string_literal_partial",
    "C23_leading_blanks_dropped",
    "C23_leading_blank_refuted"
   ],
   "note": "Proved for every text without the delimiting quote and without a leading blank; a leading blank is dropped (exact theorem and refutation). C23_texts_that_can_be_asked_for says exactly which texts any accepted query can ask for: no leading blank and not both kinds of quotes (C23_both_quotes_refuted)."
  },
  {
   "property": "C24",
   "status": "partial",
   "theorems": [
    "C24_booleans",
    "C24_integers",
    "C24_floats",
    "C24_nan_refuted",
    "C24_entity_references",
    "C24_field_references",
    "C24_dotted_id_refuted"
   ],
   "note": "Booleans and 64-bit integers always; floats whenever the decimal text that Rust prints reads back as the float (NaN refuted); references exactly when the id is normalised with one dot (dotted ids refuted)."
  },
  {
   "property": "C25",
   "status": "partial",
   "theorems": [
    "C25_strings_survive_exactly",
    "C25_quotes_refuted",
    "C25_outer_space_refuted"
   ],
   "note": "Exact characterisation: one-line texts without double quotes, multi-line texts without outer white space and CR LF; the rest is refuted with witnesses."
  },
  {
   "property": "C26",
   "status": "partial",
   "theorems": [
    "C26_what_comes_back",
    "C26_same_instant_exactly",
    "C26_survives_exactly",
    "C26_half_hour_zone_refuted",
    "C26_seconds_refuted"
   ],
   "note": "Exact characterisation of what comes back for years 0-9999; seconds and part-hour zones are lost (refuted)."
  },
  {
   "property": "C27",
   "status": "proved",
   "theorems": [
    "C27_currencies"
   ],
   "note": "For amounts rust_decimal can hold and codes of the ISO table (no blank in a code)."
  },
  {
   "property": "C28",
   "status": "partial",
   "theorems": [
    "C28_enums_survive_exactly",
    "C28_enum_tag_refuted",
    "C28_paths_resolve_against_their_file",
    "C28_walk_is_a_function",
    "C28_path_survives_at_the_top_only",
    "C28_path_in_subdirectory_refuted"
   ],
   "note": "Exact for enums (a value ending in 'enum' is refuted). Paths are resolved against the directory of the file; so they survive only in files at the top of the workspace (refuted elsewhere)."
  },
  {
   "property": "C29",
   "status": "proved",
   "theorems": [
    "C29_accepted_iff_homogeneous",
    "C29_unreadable_item",
    "C29_lists_survive_exactly"
   ],
   "note": ""
  },
  {
   "property": "C30",
   "status": "partial",
   "theorems": [
    "C30_multi_line_string",
    "C30_common_indentation_unique",
    "C30_ascii_indentation_never_panics",
    "C30_no_panic_refuted"
   ],
   "note": "Outcome characterised exactly; the absence of panics is proved for ASCII indentation and refuted for multi-byte white space."
  },
  {
   "property": "C31",
   "status": "partial",
   "theorems": [
    "C31_accepts_exactly_the_conforming",
    "C31_one_error_per_violation",
    "C31_hash_order_is_irrelevant",
    "C31_enum_ignores_case_and_outer_space",
    "C31_extra_fields_are_ignored",
    "C31_repeated_field_refuted"
   ],
   "note": "Exact (accepts iff conforms, one error per violation, order-independent). That every given value is checked is refuted: of a field given twice only the first value is."
  },
  {
   "property": "C32",
   "status": "proved",
   "theorems": [
    "C32_declaration_order",
    "C32_distinct_names_are_all_listed",
    "C32_declarations_are_read",
    "C32_text_is_the_rendering",
    "C32_survives_exactly",
    "C32_read_schemas_survive",
    "C32_builder_order",
    "C32_builder_metadata_last",
    "C32_builder_repeated_name_refuted",
    "C32_builder_many_fields_refuted"
   ],
   "note": "The refuted theorems are extras about the builder used in code: a repeated name, and more than 100 fields before the metadata fields."
  },
  {
   "property": "C33",
   "status": "proved",
   "theorems": [
    "C33_builds_exactly_the_consistent",
    "C33_one_governing_schema",
    "C33_errors_name_the_culprit",
    "C33_crashes_only_where_reading_does"
   ],
   "note": "Exact; errors name a file at fault."
  },
  {
   "property": "C34",
   "status": "proved",
   "theorems": [
    "C34_order_of_files_is_irrelevant"
   ],
   "note": "Success and results up to order; which error is reported may depend on the order."
  },
  {
   "property": "C35",
   "status": "partial",
   "theorems": [
    "C35_rejected_write_leaves_no_trace",
    "C35_rejected_replace_leaves_no_trace",
    "C35_rejected_delete_leaves_no_trace",
    "C35_not_text_refuted",
    "C35_dangling_link_refuted",
    "C35_crash_refuted"
   ],
   "note": "Write, replace and delete. For write the target must be text (an unreadable old file is deleted on rollback, refuted) and not a dangling link (refuted); directories created for a new file stay. An edit whose build panics stays on disk (refuted)."
  },
  {
   "property": "C36",
   "status": "partial",
   "theorems": [
    "C36_accepted_write",
    "C36_forced_write",
    "C36_accepted_replace",
    "C36_accepted_delete",
    "C36_read_back",
    "C36_hidden_file_refuted",
    "C36_serves_what_is_on_disk",
    "C36_served_state_was_on_disk"
   ],
   "note": "Contents, read back, every sequence of unforced requests without a crash, and the served state is always that of an earlier disk. A file named just .firm is accepted but is no source file (refuted). add_entity is C44."
  },
  {
   "property": "C37",
   "status": "partial",
   "theorems": [
    "C37_plain_add_confined",
    "C37_plain_file_is_confined",
    "C37_add_refuted",
    "C37_reads_inside",
    "C37_plain_write_confined",
    "C37_overwrite_confined",
    "C37_replace_confined",
    "C37_delete_confined",
    "C37_absolute_path_refuted",
    "C37_linked_directory_refuted",
    "C37_loading_refuted"
   ],
   "note": "Reads, replaces, deletes and overwrites for every path and link structure; new files and added entities for plain relative paths without links. Absolute paths, linked directories, the target file of add_entity and loading through links are refuted."
  },
  {
   "property": "C38",
   "status": "partial",
   "theorems": [
    "C38_replaces_the_occurrences",
    "C38_the_only_occurrence",
    "C38_exactly_when_unique",
    "C38_absent_text_changes_nothing",
    "C38_short_texts_do_not_crash",
    "C38_overlap_refuted",
    "C38_message_panic_refuted"
   ],
   "note": "Exact in terms of the leftmost non-overlapping occurrences; for texts whose occurrences cannot overlap that is 'occurs once'. Refuted: overlapping occurrences pass as one; the message about a long absent text panics when it cuts a character."
  },
  {
   "property": "C39",
   "status": "proved",
   "theorems": [
    "C39_uri_round_trip",
    "C39_only_uris_parse",
    "C39_resources_are_the_source_files"
   ],
   "note": "Including that the listed resources are the source files and read as their texts."
  },
  {
   "property": "C40",
   "status": "proved",
   "theorems": [
    "C40_what_is_printed_tells_the_hits",
    "C40_reports_the_first_hits",
    "C40_searches_the_source_files",
    "C40_hits_are_determined"
   ],
   "note": "For every state whose relative paths are distinct, which holds after every rebuild without links. ASCII case folding. What is printed of the results tells the files, line numbers, trimmed lines and whether the list is cut, for workspaces whose source files have no line feed in their names."
  },
  {
   "property": "C41",
   "status": "partial",
   "theorems": [
    "C41_one_by_one",
    "C41_every_request_is_answered",
    "C41_served_was_built",
    "C41_served_is_the_disk_if_no_build_fails",
    "C41_last_edit_stands_if_no_build_fails",
    "C41_different_files_are_not_disturbed",
    "C41_acknowledged_write_is_on_disk_refuted",
    "C41_served_is_the_disk_refuted",
    "C41_both_replacements_stand_refuted",
    "C41_same_id_is_added_once_refuted"
   ],
   "note": "Each step between two uses of the lock or calls of another part is taken as atomic. Proved: for edits of different files under every schedule the files are what the answers say; if no build fails, for all schedules the last acknowledged edit of each file stands and what is served is the disk's; the steps taken one by one are the tools. Refuted: a rollback removes another's acknowledged write to the same file; a rollback leaves a served state the disk no longer has (also with different files); of two acknowledged replacements one is undone; two additions of one id both succeed."
  },
  {
   "property": "C42",
   "status": "partial",
   "theorems": [
    "C42_one_interruption",
    "C42_reported_success",
    "C42_careful_histories",
    "C42_only_saved_graphs",
    "C42_second_interruption_refuted",
    "C42_backup_is_not_loaded_refuted",
    "C42_histories_through_json",
    "C42_success_through_json"
   ],
   "note": "One interruption, and histories in which no save begins on a torn file, proved; recovered graphs are graphs that were saved. Refuted: a second interruption loses both files, and the intact backup is never read. For graphs serde_json writes and reads back (S_Save.savable; non-finite floats are not among them). What is assumed of the library (S_Save.savable, no_partial_graph) is proved in C61 and C62, and C42_histories_through_json, C42_success_through_json and C62_only_saved_graphs_any_order say the same of serde_json as modelled, whatever the order of the hash maps in the text."
  },
  {
   "property": "C43",
   "status": "partial",
   "theorems": [
    "C43_id_has_the_letters_of_the_name",
    "C43_first_unused_candidate",
    "C43_unused_if_any_candidate_is",
    "C43_unused_below_1000_entities",
    "C43_cap_refuted",
    "C43_id_is_read_back",
    "C43_empty_id_refuted"
   ],
   "note": "The first unused candidate among 1000, hence new in every graph of fewer than 1000 entities. Refuted at the cap, and for names without letters and digits (empty id). The id keeps the letters and digits of the name."
  },
  {
   "property": "C44",
   "status": "partial",
   "theorems": [
    "C44_values_are_taken_for_what_they_mean",
    "C44_values_have_the_type",
    "C44_meaning_is_unique",
    "C44_refused_leaves_no_trace",
    "C44_block_is_appended",
    "C44_taken_id_is_refused",
    "C44_what_may_be_added_is_added",
    "C44_default_file",
    "C44_accepted_entity_is_served",
    "C44_accepted_entity_is_served_as_asked",
    "C44_field_twice_refuted",
    "C44_other_extension_refuted",
    "C44_mixed_list_refuted",
    "C44_reference_without_dot_refuted",
    "C44_reference_names_the_entity",
    "C44_capital_reference_refuted",
    "C44_first_of_its_type",
    "C44_added_entity_is_accepted"
   ],
   "note": "Conversion of values exact, refusals without a trace, the block appended on its own line with nothing else changed, taken ids refused, what may be added is added, and end to end: if the parser reads the block as written the addition is accepted, everything served before is still served, and the entity is served (as asked, if its values survive printing, C24-C28). Refuted: a field given in two spellings, a file that is no source file, lists mixing references to entities and fields and references without a dot (both leave a workspace that does not build), references with a capital type. What may be added is also added when the file named after the type, or its directory, is not there yet."
  },
  {
   "property": "C45",
   "status": "partial",
   "theorems": [
    "C45_text_search",
    "C45_list_contains",
    "C45_list_equality",
    "C45_item_order_refuted",
    "C45_nested_lists_refuted"
   ],
   "note": "ASCII case folding here; C93 says the same for any lower-casing of the other letters."
  },
  {
   "property": "C46",
   "status": "partial",
   "theorems": [
    "C46_zone_within_a_day",
    "C46_zone_beyond_a_day_rejected_partial",
    "C46_zone_that_overflows",
    "C46_absurd_zone_refuted"
   ],
   "note": "Exact for every number of hours: within a day the zone is read, 24 to 596523 hours and numbers beyond 32 bits are refused, and for the rest it is said which zone comes out (a crash in checked builds). The last case refutes the property."
  },
  {
   "property": "C47",
   "status": "partial",
   "theorems": [
    "C47_entity_survives_exactly",
    "C47_normal_entities_survive",
    "C47_capital_type_refuted",
    "C47_text_is_the_rendering"
   ],
   "note": "Exact; types with capital letters are refuted."
  },
  {
   "property": "C48",
   "status": "proved",
   "theorems": [
    "C48_loads_exactly_when_built_and_ids_distinct",
    "C48_every_declared_entity_is_served",
    "C48_only_declared_entities_are_served"
   ],
   "note": ""
  },
  {
   "property": "C49",
   "status": "partial",
   "theorems": [
    "C49_answer_is_a_source_file",
    "C49_finds_the_file_of_a_declaration",
    "C49_finds_the_file_of_a_schema",
    "C49_served_id_refuted"
   ],
   "note": "On the spelling in the source text, exact, and the file named can be read and declares it. By the served id: refuted, since ids are normalised."
  },
  {
   "property": "C50",
   "status": "partial",
   "theorems": [
    "C50_schema_of_the_same_name",
    "C50_any_name_refuted"
   ],
   "note": "Exactly the names in normal form; refuted for others (MissingSchema)."
  },
  {
   "property": "C51",
   "status": "partial",
   "theorems": [
    "C51_links_lead_to_entities",
    "C51_no_dangling_references_refuted"
   ],
   "note": "Links proved; that references never dangle is refuted (delete is accepted)."
  },
  {
   "property": "C52",
   "status": "proved",
   "theorems": [
    "C52_loads_exactly_the_source_files",
    "C52_loads_exactly_when_all_parse"
   ],
   "note": "For trees without symbolic links in the workspace and of a depth the file system allows."
  },
  {
   "property": "C53",
   "status": "partial",
   "theorems": [
    "C53_tree_is_printed_by_lines",
    "C53_what_is_printed_tells_the_tree",
    "C53_names_with_line_feeds_refuted",
    "C53_tree_lists_each_source_file_once"
   ],
   "note": "What is printed tells the tree and the set of source files, for workspaces whose source files have no line feed in their names; refuted with one."
  },
  {
   "property": "C54",
   "status": "partial",
   "theorems": [
    "C54_schemas_are_exact",
    "C54_get_is_graph_lookup",
    "C54_list_is_exact",
    "C54_get_what_is_declared",
    "C54_related_is_exact",
    "C54_list_then_get_refuted",
    "C54_spelling_refuted"
   ],
   "note": "Agreement proved; that get takes the ids list shows is refuted, as is agreement on the spelling of types. Schemas too: the list has exactly the declared ones, and get gives the one of the name."
  },
  {
   "property": "C55",
   "status": "proved",
   "theorems": [
    "C55_path_counts_from_the_root",
    "C55_absolute_path_into_the_workspace"
   ],
   "note": "For paths without quotes whose pieces do not end in 'path' (see C28)."
  },
  {
   "property": "C56",
   "status": "partial",
   "theorems": [
    "C56_saving_leaves_the_workspace",
    "C56_nothing_else_changes",
    "C56_what_is_built_is_loaded",
    "C56_failed_build_changes_nothing",
    "C56_link_refuted"
   ],
   "note": "For workspaces without symbolic links; refuted for a link named *.firm to the graph file."
  },
  {
   "property": "C57",
   "status": "proved",
   "theorems": [
    "C57_answers_are_the_servers",
    "C57_source_is_the_servers",
    "C57_cached_answers_are_the_last_built",
    "C57_asking_changes_no_source",
    "C57_cached_schemas_are_current",
    "C57_answers_through_json",
    "C57_cached_through_json"
   ],
   "note": "For workspaces without symbolic links. C57_answers_are_the_servers and C57_cached_answers_are_the_last_built for any library that reads back the graph it wrote (S_Save.savable); C57_answers_through_json and C57_cached_through_json for serde_json as modelled (M_GraphJson), whatever the order of the hash maps in the text, where the answer is one the server gives under some order of its hash maps. What is printed of an answer is C67 and C68."
  },
  {
   "property": "C58",
   "status": "partial",
   "theorems": [
    "C58_block_is_appended",
    "C58_file_is_named_as_a_source",
    "C58_default_file",
    "C58_failure_leaves_the_sources",
    "C58_id_is_new",
    "C58_cached_id_refuted",
    "C58_added_entity_is_served",
    "C58_what_is_asked_is_added",
    "C58_text_is_taken_as_given",
    "C58_quotes_refuted",
    "C58_values_have_the_types",
    "C58_whole_number_refuted",
    "C58_field_twice_refuted",
    "C58_no_new_line_refuted",
    "C58_path_leads_to_the_file",
    "C58_path_through_link_refuted",
    "C58_first_of_its_type",
    "C58_adding_grows_the_workspace"
   ],
   "note": "If the parser reads the block as written, the workspace builds with the entity and all it had. The converse too: what is asked is added, to a file that exists or as the first of its type to the file named after it; lists come in the order of the map of them. Refuted: quotes around a text, a field given in two spellings, a whole number for a float field, --cached with a stale graph (duplicate id, workspace no longer builds), no line feed before the block, a path written through a linked workspace before generated/ exists."
  },
  {
   "property": "C59",
   "status": "partial",
   "theorems": [
    "C59_first_of_its_type",
    "C59_only_what_was_entered",
    "C59_what_is_entered_is_added",
    "C59_conforms_to_its_schema",
    "C59_references_lead_somewhere",
    "C59_id_is_new",
    "C59_failure_leaves_the_sources",
    "C59_nothing_is_entered_after_an_interrupt",
    "C59_path_counts_from_the_root",
    "C59_adding_grows_the_workspace",
    "C59_skipping_an_enum_refuted",
    "C59_wrong_offset_refuted",
    "C59_quotes_refuted",
    "C59_infinity_refuted",
    "C59_empty_id_refuted"
   ],
   "note": "Answers and dialogues against a relational specification (S_Prompt.dialogue), both ways; the prompts are those of the library inquire, with its defaults. Growing the workspace assumes that the parser reads the block as written and values the format can carry (S_Prompt.writable), and fewer than 1000 entities. Refuted: Escape at an optional enum and a time zone out of range end the command; quotes in texts and infinity are accepted but not read again; a name without letters or digits gives the empty id. What is entered is also added when the file named after the type, or its directory, is not there yet."
  },
  {
   "property": "C60",
   "status": "partial",
   "theorems": [
    "C60_what_the_types_ask_for",
    "C60_types_in_the_table",
    "C60_touches_only_its_files",
    "C60_overwrites_only_when_told",
    "C60_success_is_whole",
    "C60_gitignore_keeps_what_was_there",
    "C60_declining_changes_nothing",
    "C60_entry_added_once_refuted",
    "C60_default_schemas",
    "C60_fresh_workspace",
    "C60_new_workspace_builds",
    "C60_any_name_refuted",
    "C60_stays_inside_refuted"
   ],
   "note": "For workspaces without symbolic links; that the new workspace builds assumes that the parser reads the texts as written. Refuted: the entry is added to the .gitignore again at each run (it looks for .DS_Store, which it does not add); a name with a quotation mark is read back as another; where main.firm is a dangling link, a file outside the workspace is made without a question. C60_what_the_types_ask_for: the built-in schema of each of the sixteen types accepts an entity exactly when its fields are as in the table S_Builtin.built_in, which was drawn up from the source separately from the model."
  },
  {
   "property": "C61",
   "status": "proved",
   "theorems": [
    "C61_graph_is_read_back",
    "C61_answers_are_the_same",
    "C61_workspace_graph_is_savable",
    "C61_what_is_built_is_loaded",
    "C61_deep_list_refuted",
    "C61_infinite_float_refuted",
    "C61_long_float_refuted"
   ],
   "note": "serde_json, petgraph's and chrono's text formats are modelled from their documentation (M_Json, M_GraphJson); a walk over a hash map is any permutation. The text of a finite float is an argument; floats whose text is a decimal of up to 15 digits survive. Discharges S_Save.savable for workspaces of storable values. Refuted: a float of seventeen digits is read as its neighbour, a float that is not finite and a list nested more than sixty deep make the saved graph unreadable."
  },
  {
   "property": "C62",
   "status": "proved",
   "theorems": [
    "C62_no_partial_graph",
    "C62_nothing_may_follow",
    "C62_only_json_is_read",
    "C62_only_saved_graphs",
    "C62_interrupted_write_is_not_loaded",
    "C62_only_saved_graphs_any_order"
   ],
   "note": "Assumes of the writer only that finite floats are written as JSON numbers. Discharges S_Save.no_partial_graph for every graph."
  },
  {
   "property": "C63",
   "status": "proved",
   "theorems": [
    "C63_one_reading",
    "C63_can_be_parsed",
    "C63_files_can_be_joined",
    "C63_no_new_line_refuted"
   ],
   "note": "The documented syntax (dsl_reference_content.rs) as relations in S_Syntax; the tree-sitter grammar itself is not in the pinned tree. A parser that follows it exists (M_Syntax.read_source_text), so the hypothesis follows_syntax of C64 and C65 can be met. C63_no_new_line_refuted shows the condition on the line feed is needed."
  },
  {
   "property": "C64",
   "status": "proved",
   "theorems": [
    "C64_entities_are_read_as_written",
    "C64_entities_come_back",
    "C64_schemas_are_read_as_written",
    "C64_schemas_come_back",
    "C64_any_value_refuted"
   ],
   "note": "For every parser with S_Syntax.follows_syntax; what can be expressed is S_Syntax.expressible. C64_any_value_refuted shows for each condition a value that fails it."
  },
  {
   "property": "C65",
   "status": "proved",
   "theorems": [
    "C65_added_entity_is_accepted",
    "C65_adding_grows_the_workspace",
    "C65_prompted_entity_grows_the_workspace",
    "C65_new_workspace_builds",
    "C65_any_name_refuted"
   ],
   "note": "C44, C58, C59 and C60 without an assumption on the parser but follows_syntax. C65_any_name_refuted: firm init writes an organization named 42 Futures with an id the reference calls invalid."
  },
  {
   "property": "C66",
   "status": "proved",
   "theorems": [
    "C66_a_workspace_only_added_to_builds",
    "C66_life_of_a_new_workspace",
    "C66_graph_directory_refuted"
   ],
   "note": "Invariant over histories (S_Life.life): every source in the documented syntax, the build succeeds. Names and values as in C65. C66_graph_directory_refuted: an entity put in backup.firm.graph/jo.firm makes a directory of the backup's name, after which no command saves or adds again."
  },
  {
   "property": "C67",
   "status": "partial",
   "theorems": [
    "C67_entity_is_read_back",
    "C67_entities_are_read_back",
    "C67_names_are_read_back",
    "C67_schema_is_read_back",
    "C67_result_is_read_back",
    "C67_printed_answer_is_the_servers",
    "C67_printed_source_is_the_servers",
    "C67_printed_related_are_the_servers",
    "C67_infinite_float_refuted"
   ],
   "note": "serde_json's pretty printer and reader as modelled in M_Show and M_Json. What JSON can carry is S_Output.carried; floats as in C61 (infinite ones refuted). C67_printed_related_are_the_servers for the related entities."
  },
  {
   "property": "C68",
   "status": "proved",
   "theorems": [
    "C68_label_names_the_field",
    "C68_values_shown_alike_are_the_same",
    "C68_entities_shown_alike",
    "C68_entities_of_one_schema_shown_alike",
    "C68_answers_shown_alike",
    "C68_lists_shown_alike",
    "C68_tables_shown_alike",
    "C68_schemas_shown_alike",
    "C68_line_feed_refuted",
    "C68_types_are_not_shown_refuted",
    "C68_commas_refuted",
    "C68_missing_cells_refuted"
   ],
   "note": "The text of a float and of a currency are arguments (S_Show.faithful: different ones have different texts). The refuted theorems show that each condition of S_Show.legible and clear is needed."
  },
  {
   "property": "C69",
   "status": "proved",
   "theorems": [
    "C69_file_is_read",
    "C69_documented_syntax_is_read",
    "C69_every_text_has_a_tree",
    "C69_tree_tells_the_blocks",
    "C69_reading_never_panics",
    "C69_only_blocks_are_read"
   ],
   "note": "The tree is the library's (kinds, byte ranges, children); which trees tree-sitter makes is an argument (S_Tree.makes_trees)."
  },
  {
   "property": "C70",
   "status": "partial",
   "theorems": [
    "C70_broken_write_is_refused",
    "C70_damaged_write_is_refused",
    "C70_broken_replacement_is_refused",
    "C70_no_error_gets_in",
    "C70_stays_free_of_errors",
    "C70_build_ignores_errors",
    "C70_broken_source_is_reported_refuted"
   ],
   "note": "The first half is proved. C70_broken_source_is_reported_refuted: load_file never asks has_error, so a workspace with a broken source builds, silently without what it declares; C70_build_ignores_errors says this exactly."
  },
  {
   "property": "C71",
   "status": "partial",
   "theorems": [
    "C71_other_amounts_compare_as_written",
    "C71_equal_amount_found_iff",
    "C71_equal_amount_refuted",
    "C71_whole_amounts_are_found",
    "C71_other_codes_never_match"
   ],
   "note": "The query holds the amount as a float and turns it into a decimal by Decimal::from_f64_retain, of which S_Amount.retains is assumed (an argument, with an instance). C71_equal_amount_found_iff says exactly when an amount is found equal to itself; C71_equal_amount_refuted is the finding for 19.99. C71_other_amounts_compare_as_written is the half that holds."
  },
  {
   "property": "C72",
   "status": "partial",
   "theorems": [
    "C72_value_crashes_iff",
    "C72_build_crashes_only_if",
    "C72_request_crashes_only_if",
    "C72_adding_crashes_only_if",
    "C72_command_crashes_only_if",
    "C72_query_crashes_only_if",
    "C72_no_wide_space_no_crash",
    "C72_ascii_histories_never_crash",
    "C72_no_crash_refuted",
    "C72_replace_crash_refuted"
   ],
   "note": "The property is refuted (C72_no_crash_refuted, in a release build; C72_replace_crash_refuted; C35_crash_refuted and C16_checked_order_refuted for checked builds). C72_value_crashes_iff is exact; the theorems on builds, requests, commands and queries give the necessary condition. The ASCII theorem assumes of the parser that its nodes hold parts of the text (quotes_text), shown of an instance. Exhausted memory and stack, and panics inside libraries other than those modelled (slicing, checked arithmetic, decimal addition), are outside the model."
  },
  {
   "property": "C73",
   "status": "proved",
   "theorems": [
    "C73_boolean_is_found",
    "C73_choice_is_found",
    "C73_day_is_found",
    "C73_references_are_related",
    "C73_undeclared_references_lead_nowhere",
    "C73_integers_are_summed",
    "C73_integers_are_averaged",
    "C73_integers_have_a_median",
    "C73_every_declaration_is_listed",
    "C73_declarations_are_counted",
    "C73_undeclared_type_is_refused",
    "C73_text_is_found",
    "C73_integer_is_found",
    "C73_reference_is_found",
    "C73_command_line_finds",
    "C73_exact_text_refuted"
   ],
   "note": "From the bytes of the files to the answer, through C63-C65 (syntax), C37 (build), C21 (query text), C10 and C18. Integers in a query must have 53 binary digits (C22), texts no quotes and no leading blank (C21). C73_exact_text_refuted: == ignores letter case. C73_boolean_is_found and C73_choice_is_found say the same of yes-or-no fields (==, !=) and of enumerations. C73_day_is_found: of a date field the day that is written counts, whatever the time and zone beside it. C73_references_are_related: what the related tool answers is exactly which declared blocks name which, as entity references, field references or in lists. C73_integers_are_summed: sum gives the sum of the declared integers. C73_integers_are_averaged: average gives their total over their number, and an error if no block has the field. C73_integers_have_a_median: median gives the middle one, or half the sum of the two in the middle."
  },
  {
   "property": "C74",
   "status": "partial",
   "theorems": [
    "C74_steps_go_through_to_their_end",
    "C74_killed_edits",
    "C74_additions_lose_nothing",
    "C74_killed_addition",
    "C74_killed_add_command",
    "C74_killed_prompts",
    "C74_commands_go_through_to_their_end",
    "C74_edit_is_all_or_nothing_refuted",
    "C74_rejected_edit_is_undone_refuted",
    "C74_addition_is_all_or_nothing_refuted"
   ],
   "note": "Edits of different files by plain paths (as C41); additions by any path. The steps are those of C41, each taken apart into the directories it makes and the bytes it writes; C74_steps_go_through_to_their_end and C74_commands_go_through_to_their_end tie them to the model of C41, C58 and C59. A write is taken to reach the disk in order (no reordering by the kernel after a power loss). Refuted: edits and additions are not all or nothing, and a rejected edit is not undone if the server is killed first."
  },
  {
   "property": "C75",
   "status": "partial",
   "theorems": [
    "C75_what_is_offered_is_taken",
    "C75_everything_declared_is_offered",
    "C75_nothing_is_offered_twice",
    "C75_offered_paths_are_there",
    "C75_what_is_there_is_offered",
    "C75_no_path_is_offered_twice",
    "C75_capitals_refuted",
    "C75_offers_continue_what_was_typed_refuted",
    "C75_hidden_files_refuted"
   ],
   "note": "Exact for workspaces in the documented syntax (S_Whole.built) and for relative paths whose last piece is not a lone dot; the three failures are the _refuted theorems. How inquire shows the offers and puts one in place of the text is not modelled."
  },
  {
   "property": "C76",
   "status": "proved",
   "theorems": [
    "C76_literals",
    "C76_values",
    "C76_one_meaning",
    "C76_decimals",
    "C76_fields",
    "C76_text_kept_refuted"
   ],
   "note": "Exact for every literal on which the reader does not crash (C72 says when it does). Decimals: nearest_double is the rounding of IEEE 754, and C76_decimals says there is one result. C76_text_kept_refuted is the lost end of a path or enumeration value. The time zone of the machine is one offset (an argument); the tree of the file is that of the documented syntax."
  },
  {
   "property": "C77",
   "status": "proved",
   "theorems": [
    "C77_written_alike",
    "C77_numbers_in_queries",
    "C77_found_alike_refuted"
   ],
   "note": "C77_written_alike is exact for every literal: means_the_same says per kind when the query finds the value, and it is never found otherwise. C77_found_alike_refuted lists ten literals that are lost. What is assumed of Decimal::from_f64_retain is S_Amount.retains (as in C71); lists are not covered."
  },
  {
   "property": "C78",
   "status": "proved",
   "theorems": [
    "C78_what_is_run_is_written",
    "C78_all_else_is_refused",
    "C78_command_refuses",
    "C78_accepted_exactly",
    "C78_words_are_kept_apart_refuted",
    "C78_strung_tokens_are_read_refuted"
   ],
   "note": "The converse of C21: C21 says that what is spelled is read, C78 that what is read is made of these tokens. C78_accepted_exactly puts the two together for texts whose words are kept apart; the two _refuted theorems are what happens to the others."
  },
  {
   "property": "C79",
   "status": "proved",
   "theorems": [
    "C79_conditions_commute",
    "C79_order_and_condition_commute",
    "C79_twice_is_once",
    "C79_latter_order_decides",
    "C79_order_limit_gives_the_first",
    "C79_limit_before_condition",
    "C79_contrary_conditions_share_out",
    "C79_counts_add_up",
    "C79_other_currencies_refuted",
    "C79_order_keeps_counts",
    "C79_related_adds_up",
    "C79_related_beyond_five_refuted"
   ],
   "note": "Stated on whole queries (what comes before and after is arbitrary). Conditions commute where both queries answer (one of them may fail where the other does not: C10_two_wheres_and_refuted). Ordering as in C13: a field whose texts and numbers are of one type each. The two _refuted theorems are the findings."
  },
  {
   "property": "C80",
   "status": "proved",
   "theorems": [
    "C80_answers_gain_what_was_added",
    "C80_counts_grow",
    "C80_nothing_is_lost",
    "C80_limit_refuted"
   ],
   "note": "On the histories of C66. Where both queries answer (the first fails if there is no entity of the type yet, the second if a condition does not apply to a new entity's value). C80_limit_refuted is the case of a limit."
  },
  {
   "property": "C81",
   "status": "proved",
   "theorems": [
    "C81_what_is_left",
    "C81_goes_through_to_its_end",
    "C81_can_be_run_again",
    "C81_saying_yes_completes",
    "C81_after_a_kill_it_can_be_finished",
    "C81_taking_what_is_offered_refuted"
   ],
   "note": "Each part of the dialogue of C60 is taken apart as in C74 (directory, files in their order, bytes in their order); C81_goes_through_to_its_end ties them to run_init. C81_taking_what_is_offered_refuted is the finding: the question whether to overwrite schemas has No for its default also if only some are there, or are not whole."
  },
  {
   "property": "C82",
   "status": "proved",
   "theorems": [
    "C82_arrangement_makes_no_difference",
    "C82_same_entity_by_id",
    "C82_queries_answer_alike",
    "C82_counts_alike",
    "C82_ordered_answers_alike",
    "C82_moving_a_path_refuted"
   ],
   "note": "Stated on the bytes of the files (S_Syntax.file_syntax) and on file systems; white space and comments are whatever the syntax allows between the same literals. Which error a workspace that does not build fails with may differ (C34). C82_moving_a_path_refuted is why a block with a path literal must stay in its directory."
  },
  {
   "property": "C83",
   "status": "proved",
   "theorems": [
    "C83_loosening_breaks_nothing",
    "C83_new_optional_field_refuted"
   ],
   "note": "What a schema block declares is C32's S_Schema.declares. Blocks may be moved as in C82 at the same time. The schema blocks involved declare no field twice. C83_new_optional_field_refuted is the finding that an optional field merely new to the schema can break the build."
  },
  {
   "property": "C84",
   "status": "proved",
   "theorems": [
    "C84_get_is_a_query",
    "C84_list_is_a_query",
    "C84_related_is_a_query",
    "C84_command_line_agrees",
    "C84_related_the_same_refuted",
    "C84_spelling_refuted"
   ],
   "note": "Stated on the texts of the queries (read by the model of the query parser) and the answers of the tool server; C84_command_line_agrees carries get over to the command line by C57. The two refuted theorems are the findings."
  },
  {
   "property": "C85",
   "status": "proved",
   "theorems": [
    "C85_edit_can_be_undone",
    "C85_series_can_be_undone",
    "C85_queries_as_before",
    "C85_broken_source_comes_back_refuted",
    "C85_taken_name_comes_back_refuted"
   ],
   "note": "The undoing request is computed from the files before the edit (S_Undo.undo). A series is required to leave no directory named like a source file; both conditions are shown necessary by the refuted theorems. Directories created on the way remain."
  },
  {
   "property": "C86",
   "status": "proved",
   "theorems": [
    "C86_error_changes_nothing",
    "C86_success_is_done",
    "C86_valid_is_said",
    "C86_write_says",
    "C86_replace_says",
    "C86_delete_says",
    "C86_refused_replacement_says",
    "C86_taken_back_is_said",
    "C86_build_says",
    "C86_add_says",
    "C86_lookups_agree",
    "C86_related_says",
    "C86_list_says",
    "C86_rolled_back_refuted",
    "C86_validation_failed_refuted",
    "C86_read_says",
    "C86_search_says",
    "C86_tree_says",
    "C86_add_names_the_file"
   ],
   "note": "Two claims of the answers are refuted: 'Changes have been rolled back' is said although a file that was not UTF-8 is gone, and 'Workspace validation failed' is said of a valid workspace when a file to be deleted is missing. Reading, the tree and searching too, with every reason for not reading a file told apart; an addition names the file that now ends with the block."
  },
  {
   "property": "C87",
   "status": "proved",
   "theorems": [
    "C87_message_iff_failed",
    "C87_message_is_true",
    "C87_build_message_is_true",
    "C87_fields_are_named",
    "C87_violations_are_described",
    "C87_advice_helps",
    "C87_second_schema_named_refuted",
    "C87_bad_value_named_refuted",
    "C87_every_entity_named_refuted"
   ],
   "note": "Three stronger claims are refuted: the schema defined twice is not named, the entity and field of an unreadable value are not named, and of several invalid entities only one is reported."
  },
  {
   "property": "C88",
   "status": "proved",
   "theorems": [
    "C88_error_iff_failed",
    "C88_message_is_true",
    "C88_none_is_said",
    "C88_listed_operators_work",
    "C88_listed_as_written",
    "C88_listed_as_written_refuted",
    "C88_available_types_work",
    "C88_hint_works",
    "C88_hint_sums_all_refuted",
    "C88_separate_clauses_suffice",
    "C88_empty_means_empty_refuted",
    "C88_field_type_named_refuted",
    "C88_operator_named_refuted",
    "C88_date_advice_refuted"
   ],
   "note": "Six stronger claims are refuted: starts_with and ends_with are listed but not accepted in a query, the proposed condition drops negative amounts, the operator is named by its internal name, an empty result set need not be empty, the type named may be that of a list item, and a date and time in ISO 8601 cannot be written in a query."
  },
  {
   "property": "C89",
   "status": "proved",
   "theorems": [
    "C89_each_edit_stands",
    "C89_any_order",
    "C89_queries_alike",
    "C89_overlapping_alike",
    "C89_accepted_in_any_order_refuted",
    "C89_one_file_refuted"
   ],
   "note": "Two stronger claims are refuted: not every order is accepted, and for edits of one file the order matters. For overlapping requests it is assumed that none edits a path below that of another."
  },
  {
   "property": "C90",
   "status": "proved",
   "theorems": [
    "C90_same_graph",
    "C90_related_alike",
    "C90_queries_alike",
    "C90_answers_the_same",
    "C90_validation_alike",
    "C90_ordered_by_name_refuted",
    "C90_text_compared_refuted",
    "C90_field_compared_refuted"
   ],
   "note": "S_Rename.v defines renamings and what it means to rename a value, entity, change, question and answer. C90_same_graph, C90_related_alike, C90_queries_alike (with relations, up to order), C90_answers_the_same (exact, with limits, aggregates and errors), C90_validation_alike. Refuted where letters matter: C90_ordered_by_name_refuted, C90_text_compared_refuted, C90_field_compared_refuted."
  },
  {
   "property": "C91",
   "status": "proved",
   "theorems": [
    "C91_edit_changes_its_file",
    "C91_entity_by_id",
    "C91_deletion",
    "C91_new_file",
    "C91_forced_refuted"
   ],
   "note": "S_Part.v says what one file declares (file_declares) and which entity an id then finds (after_edit). C91_edit_changes_its_file, C91_entity_by_id, C91_deletion, C91_new_file; C91_forced_refuted."
  },
  {
   "property": "C92",
   "status": "proved",
   "theorems": [
    "C92_watching_changes_nothing",
    "C92_reports_count_files",
    "C92_bar",
    "C92_last_report_is_full_refuted",
    "C92_log_refuted"
   ],
   "note": "M_Progress.v adds the calls of the progress closure to the build of C87. C92_watching_changes_nothing, C92_reports_count_files, C92_bar; C92_last_report_is_full_refuted; C92_log_refuted (a finding: Workspace::build names the closure's arguments current, total, but total comes first)."
  },
  {
   "property": "C93",
   "status": "proved",
   "theorems": [
    "C93_ascii_workspaces",
    "C93_text_search",
    "C93_list_contains",
    "C93_order",
    "C93_enum_words",
    "C93_search",
    "C93_equality_ignores_case_refuted"
   ],
   "note": "M_Fold.v writes the functions that lower-case texts for an arbitrary lower-casing. C93_ascii_workspaces (justifies the ASCII lower-casing elsewhere in the model), C93_text_search, C93_list_contains, C93_order, C93_enum_words, C93_search; C93_equality_ignores_case_refuted (a finding: == folds ASCII letters only while contains, ordering and enums fold all)."
  }
 ]
}