{
 "claims": [
  {
   "property": "C01",
   "status": "proved",
   "theorems": [
    "C01_budget_arithmetic_valid",
    "C01_constructors_valid",
    "C01_addition_total",
    "C01_addition_incompatible",
    "C01_scaling_total",
    "C01_addition_value",
    "C01_multiplication_value",
    "C01_division_value",
    "C01_zero_times_infinite_refuted",
    "C01_division_caps_delta_refuted",
    "C01_refused_factors",
    "C01_refused_divisor"
   ],
   "note": "Any rounding satisfying the laws of the rounding record. Two corners where the claim fails as a user might read it are proved as _refuted theorems: infinite budget times zero raises, and division does not cap delta."
  },
  {
   "property": "C02",
   "status": "proved",
   "theorems": [
    "C02_adjustment_spec",
    "C02_adjustment_refuses_other_definitions"
   ],
   "note": ""
  },
  {
   "property": "C03",
   "status": "proved",
   "theorems": [
    "C03_infinite_absorbs_addition",
    "C03_infinite_absorbs_subtraction",
    "C03_equality_is_equivalence",
    "C03_all_infinite_approx_equal",
    "C03_equality_meaning",
    "C03_equal_budgets_hash_equal",
    "C03_equal_budgets_stay_equal_refuted",
    "C03_inf_is_infinite"
   ],
   "note": "The _refuted theorem shows equal infinite ApproxDP budgets that stop being equal after division."
  },
  {
   "property": "C04",
   "status": "proved",
   "theorems": [
    "C04_subtraction_spec",
    "C04_subtraction_value",
    "C04_subtraction_incompatible"
   ],
   "note": ""
  },
  {
   "property": "C05",
   "status": "proved",
   "theorems": [
    "C05_written_edges_read_back",
    "C05_binning_correct",
    "C05_null_and_nan",
    "C05_default_names_show_interval",
    "C05_column_descriptor_sound"
   ],
   "note": "Also covers default bin names and the binned column's descriptor."
  },
  {
   "property": "C06",
   "status": "proved",
   "theorems": [
    "C06_default_names_always_distinct",
    "C06_same_name_same_bin",
    "C06_datetimes_written_exactly",
    "C06_strings_written_exactly",
    "C06_bins_cover_outputs",
    "C06_bins_exact",
    "C06_default_names_distinct"
   ],
   "note": ""
  },
  {
   "property": "C07",
   "status": "proved",
   "theorems": [
    "C07_default_names_always_found",
    "C07_float_precision",
    "C07_accepts_exactly_wellformed",
    "C07_accepts_default_names",
    "C07_refuses_with_value_error",
    "C07_close_float_edges_refuted",
    "C07_float_edges_formatted_distinct",
    "C07_edge_order"
   ],
   "note": "The _refuted theorem: float edges that agree to 16 decimals are refused with a RuntimeError when names are omitted."
  },
  {
   "property": "C08",
   "status": "proved",
   "theorems": [
    "C08_keyset_means_relational_algebra",
    "C08_plan_means_relational_algebra",
    "C08_projection_of_empty_product_refuted"
   ],
   "note": "Guard in the statement: projections are taken from KeySets with a key; columnless KeySets are only multiplied. The _refuted theorem shows the guard is needed: with A empty, (A*B)['b'] shows B's keys."
  },
  {
   "property": "C09",
   "status": "partial",
   "theorems": [
    "C09_optimizing_preserves_keys_partial",
    "C09_optimizing_preserves_plans_partial",
    "C09_optimizing_adds_keys_refuted"
   ],
   "note": "Proved for trees whose projections are over KeySets with a key. The unrestricted claim is false: C09_optimizing_adds_keys_refuted."
  },
  {
   "property": "C10",
   "status": "partial",
   "theorems": [
    "C10_optimizing_succeeds_partial",
    "C10_chain_of_joins_refuted",
    "C10_subtract_columnless_refuted",
    "C10_column_filter_refuted"
   ],
   "note": "Proved when the KeySets of a chain of joins have a column in common, filters are SQL strings, and columnless KeySets are only multiplied. The unrestricted claim is false: three _refuted theorems."
  },
  {
   "property": "C11",
   "status": "partial",
   "theorems": [
    "C11_size_counts_keys",
    "C11_is_empty_agrees_partial",
    "C11_columnless_dataframe_refuted"
   ],
   "note": "size() proved outright. Emptiness proved for trees with no zero-column Spark dataframe; for those it is false: C11_columnless_dataframe_refuted."
  },
  {
   "property": "C12",
   "status": "proved",
   "theorems": [
    "C12_decompose_loses_no_keys",
    "C12_decompose_succeeds_partial"
   ],
   "note": "Decomposition is proved exact whenever it returns (C12_decompose_loses_no_keys); that it returns is proved for KeySets meeting kvalid (C12_decompose_succeeds_partial)."
  },
  {
   "property": "C13",
   "status": "partial",
   "theorems": [
    "C13_is_equivalent_true_means_same_keys",
    "C13_is_equivalent_false_means_types_differ",
    "C13_equality_verdicts",
    "C13_equality_decides_partial",
    "C13_equality_reflexive",
    "C13_hash_contract_refuted",
    "C13_plan_column_order_refuted"
   ],
   "note": "Verdicts of == and is_equivalent on KeySets proved. The hash claim is false (C13_hash_contract_refuted); the False verdict on plans is wrong for reordered columns (C13_plan_column_order_refuted)."
  },
  {
   "property": "C14",
   "status": "proved",
   "theorems": [
    "C14_constructors_accept_positive_bounds",
    "C14_simplify_same_tables",
    "C14_simplify_one_per_subject",
    "C14_simplify_idempotent",
    "C14_simplify_keeps_strongest"
   ],
   "note": "Over all constraint lists and all tables (bags of rows with named columns)."
  },
  {
   "property": "C15",
   "status": "partial",
   "theorems": [
    "C15_recorded_constraints_hold_partial",
    "C15_default_replacement_refuted",
    "C15_private_join_refuted"
   ],
   "note": "Proved for every pipeline, except that default replacement of nulls/NaNs/infinities must not touch the column of a MaxRowsPerGroupPerID constraint and a MaxGroupsPerID constraint on a private-join column must come with a MaxRowsPerID bound at least as strong. Both exceptions are real: two _refuted theorems."
  },
  {
   "property": "C16",
   "status": "proved",
   "theorems": [
    "C16_enforcing_makes_true_and_only_drops",
    "C16_enforcing_needs_ids",
    "C16_enforcing_is_a_function_of_the_bag",
    "C16_enforcing_drops_no_more_than_needed"
   ],
   "note": "tmlt.core's truncation transformations are modelled as keeping the first rows/keys in an arbitrary fixed total order."
  },
  {
   "property": "C17",
   "status": "proved",
   "theorems": [
    "C17_truncation_bounds_influence",
    "C17_l2_only_for_zcdp_grouping",
    "C17_stability_is_reached"
   ],
   "note": "Distances and stability are compared squared, so no real numbers are needed; k IDs added or removed."
  },
  {
   "property": "C18",
   "status": "proved",
   "theorems": [
    "C18_cheapest_truncation_or_refused",
    "C18_no_ids_no_truncation"
   ],
   "note": "Stability compared exactly (squared) instead of in floats."
  },
  {
   "property": "C19",
   "status": "proved",
   "theorems": [
    "C19_schema_describes_data",
    "C19_no_mismatch_on_regular_queries"
   ],
   "note": "Assumes what the user's own code promises: functions return the declared types, Rename targets are distinct, replacement values have the column's type. C19_no_mismatch_on_regular_queries shows the library's run-time mismatch check never fires on regular queries."
  },
  {
   "property": "C20",
   "status": "proved",
   "theorems": [
    "C20_no_special_values",
    "C20_schemas_exclude_special_values"
   ],
   "note": "Stated for every expression that is part of the rewritten query and for every table of cells; the schemas and the rows are both covered."
  },
  {
   "property": "C21",
   "status": "proved",
   "theorems": [
    "C21_mechanisms",
    "C21_refused_iff",
    "C21_gaussian_needs_zcdp"
   ],
   "note": ""
  },
  {
   "property": "C22",
   "status": "proved",
   "theorems": [
    "C22_only_inserts",
    "C22_identity",
    "C22_tables_unchanged",
    "C22_idempotent"
   ],
   "note": "C22_tables_unchanged: every table inside the query has the same rows up to the inserted cleaning and ID-preserving steps."
  },
  {
   "property": "C23",
   "status": "proved",
   "theorems": [
    "C23_private_join_schema",
    "C23_public_join_schema",
    "C23_collisions_refused",
    "C23_grouping_column",
    "C23_other_joins_accepted"
   ],
   "note": "Private and public joins."
  },
  {
   "property": "C24",
   "status": "proved",
   "theorems": [
    "C24_id_column_kept",
    "C24_no_new_ids",
    "C24_ids_do_not_mix",
    "C24_other_ids_unaffected",
    "C24_infinite_ids_merged_refuted"
   ],
   "note": "Guard finite_ids: no infinite float ID where ReplaceInfinity is used without columns; C24_infinite_ids_merged_refuted shows the guard is needed."
  },
  {
   "property": "C25",
   "status": "proved",
   "theorems": [
    "C25_spending_within_budget",
    "C25_every_session_within_budget",
    "C25_remaining_budget",
    "C25_initial_budgets",
    "C25_infinite_budgets_stay",
    "C25_charge",
    "C25_nothing_else_charged"
   ],
   "note": "Over all histories of calls on a tree of sessions: composition of everything computed is within each session's budget; remaining = initial - charges; parts start with the partition's charge; each successful call is charged once, with the request (or what is left, if at most 1e-9 less); nothing else is charged."
  },
  {
   "property": "C26",
   "status": "proved",
   "theorems": [
    "C26_failed_calls_change_nothing",
    "C26_failed_calls_are_free"
   ],
   "note": "For every reachable state and every call that raises, all budgets, histories, tables, views, constraints and public tables are unchanged. Whether other sessions are retired is not part of the property: a failing call can retire parts (example)."
  },
  {
   "property": "C27",
   "status": "proved",
   "theorems": [
    "C27_one_active_session",
    "C27_states",
    "C27_using_activates",
    "C27_partition_suspends_parent",
    "C27_retired_forever",
    "C27_retired_sessions_refuse",
    "C27_stop_retires"
   ],
   "note": "At most one active session; the states of all sessions follow from it; use activates; partitions suspend the parent; retirement is permanent and retired sessions refuse everything but add_public_dataframe and stop."
  },
  {
   "property": "C28",
   "status": "partial",
   "theorems": [
    "C28_names_unique",
    "C28_clashes_refused",
    "C28_only_identifiers",
    "C28_private_or_public_partial",
    "C28_part_named_like_public_refuted",
    "C28_shared_public_tables_refuted"
   ],
   "note": "Over all histories: each session lists every private table once and every name leads to one table; public names are unique; clashing or invalid names are refused. That no name is both private and public is proved for histories in which parts are not named like public tables and public tables are not named like private tables of other sessions, and refuted otherwise (two witnesses: such a table can no longer be queried)."
  },
  {
   "property": "C29",
   "status": "proved",
   "theorems": [
    "C29_view_is_its_query",
    "C29_view_schema_is_that_of_its_query",
    "C29_views_on_views",
    "C29_create_changes_nothing_else",
    "C29_delete_changes_nothing_else",
    "C29_delete_undoes_create"
   ],
   "note": "For every history and query: same table, constraints and schema as with the view replaced by its definition, to any depth of views; creating and deleting change nothing else; deleting undoes creating. Assumes that Spark resolves filter expressions by column name and that dictionary arguments are dictionaries; whether a later aggregation compiles is an oracle of the model."
  },
  {
   "property": "C30",
   "status": "proved",
   "theorems": [
    "C30_split_adds_up",
    "C30_split_infinite",
    "C30_known_keys_cost_nothing",
    "C30_only_approximate",
    "C30_never_refused",
    "C30_reports_the_groups_found",
    "C30_never_refused_refuted",
    "C30_search_accepted_refuted"
   ],
   "note": "Finite split, infinite split, known keys, refused for pure/zCDP, and the run is never refused; the last needs half the epsilon and the delta to be positive as floats (C30_never_refused_refuted shows that without it, underflow of epsilon/2, running ends in an internal error) and the search for the groups to be accepted (C30_search_accepted_refuted: with a per-group constraint on another column the query compiles and running fails)."
  },
  {
   "property": "C31",
   "status": "partial",
   "theorems": [
    "C31_loss_within_budget",
    "C31_loss_exact",
    "C31_charged_for_what_was_compiled",
    "C31_unneeded_delta_is_free_refuted"
   ],
   "note": "The loss is component-wise within the budget, equal for pure/zCDP, delta 0 for known keys, and in sessions the charge is the budget the query was compiled with. The last clause of the property is false of the code: C31_unneeded_delta_is_free_refuted exhibits a session charged for a delta that the query does not use."
  },
  {
   "property": "C32",
   "status": "proved",
   "theorems": [
    "C32_nesting_loses_nothing",
    "C32_validated_relations_cover_once",
    "C32_sessions_protect_each_table_once",
    "C32_repeated_id_space_refuted",
    "C32_single_relation_covers_all_refuted",
    "C32_relation_validation"
   ],
   "note": "Nested conjunctions of any depth; every session built through the public builder. Two refutations record that hand-made relations (private API) are checked less: repeated ID spaces overwrite each other, and a single relation about IDs need not cover all tables."
  },
  {
   "property": "C33",
   "status": "proved",
   "theorems": [
    "C33_distance_bounds_the_change",
    "C33_every_table_has_a_distance",
    "C33_distance_is_reached",
    "C33_rows_within_distance",
    "C33_ids_within_distance"
   ],
   "note": "Bounds for all neighbouring datasets and all privacy definitions, every table has an entry, and the bounds are reached; distances of tmlt.core's metrics are part of the trusted base (NeighboringSpec.v). For rows and IDs the neighbourhoods coincide exactly."
  },
  {
   "property": "C34",
   "status": "proved",
   "theorems": [
    "C34_built_exactly_when",
    "C34_any_order",
    "C34_session_has_what_was_given",
    "C34_built_sessions_are_well_built",
    "C34_from_dataframe",
    "C34_any_history",
    "C34_build_leaves_builder_alone_refuted",
    "C34_reported_columns"
   ],
   "note": "Exact acceptance condition for every chain of calls, independent of the order, and the corresponding statement for arbitrary histories with caught exceptions and repeated build(). The ID space of an only private table counts as declared, as documented; a refutation records that build() then leaves that declaration behind in the builder."
  },
  {
   "property": "C35",
   "status": "proved",
   "theorems": [
    "C35_contexts_restore_the_flag",
    "C35_inside_the_flag_is_set",
    "C35_programs_restore_the_flag",
    "C35_check_raises_when_off",
    "C35_flag_stays_set_inside",
    "C35_leaving_restores",
    "C35_crossing_contexts_refuted"
   ],
   "note": "All well-nested programs (loops, exceptions, returns, handlers, any number of flags); contexts left out of order do not restore (refuted beside it, outside of the property). Threads are not modelled."
  },
  {
   "property": "C36",
   "status": "partial",
   "theorems": [
    "C36_names_of_types",
    "C36_equal_frozen_mappings_hash_equally",
    "C36_frozen_mapping_is_the_dict",
    "C36_frozen_mapping_union",
    "C36_frozen_mapping_equality",
    "C36_schema_construction",
    "C36_schema_contents",
    "C36_schema_equality",
    "C36_equal_schemas_hash_equally_partial",
    "C36_equal_schemas_hash_equally_refuted"
   ],
   "note": "FrozenDict proved; Schema equality ignores column order but its hash does not, so the claim is refuted for schemas and proved for equal column order"
  },
  {
   "property": "C37",
   "status": "partial",
   "theorems": [
    "C37_equivalent_queries_are_equal",
    "C37_equivalent_queries_are_the_same_partial",
    "C37_equal_queries_are_the_same_partial",
    "C37_equal_queries_derive_the_same_table_partial",
    "C37_equal_to_itself",
    "C37_equal_implies_equivalent_refuted",
    "C37_same_function_redefined_refuted",
    "C37_bytecode_refuted",
    "C37_empty_frame_refuted",
    "C37_equality_transitive_refuted",
    "C37_comparison_answers_refuted",
    "C37_replacement_type_refuted",
    "C37_column_order_refuted",
    "C37_hash_refuted"
   ],
   "note": "Equivalent queries are proved equal (no hypotheses beyond being answerable) and, for KeySets built as documented, new columns in the same order and replacement values of the same types, the same query up to the representation of key sets, functions and frames. Equality is shown to mean the same when moreover equal bytecode means equal behaviour and joined frames have rows. Refuted: equality implies equivalence; bytecode comparison; empty frames (also not transitive); comparison may raise AttributeError; 1 == 1.0 replacements; new-column order; hash of equal queries. pandas' comparison of two non-empty frames is taken to be bag equality."
  },
  {
   "property": "C38",
   "status": "proved",
   "theorems": [
    "C38_distinct_counts_exact",
    "C38_row_counts_exact",
    "C38_distinct_with_found_keys_refuted"
   ],
   "note": "For every compiled count-distinct (and count): the number computed before noise is the number of distinct values (rows) of the child table with that key. C38_distinct_with_found_keys_refuted: with keys to be found and columns given, compiling fails with AttributeError."
  },
  {
   "property": "C39",
   "status": "proved",
   "theorems": [
    "C39_suppression_exact",
    "C39_rows_kept"
   ],
   "note": ""
  },
  {
   "property": "C40",
   "status": "proved",
   "theorems": [
    "C40_lookup_finds_the_table",
    "C40_absence_is_reported",
    "C40_reference_gives_its_table",
    "C40_metric_of_the_table",
    "C40_every_table_has_a_metric",
    "C40_listing_is_complete"
   ],
   "note": "Lookup of names, references, schemas and metrics at any depth; the listing of named tables is complete and without repetition. The invariant that a session's names are unambiguous is C28."
  },
  {
   "property": "C41",
   "status": "partial",
   "theorems": [
    "C41_loaded_spark_schema",
    "C41_through_spark_schema",
    "C41_spark_round_trip_identity_iff",
    "C41_spark_round_trip_refuted",
    "C41_core_round_trip",
    "C41_loading_coerces_or_refuses",
    "C41_loaded_tables_have_schemas"
   ],
   "note": "Exact characterisation proved; identity through Spark schemas refuted (allow_nan/allow_inf are lost), identity through core descriptors proved; coercion proved"
  },
  {
   "property": "C42",
   "status": "proved",
   "theorems": [
    "C42_other_objects_never_change",
    "C42_only_own_calls_matter",
    "C42_failed_calls_change_nothing",
    "C42_changes_extend",
    "C42_new_columns_allow_special_values",
    "C42_clone_is_a_copy",
    "C42_queries_pass_the_checks",
    "C42_aggregations_compute_what_was_asked",
    "C42_total_is_groupby_nothing",
    "C42_total_answers_one_row",
    "C42_min_max_median_are_quantiles",
    "C42_histogram_is_bin_group_count",
    "C42_histogram_counts_bins",
    "C42_groups_by_what_was_asked",
    "C42_get_groups_as_asked",
    "C42_suppress_compares_the_count",
    "C42_histogram_counts_intervals",
    "C42_histogram_keeps_builder_refuted",
    "C42_column_as_string_refuted",
    "C42_source_names"
   ],
   "note": "All call sequences on any number of builders, grouped builders and queries, exceptions caught by the caller. Shortcuts, isolation of clones and other objects, failed calls, what each aggregation computes (groups, statistic, column, bounds, noise, names), one row for ungrouped aggregations, and histogram counts down to the intervals of the BinningSpec. Refuted beside it: histogram changes its own builder; a column given as a string is split into characters by joins."
  },
  {
   "property": "C43",
   "status": "partial",
   "theorems": [
    "C43_left_join_keeps_rows_partial",
    "C43_left_is_inner_on_ids",
    "C43_left_join_on_ids_refuted"
   ],
   "note": "Proved for tables without IDs. For tables with IDs the claim is false: C43_left_is_inner_on_ids, C43_left_join_on_ids_refuted."
  },
  {
   "property": "C44",
   "status": "partial",
   "theorems": [
    "C44_select",
    "C44_rename",
    "C44_rename_one_to_one",
    "C44_rename_loses_a_column_refuted",
    "C44_special_values",
    "C44_enforce",
    "C44_maps",
    "C44_groupby"
   ],
   "note": "The exact acceptance conditions are proved. 'A rename never loses a column' is proved when the new names differ and is false when two columns get the same new name: C44_rename_loses_a_column_refuted."
  },
  {
   "property": "C45",
   "status": "proved",
   "theorems": [
    "C45_partition_refused",
    "C45_partition_accepted",
    "C45_only_partitionable",
    "C45_parts_of_a_partition",
    "C45_only_rows_of_the_table",
    "C45_parts_disjoint",
    "C45_ids_in_few_parts",
    "C45_one_id_changes_few_parts",
    "C45_one_row_changes_one_part"
   ],
   "note": "Parts have exactly the rows with their value, of the whole table or, with privacy IDs, of the table truncated by a recorded constraint; parts are disjoint, IDs are in boundedly many parts, one ID or row more or less changes boundedly many parts."
  },
  {
   "property": "C46",
   "status": "proved",
   "theorems": [
    "C46_measures_see_all_rows",
    "C46_groups_see_all_rows"
   ],
   "note": "Measure aggregations and get_groups; counts are covered by C38_row_counts_exact."
  },
  {
   "property": "C47",
   "status": "proved",
   "theorems": [
    "C47_derived_tables_ignore_row_order",
    "C47_answers_ignore_row_order"
   ],
   "note": "Derived tables for every transformation; answers of compiled aggregations given that tmlt.core sees bags of rows (core_sees_bags)."
  },
  {
   "property": "C48",
   "status": "proved",
   "theorems": [
    "C48_filter",
    "C48_select",
    "C48_rename",
    "C48_drop_null_and_nan",
    "C48_drop_infinity",
    "C48_replace_null_and_nan",
    "C48_replace_infinity",
    "C48_map",
    "C48_bin_column",
    "C48_flat_map",
    "C48_flat_map_by_id",
    "C48_enforce",
    "C48_join_private",
    "C48_join_public"
   ],
   "note": "One theorem per method, stated with OperationsSpec.v. rename assumes the renamed columns differ (tmlt.core refuses otherwise); declared new columns are distinct (Python dict). Left public joins on tables with IDs: see C43."
  },
  {
   "property": "C49",
   "status": "proved",
   "theorems": [
    "C49_always_describable",
    "C49_tables_match_their_schemas",
    "C49_public_tables_match_their_schemas",
    "C49_queries_match_their_schemas"
   ],
   "note": "Invariant over all histories from the builder: layout, describability, rows in their domains; combined with C19 for any query in any reachable session."
  },
  {
   "property": "C50",
   "status": "partial",
   "theorems": [
    "C50_recorded_constraints_hold_partial",
    "C50_derived_constraints_hold_partial",
    "C50_recorded_constraints_hold_refuted"
   ],
   "note": "Proved for histories whose view definitions avoid the two patterns of C15 (default replacement touching a grouping column of a recorded constraint; private join taking MaxGroupsPerID for a row bound); refuted without that by a two-view history."
  },
  {
   "property": "C51",
   "status": "proved",
   "theorems": [
    "C51_answers_do_not_depend_on_rows",
    "C51_descriptions_do_not_depend_on_rows",
    "C51_compiling_does_not_depend_on_rows",
    "C51_sessions_compile_blindly",
    "C51_running_fails_independently_of_rows",
    "C51_building_does_not_depend_on_rows",
    "C51_from_building_on"
   ],
   "note": "Assumes that tmlt.core's constructors do not look at rows (blind, blind_core); C51_peeking shows the assumption is a real one. C51_sessions_compile_blindly derives the session-level assumption for the modelled compiler. Errors raised inside Spark or tmlt.core while running are outside the model."
  },
  {
   "property": "C52",
   "status": "proved",
   "theorems": [
    "C52_other_people_unaffected",
    "C52_other_tables_unaffected",
    "C52_same_sessions"
   ],
   "note": "For histories whose maps meet their declared outputs (honest) and core constructors that do not look at rows (blind). Row order is part of the conclusion: the rows of the other IDs are equal as lists."
  },
  {
   "property": "C53",
   "status": "proved",
   "theorems": [
    "C53_what_one_person_changes",
    "C53_counts"
   ],
   "note": "Distances are compared squared as in C17. Same guards as C52 on histories and on the user's functions in the aggregated pipeline; the aggregation's noise is in the metric the session's tables have, or no table of the session is grouped. Counts need tmlt.core's constructors not to look at rows. Sums, quantiles and bounds are covered at the level of the tables read."
  },
  {
   "property": "C54",
   "status": "proved",
   "theorems": [
    "C54_session_privacy",
    "C54_differential_privacy",
    "C54_session_privacy_partial",
    "C54_differential_privacy_partial"
   ],
   "note": "Stated for any closeness of distributions that composes (C54_session_privacy) and for real-valued finite distributions under pure, approximate and zero-concentrated differential privacy (C54_differential_privacy, which uses the standard library's axioms of the reals). Core's noise, and the proportionality of its loss to the distance of the tables, are hypotheses (`proportionate`); the distances that core tracks through views and partitions are modelled in FullPrivacySpec.v and FullSessionSpec.v. The _partial theorems are the earlier version for one person's rows, with a weaker hypothesis on the noise."
  },
  {
   "property": "C55",
   "status": "proved",
   "theorems": [
    "C55_rows_of_a_query",
    "C55_rows_read_by_an_aggregation",
    "C55_counts",
    "C55_documented_join_sensitivity_refuted"
   ],
   "note": "spread (StabilitySpec.v) says how far changes spread. C55_documented_join_sensitivity_refuted: the formula in TruncationStrategy's documentation has the roles of the tables swapped and is exceeded (12 changed rows where it promises 11). Core's own sensitivity bound, which the noise is scaled to, is not part of the repository."
  },
  {
   "property": "C56",
   "status": "proved",
   "theorems": [
    "C56_noise_is_reported",
    "C56_quantiles_of_the_right_class",
    "C56_names_in_dictionaries_refuted"
   ],
   "note": "plain is the guard on names and attributes that the statement gives; C56_names_in_dictionaries_refuted shows that it is needed. Objects are trees; members of sets are simple values."
  },
  {
   "property": "C57",
   "status": "partial",
   "theorems": [
    "C57_schemas_are_told",
    "C57_tables_tell_schemas_apart",
    "C57_sessions_are_told",
    "C57_empty_sessions_are_not_described",
    "C57_stopped_means_stopped",
    "C57_aggregations_are_told",
    "C57_queries_are_told",
    "C57_failures_are_told",
    "C57_groups_are_told",
    "C57_views_are_as_described",
    "C57_names_are_told_partial",
    "C57_public_names_refuted"
   ],
   "note": "Everything is proved except that describe(name) works for any table: for public tables it raises ValueError (C57_public_names_refuted). The text is modelled by its parts; tabulate's layout and the writing of budgets and constraints are not."
  },
  {
   "property": "C58",
   "status": "partial",
   "theorems": [
    "C58_collections_validated",
    "C58_refusals_as_asked_partial",
    "C58_unsortable_refuted",
    "C58_parameters_set_once"
   ],
   "note": "The exception asked for is raised only if the elements can be sorted; otherwise TypeError is (C58_unsortable_refuted)."
  },
  {
   "property": "C59",
   "status": "partial",
   "theorems": [
    "C59_answered_or_refused_partial",
    "C59_partitions_refused",
    "C59_refusals_have_messages",
    "C59_message_tells_partial",
    "C59_pure_request_refuted",
    "C59_shortfall_shown_as_zero_refuted"
   ],
   "note": "False of the code in two respects, with witnesses: a PureDPBudget that exceeds what is left of a session with an ApproxDPBudget ends in an AnalyticsInternalError (C59_pure_request_refuted), and shortfalls below 0.0005 are reported as a difference of 0 (C59_shortfall_shown_as_zero_refuted). All else is proved."
  },
  {
   "property": "C60",
   "status": "partial",
   "theorems": [
    "C60_equality_compares",
    "C60_other_objects_refused",
    "C60_equal_specs_bin_alike_partial",
    "C60_equality_is_an_equivalence",
    "C60_equal_specs_hash_alike",
    "C60_equal_specs_same_types_refuted"
   ],
   "note": "False of the code in one respect, with a witness: equal specs may have different input and output column types, since 1 == 1.0 (C60_equal_specs_same_types_refuted). All else is proved."
  },
  {
   "property": "C61",
   "status": "partial",
   "theorems": [
    "C61_keysets_never_change_partial",
    "C61_dataframe_and_size_are_final",
    "C61_storage_follows_cache_and_uncache",
    "C61_callers_list_changes_keyset_refuted"
   ],
   "note": "False of the code in one respect, with a witness: a KeySet shares the list of columns it was given with its caller (C61_callers_list_changes_keyset_refuted). Everything is proved for programs that leave such lists alone; the clauses about storage and about repeated dataframe() and size() for all programs."
  },
  {
   "property": "C62",
   "status": "partial",
   "theorems": [
    "C62_announced_columns",
    "C62_announced_groups",
    "C62_accepted_exactly",
    "C62_answer_has_announced_columns",
    "C62_groups_have_announced_columns",
    "C62_schema_overlooks_refuted"
   ],
   "note": "The schema clauses and the exact acceptance condition are proved for all aggregations. The answer clause is proved for all answers of a tmlt.core that returns numbers of the types it documents, provided output names differ from key names and the KeySet allows nulls only where the table does; without these two conditions it is false in the model, where tmlt.core refuses nothing (C62_schema_overlooks_refuted)."
  },
  {
   "property": "C63",
   "status": "proved",
   "theorems": [
    "C63_schema_is_documented",
    "C63_one_type_per_column",
    "C63_keys_fit_schema"
   ],
   "note": "C63_keys_fit_schema has the guard of C08 (usable). Keys are never floats (C64), so only nulls matter for fitting."
  },
  {
   "property": "C64",
   "status": "partial",
   "theorems": [
    "C64_malformed_refused",
    "C64_refused_only_if_malformed_partial",
    "C64_plans_cannot_be_removed"
   ],
   "note": "Refusals are proved without guards. That nothing else is refused is proved with the guards of C10, where chains of joins and conditions given as Columns are refuted."
  },
  {
   "property": "C65",
   "status": "proved",
   "theorems": [
    "C65_one_row_per_key",
    "C65_one_row_without_columns",
    "C65_suppressed_keys",
    "C65_keys_do_not_depend_on_data",
    "C65_answer_has_announced_columns"
   ],
   "note": "KeySets as in C08 ([usable]); tmlt.core is trusted to return one answer per key of the dataframe it is given, which is how run_plan models it."
  },
  {
   "property": "C66",
   "status": "proved",
   "theorems": [
    "C66_counts_exact",
    "C66_distinct_counts_exact",
    "C66_measures_exact",
    "C66_groups_exact",
    "C66_session_counts_exact",
    "C66_session_measures_exact"
   ],
   "note": "Assumes of tmlt.core that it adds no noise when epsilon or rho is infinite and then selects every key that occurs (exact_core, Exact.v). Tables respect the declared constraints (otherwise rows are truncated, as documented); user functions are as in C19/C46 (holds_for)."
  },
  {
   "property": "C67",
   "status": "proved",
   "theorems": [
    "C67_clamping_bounds",
    "C67_clamping_bounds_exist",
    "C67_infinite_clamping_bounds",
    "C67_person_totals",
    "C67_person_sums",
    "C67_person_ranks",
    "C67_row_totals",
    "C67_row_sums_and_ranks"
   ],
   "note": "Totals are computed from the table the measurement reads; that tmlt.core clamps to the bounds it is given, and that it scales noise to these sensitivities, is not part of the repository. ExactNumber.from_float is a pair of roundings (conversion, Sums.v)."
  },
  {
   "property": "C68",
   "status": "proved",
   "theorems": [
    "C68_raising_the_budget_breaks_nothing",
    "C68_next_call"
   ],
   "note": "Requests that the tolerance lowers are left out: the lowered amount depends on what is left. Rounding an ExactNumber down to a float is assumed to be monotone (rounds_in_order)."
  },
  {
   "property": "C69",
   "status": "proved",
   "theorems": [
    "C69_only_named_tables",
    "C69_sessions_agree",
    "C69_same_charge",
    "C69_other_calls_do_not_matter"
   ],
   "note": "For states that the session builder and later calls lead to, so that the whole catalog can be made (C49). The accountant's own check of the privacy relation is left open."
  },
  {
   "property": "C70",
   "status": "proved",
   "theorems": [
    "C70_laws_hold"
   ],
   "note": "For KeySets that meet the requirements of the operations and the side conditions of C08 and C10 (projections of KeySets with at least one key, columnless KeySets only multiplied, SQL string filters, chains of joins with a common column)."
  },
  {
   "property": "C71",
   "status": "proved",
   "theorems": [
    "C71_computed_or_refused",
    "C71_in_every_session",
    "C71_views_are_created",
    "C71_refusals_occur",
    "C71_internal_errors_occur"
   ],
   "note": "For queries whose user functions keep their promises (return the columns they declare) and that are not one of the three irregular kinds; C71_refusals_occur and C71_internal_errors_occur show that every reason arises."
  },
  {
   "property": "C72",
   "status": "proved",
   "theorems": [
    "C72_refused_exactly_for_faults",
    "C72_faultless_calls_work",
    "C72_bounds_are_positive"
   ],
   "note": "Argument types (typeguard) are not modelled. NaN bounds are accepted by the code, and so not counted as faults."
  },
  {
   "property": "C73",
   "status": "proved",
   "theorems": [
    "C73_compiled_or_refused",
    "C73_tables_are_not_released",
    "C73_in_every_session",
    "C73_budgets_refused_first",
    "C73_refusals_occur",
    "C73_laplace_with_groups_refuted"
   ],
   "note": "Up to what tmlt.core refuses (an oracle of the model). User functions keep their promises and the table query is regular as in C71. C73_refusals_occur shows that every reason arises, C73_laplace_with_groups_refuted shows the internal errors."
  },
  {
   "property": "C74",
   "status": "proved",
   "theorems": [
    "C74_same_tables",
    "C74_same_answers",
    "C74_filter_enforce_refuted"
   ],
   "note": "Up to the order of rows; answers for a tmlt.core that sees bags of rows (core_sees_bags). Both sides of a law are assumed to be computable, C71 says when they are. C74_filter_enforce_refuted shows an exchange that is not a law."
  },
  {
   "property": "C75",
   "status": "proved",
   "theorems": [
    "C75_as_if_alone",
    "C75_any_order",
    "C75_same_answers",
    "C75_order_matters_beyond_the_budget"
   ],
   "note": "Premises: rounding down to floats is monotone (rounds_in_order) and requested amounts are floats."
  },
  {
   "property": "C76",
   "status": "proved",
   "theorems": [
    "C76_same_future",
    "C76_built_in_any_order",
    "C76_caching_does_not_matter",
    "C76_views_leave_no_trace"
   ],
   "note": "Premises (indifferent): the choices of tmlt.core left open in the environment (its check of stability relations, its intermediate tables) do not depend on where tables are stored."
  },
  {
   "property": "C77",
   "status": "partial",
   "theorems": [
    "C77_view_answers_partial",
    "C77_view_costs_partial",
    "C77_views_on_views_partial",
    "C77_grouping_views_refuted"
   ],
   "note": "Proved for every aggregation whose noise is of the kind the session's budget suggests or whose table has no grouping column (C77_view_answers_partial, C77_view_costs_partial, C77_views_on_views_partial). C77_grouping_views_refuted: in a zCDP session, Laplace noise over a view with a grouping column raises an internal error while the definition is answered. get_groups without column names is left out: its column order is that of the table."
  },
  {
   "property": "C78",
   "status": "proved",
   "theorems": [
    "C78_parts_are_filtered_tables",
    "C78_parts_answer_like_views",
    "C78_parts_charge_like_views",
    "C78_parts_answer_like_filters",
    "C78_parts_with_ids"
   ],
   "note": "The value a condition has for a row is an oracle (w_cond_holds): the theorems assume that the condition holds exactly for the rows with the part's value. C78_parts_answer_like_filters builds on C77 and has its restriction on noise."
  },
  {
   "property": "C79",
   "status": "proved",
   "theorems": [
    "C79_turns_do_not_interfere",
    "C79_parts_then_parent",
    "C79_no_turning_back"
   ],
   "note": "Questions are evaluations; for what else may be called in between see C69. Budgets are floats, as for C75."
  },
  {
   "property": "C80",
   "status": "partial",
   "theorems": [
    "C80_public_tables",
    "C80_views_created",
    "C80_views_deleted",
    "C80_stopping",
    "C80_only_views_are_deleted_refuted"
   ],
   "note": "All but the last sentence is proved as equivalences, with the exception of each refusal. The last sentence is false: delete_view deletes tables the session was built from, after which a view can take the name (C80_only_views_are_deleted_refuted). Whether tmlt.core allows empty collections, and lets waiting sessions be stopped, is left open in the environment."
  },
  {
   "property": "C81",
   "status": "proved",
   "theorems": [
    "C81_failed_calls",
    "C81_failures_can_be_left_out",
    "C81_without_partitions",
    "C81_failures_end_parts_refuted"
   ],
   "note": "Equality of states, not only of budgets (compare C26). That the exception for waiting sessions is needed is C81_failures_end_parts_refuted."
  },
  {
   "property": "C82",
   "status": "proved",
   "theorems": [
    "C82_queries",
    "C82_calls",
    "C82_sessions"
   ],
   "note": "C82_queries needs no bijection: any two maps of names will do as long as the tables match. ID spaces keep their names. What tmlt.core decides (e_relation, e_temps) is assumed not to look at names (name_blind), which is shown for the example environment."
  },
  {
   "property": "C83",
   "status": "proved",
   "theorems": [
    "C83_counts",
    "C83_distinct_counts",
    "C83_sums",
    "C83_session_counts",
    "C83_session_distinct_counts",
    "C83_session_sums",
    "C83_choice_of_keys",
    "C83_choice_of_keys_distinct",
    "C83_choice_of_keys_measures",
    "C83_session_choice_of_keys",
    "C83_parts"
   ],
   "note": "Sums need an aggregation of tmlt.core that adds up what each row contributes (adds_up); rounding of floating point sums is not modelled. The two queries must both use Gaussian noise or both not, as then they are asked of the same transformed table."
  },
  {
   "property": "C84",
   "status": "proved",
   "theorems": [
    "C84_rows_per_id",
    "C84_rows_per_group_per_id",
    "C84_groups_per_id",
    "C84_higher_bounds",
    "C84_session_rows_per_id",
    "C84_session_rows_per_group_per_id",
    "C84_session_groups_per_id",
    "C84_session_higher_bounds"
   ],
   "note": "exact totals after each kind of bound, monotone in the bound, and the same in a session; noise-free measurements are the record exact_core"
  },
  {
   "property": "C85",
   "status": "proved",
   "theorems": [
    "C85_counts",
    "C85_filters_split",
    "C85_stricter_filter",
    "C85_swapped_joins",
    "C85_distinct_counts",
    "C85_measures",
    "C85_filtered_sums",
    "C85_session_counts",
    "C85_session_filters_split",
    "C85_session_stricter_filter",
    "C85_session_swapped_joins",
    "C85_session_distinct_counts",
    "C85_session_measures",
    "C85_session_filtered_sums"
   ],
   "note": "The steps are given by the relation derived, with the least and the greatest number of rows each row becomes; joins are on the key columns. Private joins are covered for tables without IDs, on either side; private joins of tables with IDs and flat_map_by_id are not. The library computes exact counts for unlimited budgets (exact_core), as in C66. Measures: the library reads the measure column only (reads_only). Sums of complementary filters: the library's sum adds up what each row contributes (adds_up), as in C83."
  }
 ]
}