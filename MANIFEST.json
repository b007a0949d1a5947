{
 "claims": [
  {
   "property": "C01",
   "status": "proved",
   "theorems": [
    "C01_extract_conserves",
    "C01_extract_comp_conserves",
    "C01_untracked_product_refuted"
   ],
   "note": "Extraction by quantity and by composition, with the exact refusal condition. Refuted: a product extracted from an untracked product crashes when extracted from."
  },
  {
   "property": "C02",
   "status": "proved",
   "theorems": [
    "C02_absorb_conserves",
    "C02_mix_never_throws",
    "C02_product_quality_kept",
    "C02_self_absorb_refuted"
   ],
   "note": "For distinct resources; a resource absorbing itself loses everything (refuted)."
  },
  {
   "property": "C03",
   "status": "proved",
   "theorems": [
    "C03_mix_balances",
    "C03_mix_balances_not_lazy",
    "C03_extract_balances"
   ],
   "note": "Exact arithmetic; under lazy decay the balance is against the decayed materials."
  },
  {
   "property": "C04",
   "status": "proved",
   "theorems": [
    "C04_history_conserves",
    "C04_history_conserves_from"
   ],
   "note": "All histories of the modelled API without Clone and without self-absorption."
  },
  {
   "property": "C05",
   "status": "proved",
   "theorems": [
    "C05_state_ids_unique",
    "C05_object_id_fixed",
    "C05_object_ids_unique"
   ],
   "note": "Row ids unique and object ids fixed for all histories; object ids of different objects distinct in clone-free histories (a clone shares its original's id)."
  },
  {
   "property": "C06",
   "status": "proved",
   "theorems": [
    "C06_parents_are_earlier_rows",
    "C06_closed",
    "C06_only_creations_have_no_parent",
    "C06_untracked_never_recorded",
    "C06_absorb_untracked_refuted",
    "C06_clone_refuted"
   ],
   "note": "Clone-free histories; absorbing an untracked resource or extracting from a clone breaks closure (refuted theorems)."
  },
  {
   "property": "C07",
   "status": "proved",
   "theorems": [
    "C07_quality_named",
    "C07_last_row_agrees",
    "C07_unpackaging_refuted"
   ],
   "note": "Clone-free histories. Un-packaging of a material is not recorded (refuted theorem), so the package clause excepts it."
  },
  {
   "property": "C08",
   "status": "proved",
   "theorems": [
    "C08_accounted",
    "C08_bulk_is_one",
    "C08_space",
    "C08_push_bound",
    "C08_set_capacity",
    "C08_capacity_history",
    "C08_capacity_refuted",
    "C08_duplicate_refuted"
   ],
   "note": "Accounting for all histories; capacity bound for single pushes and for histories with sizable pushes. C08_capacity_refuted and C08_duplicate_refuted show why the provisos are needed (crumbs accepted by a full buffer; a vector listing one object twice)."
  },
  {
   "property": "C09",
   "status": "proved",
   "theorems": [
    "C09_first_in_first_out",
    "C09_pop",
    "C09_pop_back",
    "C09_pop_n",
    "C09_pop_vector"
   ],
   "note": "Queue refinement over histories plus exact effect of each pop; PopVector's split characterised by 'takes'."
  },
  {
   "property": "C10",
   "status": "proved",
   "theorems": [
    "C10_pop_vector_exact",
    "C10_pop_exact",
    "C10_pop_within_eps",
    "C10_pop_throws_refuted"
   ],
   "note": "Exactness and conservation for every in-use buffer. C10_pop_throws_refuted: Pop(0) throws, and popping across product qualities throws after removing the resources."
  },
  {
   "property": "C11",
   "status": "proved",
   "theorems": [
    "C11_push",
    "C11_push_vector",
    "C11_all_or_nothing_refuted"
   ],
   "note": "Throw conditions are exact for single and vector pushes. C11_all_or_nothing_refuted gives the cases outside the provisos where a push is partial."
  },
  {
   "property": "C12",
   "status": "proved",
   "theorems": [
    "C12_quantity_current",
    "C12_pop",
    "C12_restore",
    "C12_stale_refuted",
    "C12_null_refuted"
   ],
   "note": "Cache coherence over histories, Pop, and obj_ids/Values round trip in any order. C12_stale_refuted/C12_null_refuted: changes through a retained pointer leave quantity() stale; reading an absent key poisons the map."
  },
  {
   "property": "C13",
   "status": "proved",
   "theorems": [
    "C13_fills_within_limits",
    "C13_empty_only_if_too_little",
    "C13_equal_leaves_nothing",
    "C13_no_failure",
    "C13_equal_default_min_refuted",
    "C13_zero_quantity_refuted"
   ],
   "note": "Sampled fills are oracle values within the distribution's limits. Two refutations: default minimum 0 with strategy equal, and packaging of quantity 0, convert a non-finite double to int."
  },
  {
   "property": "C14",
   "status": "proved",
   "theorems": [
    "C14_package_conserves"
   ],
   "note": "Fill sampling is an oracle within the distribution's limits."
  },
  {
   "property": "C15",
   "status": "partial",
   "theorems": [
    "C15_product_limits",
    "C15_material_limits_partial",
    "C15_material_limits_refuted"
   ],
   "note": "Holds for products. For materials the limits of the package being left are checked, so the property is refuted and only the rest is proved."
  },
  {
   "property": "C16",
   "status": "proved",
   "theorems": [
    "C16_shippable_is_legal_loads",
    "C16_hybrid_optimal",
    "C16_unrestricted",
    "C16_first_maximal_refuted",
    "C16_default_min_refuted",
    "C16_default_max_refuted"
   ],
   "note": "Needs minimum >= 1; refutations for the default minimum (division by zero) and default maximum (int overflow)."
  },
  {
   "property": "C17",
   "status": "proved",
   "theorems": [
    "C17_solve_succeeds",
    "C17_supply_capacity",
    "C17_supply_capacity_exact",
    "C17_zero_unit_refuted"
   ],
   "note": "Exact rationals; float_distance is a parameter with tolerance tol (tol=0 exact). Capacity, UpdateCapacity, Init and both loops are modelled branch by branch with IEEE inf/NaN quotients. Positive unit capacities are required: C17_zero_unit_refuted shows the NaN case."
  },
  {
   "property": "C18",
   "status": "proved",
   "theorems": [
    "C18_group_quantity",
    "C18_node_quantity",
    "C18_one_constraint",
    "C18_single_constraint",
    "C18_every_constraint_refuted"
   ],
   "note": "Group and node quantities bounded; a request group's constraints use the maximum, so only one is guaranteed (C18_every_constraint_refuted)."
  },
  {
   "property": "C19",
   "status": "proved",
   "theorems": [
    "C19_all_or_nothing",
    "C19_request_once",
    "C19_bid_once",
    "C19_same_object_refuted"
   ],
   "note": "All-or-nothing and at-most-once per node proved. Exclusive node groups (same object) are not enforced by the solver: C19_same_object_refuted."
  },
  {
   "property": "C20",
   "status": "proved",
   "theorems": [
    "C20_preference_order",
    "C20_group_order",
    "C20_heavier_groups_first",
    "C20_better_first",
    "C20_nothing_left",
    "C20_matches_are_real"
   ],
   "note": "Order of matches, exhaustion of better arcs at the moment of each match, and exhaustion at the end."
  },
  {
   "property": "C21",
   "status": "proved",
   "theorems": [
    "C21_only_reorders",
    "C21_groups_sorted",
    "C21_nodes_sorted",
    "C21_heavier_first",
    "C21_preferred_first",
    "C21_reverse_weights"
   ],
   "note": "Permutation, sortedness by weight, reversal of weights."
  },
  {
   "property": "C22",
   "status": "partial",
   "theorems": [
    "C22_priorities_ignored_refuted",
    "C22_lower_priority_served_refuted",
    "C22_recorded_priorities",
    "C22_matching_column_partial"
   ],
   "note": "The full statement is refuted: the loader reads column SolutionOrder while the schema records SolutionPriority, so the declared priorities never reach the solver (C22_priorities_ignored_refuted, C22_lower_priority_served_refuted). Proved: what is recorded, and that with a matching column name the priorities would arrive."
  },
  {
   "property": "C23",
   "status": "proved",
   "theorems": [
    "C23_translation",
    "C23_outcome",
    "C23_back",
    "C23_exclusive_sets"
   ],
   "note": "Translation (with the exclusive sets), its failure cases, and back-translation."
  },
  {
   "property": "C24",
   "status": "partial",
   "theorems": [
    "C24_effect",
    "C24_total_partial",
    "C24_weighted_partial",
    "C24_equal_partial",
    "C24_documented_weights_refuted",
    "C24_full_order_refuted"
   ],
   "note": "Proved: the actual effect of AddMutualReqs and the bounds that follow. The documented weighting is refuted: weights are inverted (C24_documented_weights_refuted, C24_full_order_refuted)."
  },
  {
   "property": "C25",
   "status": "proved",
   "theorems": [
    "C25_execution",
    "C25_each_trade_once",
    "C25_failure",
    "C25_recorded_is_delivered_refuted"
   ],
   "note": "Generic in the suppliers' and requesters' behaviour, including failures. A response to a requester without trades is recorded but not delivered (C25_recorded_is_delivered_refuted)."
  },
  {
   "property": "C26",
   "status": "proved",
   "theorems": [
    "C26_phases_in_order",
    "C26_actions_in_their_phase",
    "C26_finish_row",
    "C26_time_never_decreases"
   ],
   "note": "whole runs, for all user code, set-ups, durations and kill requests; runs that end by an exception are covered up to the point of the exception"
  },
  {
   "property": "C27",
   "status": "proved",
   "theorems": [
    "C27_ticks",
    "C27_tocks",
    "C27_once_per_step",
    "C27_decisions",
    "C27_only_listeners",
    "C27_registered_twice_refuted",
    "C27_unregistering_skips_refuted"
   ],
   "note": "whole runs; refutations: double registration gives two ticks, and unregistering during one's own tick makes the next listener miss its tick"
  },
  {
   "property": "C28",
   "status": "proved",
   "theorems": [
    "C28_builds_executed_once",
    "C28_nothing_else_is_built",
    "C28_only_future_orders",
    "C28_past_rejected",
    "C28_order_accepted",
    "C28_parent_gone_refuted"
   ],
   "note": "whole runs; the parent must still exist (refutation: dangling parent is undefined behaviour)"
  },
  {
   "property": "C29",
   "status": "proved",
   "theorems": [
    "C29_decommissions_executed_once",
    "C29_last_order_wins",
    "C29_left_at_most_once",
    "C29_past_rejected",
    "C29_order_during_decommissioning_refuted",
    "C29_postponing_refuted"
   ],
   "note": "whole runs; orders issued within the decommission phase for the same step are lost, postponements within it are ignored (refutations)"
  },
  {
   "property": "C30",
   "status": "proved",
   "theorems": [
    "C30_entry_and_exit_time",
    "C30_institution_orders",
    "C30_leaves_in_the_ordered_step",
    "C30_present_until_exit",
    "C30_lifetime_fixed_after_entry",
    "C30_lifetime_force_refuted"
   ],
   "note": "operation level for the default institution, run level for leaving and presence; lifetime_force refuted"
  },
  {
   "property": "C31",
   "status": "proved",
   "theorems": [
    "C31_ids",
    "C31_links_mutual",
    "C31_acyclic",
    "C31_counts",
    "C31_counts_without_discipline",
    "C31_institutions_refuted",
    "C31_rebuilding_refuted"
   ],
   "note": "under the build discipline 'orderly'; unconditional counter equation as well; refutations for institutions and for rebuilding"
  },
  {
   "property": "C32",
   "status": "proved",
   "theorems": [
    "C32_fresh_clone",
    "C32_failure",
    "C32_unknown_name",
    "C32_latest_prototype",
    "C32_name_taken"
   ],
   "note": "Clone is the generated one (InitFrom)"
  },
  {
   "property": "C33",
   "status": "proved",
   "theorems": [
    "C33_everything_delivered",
    "C33_at_any_time",
    "C33_late_backend",
    "C33_after_close",
    "C33_set_dump_count_refuted",
    "C33_reduced_dump_count_refuted",
    "C33_dump_count_zero_refuted",
    "C33_unfinished_datum_refuted",
    "C33_failing_backend_refuted"
   ],
   "note": "for programs using the NewDatum/AddVal/Record idiom with a fixed dump count >= 1 and backends that do not throw; refutations for each of these conditions"
  },
  {
   "property": "C34",
   "status": "proved",
   "theorems": [
    "C34_kahan_sum",
    "C34_add",
    "C34_sub",
    "C34_sub_undoes_add",
    "C34_normalize",
    "C34_apply_threshold",
    "C34_almost_eq",
    "C34_almost_eq_refl",
    "C34_almost_eq_sym"
   ],
   "note": "Exact arithmetic over Q; Kahan summation proved equal to the sum."
  },
  {
   "property": "C35",
   "status": "proved",
   "theorems": [
    "C35_from_mass",
    "C35_from_atom",
    "C35_roundtrip",
    "C35_invalid_refused"
   ],
   "note": "Exact arithmetic; atomic masses positive."
  },
  {
   "property": "C36",
   "status": "proved",
   "theorems": [
    "C36_chain",
    "C36_repeatable",
    "C36_fresh_is_computed",
    "C36_result_is_right",
    "C36_step_length_refuted"
   ],
   "note": "Cache identity for all histories; correctness of the cached result under one step length and a composing solver; refuted when step lengths differ."
  },
  {
   "property": "C37",
   "status": "proved",
   "theorems": [
    "C37_ids",
    "C37_recorded_once"
   ],
   "note": "All histories."
  },
  {
   "property": "C38",
   "status": "proved",
   "theorems": [
    "C38_within_limits",
    "C38_deliverable",
    "C38_silent",
    "C38_asks_all",
    "C38_bulk_cap_refuted"
   ],
   "note": "limits, silence, delivery and completeness of requests; the cumulative cap is per policy on a non-bulk buffer (bulk buffers: refuted); amounts are exact rationals and the largest double is 'no limit'"
  },
  {
   "property": "C39",
   "status": "proved",
   "theorems": [
    "C39_no_gap_no_overlap",
    "C39_timetable",
    "C39_always_active",
    "C39_cumulative",
    "C39_zero_length_refuted",
    "C39_reinit_refuted"
   ],
   "note": "timetable for lengths sampled from arbitrary sequences (active at least 1), always-active default, cumulative mode; zero-length active periods and re-initialisation refuted"
  },
  {
   "property": "C40",
   "status": "proved",
   "theorems": [
    "C40_limit",
    "C40_bids",
    "C40_offers_bounded",
    "C40_trades",
    "C40_packaged_transport_unit",
    "C40_package_holds_quantum",
    "C40_transport_unit_holds_quantum",
    "C40_transport_unit_refuted",
    "C40_ignored_composition_refuted",
    "C40_whole_trade_refuted"
   ],
   "note": "Bids (limit, division into quanta/packages, transport, portfolio capacity, backing material) and trades (conservation, distinct materials, amounts) proved for every buffer history, request list, package and transport unit; a policy that packages hands over no more packages than its transport unit takes, and a policy with a quantum accepts only packages and transport units that hold it. Refuted: transport unit not enforced without packaging; ignore_comp ships the original composition; a trade needing several packages loses all but the first. Lazy decay: composition of the offered material not claimed."
  },
  {
   "property": "C41",
   "status": "proved",
   "theorems": [
    "C41_quantity",
    "C41_capacity",
    "C41_space",
    "C41_room",
    "C41_set_capacity",
    "C41_uninitialised",
    "C41_failed_init_refuted",
    "C41_nonpositive_capacity_refuted",
    "C41_duplicate_refuted"
   ],
   "note": "Reads, capacity, space and room for all tracked buffers and all histories; three refutations (a throwing Init leaves a half-set tracker, non-positive capacities accepted, a buffer listed twice counts twice)."
  },
  {
   "property": "C42",
   "status": "proved",
   "theorems": [
    "C42_resources",
    "C42_package_refuted",
    "C42_used_up_refuted",
    "C42_decay_time_refuted",
    "C42_restart",
    "C42_orphan_hangs",
    "C42_parents_alive_refuted",
    "C42_unknown_agent_crashes",
    "C42_later_lifetimes_refuted",
    "C42_build_due_refuted",
    "C42_later_order_refuted",
    "C42_early_exit_refuted"
   ],
   "note": "restart theorem (agents, parents, inventories, schedules, counters) and resources read back from the database; refuted corner cases: agents outliving their parent (restart never ends), agents or lifetimes ordered after the snapshot, builds due at the snapshot time, package names, used-up materials, last decay time after a direct transmutation"
  },
  {
   "property": "C43",
   "status": "proved",
   "theorems": [
    "C43_never_fails",
    "C43_answers",
    "C43_absent",
    "C43_tables",
    "C43_fallback",
    "C43_fields",
    "C43_mixed_order_refuted",
    "C43_code_cache",
    "C43_registry_refuted",
    "C43_empty_conditions_refuted",
    "C43_column_name_refuted"
   ],
   "note": "How pandas compares values is an oracle. Findings: narrowing the registry from True to a set keeps stale tables; an empty condition list is an error; a column called val1 loses rows silently; data of one delivery are filed under the fields of the first."
  },
  {
   "property": "C44",
   "status": "proved",
   "theorems": [
    "C44_operators",
    "C44_conjunction",
    "C44_sqlite",
    "C44_pile",
    "C44_only_restricts",
    "C44_order_is_irrelevant",
    "C44_sqlite_errors",
    "C44_get_val",
    "C44_empty_injection_refuted",
    "C44_prefix_schema_refuted"
   ],
   "note": "How SQLite compares values is an oracle. Findings: an injector with nothing to inject breaks unconditional queries; prefixes do not apply to Schema, ColumnTypes and Tables."
  },
  {
   "property": "C45",
   "status": "proved",
   "theorems": [
    "C45_print_parse",
    "C45_parse_print",
    "C45_unique",
    "C45_unique_refuted",
    "C45_infile_defaults",
    "C45_built",
    "C45_default_alias_refuted",
    "C45_table_names",
    "C45_table_name_chars",
    "C45_table_names_refuted"
   ],
   "note": "round trip, acceptance, uniqueness and table names; refuted: default alias of the four-string constructor, distinct table names for distinct archetypes"
  },
  {
   "property": "C46",
   "status": "proved",
   "theorems": [
    "C46_balance",
    "C46_no_contrast",
    "C46_amounts",
    "C46_value",
    "C46_value_at_zero_refuted",
    "C46_swu_is_value_added",
    "C46_swu"
   ],
   "note": "Over Coq's real numbers; infinities are None. The value function is not finite at 0 although documented on [0,1): C46_value_at_zero_refuted."
  },
  {
   "property": "C47",
   "status": "proved",
   "theorems": [
    "C47_curve",
    "C47_refusal",
    "C47_before",
    "C47_shape",
    "C47_unshifted",
    "C47_continuous",
    "C47_continuous_everywhere",
    "C47_basic_components",
    "C47_past"
   ],
   "note": "Over Coq's real numbers; components are arbitrary functions that do not change after being added."
  },
  {
   "property": "C48",
   "status": "proved",
   "theorems": [
    "C48_initial_preference",
    "C48_adjustment"
   ],
   "note": "Initial preferences and the effect of every adjustment sequence."
  },
  {
   "property": "C49",
   "status": "proved",
   "theorems": [
    "C49_trades_are_real",
    "C49_request_and_bid",
    "C49_bid_constraints",
    "C49_nothing_left"
   ],
   "note": "End-to-end over translation, greedy solve, back-translation; C49_nothing_left is the converse bound (for bids and requests that are not exclusive)."
  },
  {
   "property": "C50",
   "status": "proved",
   "theorems": [
    "C50_queries_settle",
    "C50_nuclide",
    "C50_nuclide_sets",
    "C50_almost_eq",
    "C50_amount",
    "C50_amount_extractable",
    "C50_uranium"
   ],
   "note": "MatQuery and the uranium queries answer exactly from the (lazily decayed) composition; Amount is maximal and extractable. String overloads (nucname::id) not modelled."
  },
  {
   "property": "C51",
   "status": "proved",
   "theorems": [
    "C51_crash_only_invalid",
    "C51_valid_history_runs",
    "C51_packaging_valid",
    "C51_untracked_product_refuted"
   ],
   "note": "untracked products excluded: C51_untracked_product_refuted"
  },
  {
   "property": "C52",
   "status": "proved",
   "theorems": [
    "C52_program_made",
    "C52_feasible",
    "C52_supply_capacity",
    "C52_matches",
    "C52_exclusive",
    "C52_request_group",
    "C52_no_avoidable_shortage",
    "C52_bid_offer_refuted",
    "C52_request_refuted",
    "C52_exclusive_overfill_refuted",
    "C52_exchange_outcome",
    "C52_exchange_trades",
    "C52_exchange_amounts",
    "C52_exchange_supply",
    "C52_exchange_exclusive",
    "C52_exchange_demand",
    "C52_exchange_no_shortage"
   ],
   "note": "every feasible solution respects supply constraints, exclusivity and per-arc quantities; optimal solutions (no exclusive orders) neither over-satisfy a request group nor leave avoidable shortage; limits of the program shown by refutations; the C52_exchange_ theorems say it of the trades of a whole exchange (greedy pre-pass, program, back-translation)"
  },
  {
   "property": "C53",
   "status": "proved",
   "theorems": [
    "C53_producer",
    "C53_ask_refuted",
    "C53_supply",
    "C53_supply_lists",
    "C53_demand",
    "C53_no_demand",
    "C53_orders",
    "C53_covers",
    "C53_cheapest",
    "C53_tight",
    "C53_solvable",
    "C53_defined",
    "C53_no_offer_undefined",
    "C53_closes_gap",
    "C53_shared_producer_refuted",
    "C53_truncation_refuted"
   ],
   "note": "The COIN solver is an oracle assumed to return an exact integer optimum of the program at hand. Findings: queries insert entries; shared producers; truncation to int; unchecked solver status; empty vectors."
  },
  {
   "property": "C54",
   "status": "proved",
   "theorems": [
    "C54_phases",
    "C54_collected",
    "C54_preferences",
    "C54_unadjusted",
    "C54_no_bids",
    "C54_deals",
    "C54_adjust_order_refuted"
   ],
   "note": "Traders and agents are arbitrary functions that may throw. C54_phases holds for all of them; the theorems on contents suppose that a trader only fills and returns portfolios of its own made in that call (fair_requester, fair_bidder) and, for C54_deals, suppliers that hand over what was agreed (honest). C54_adjust_order_refuted: preference adjustment does not follow the order of agent ids."
  },
  {
   "property": "C55",
   "status": "proved",
   "theorems": [
    "C55_content",
    "C55_values",
    "C55_tables",
    "C55_view",
    "C55_accepted",
    "C55_stuck",
    "C55_later_refuted",
    "C55_all_or_nothing_refuted",
    "C55_again_refuted",
    "C55_exact_refuted"
   ],
   "note": "SQLite itself is modelled as tables with typed columns, one transaction and failing statements; a crash leaves what was last committed. Data of one title with changing fields are excluded (see findings)."
  },
  {
   "property": "C56",
   "status": "proved",
   "theorems": [
    "C56_schema_accepts_what_has_values",
    "C56_generated_reader_compiles",
    "C56_input_read_as_written",
    "C56_accepted_input_is_read",
    "C56_given_value_is_used",
    "C56_absent_value_is_default",
    "C56_default_names",
    "C56_given_names",
    "C56_declared_variables_kept",
    "C56_sequence_of_maps_refuted",
    "C56_pair_in_pair_refuted",
    "C56_nested_default_refuted",
    "C56_flag_written_true_refuted",
    "C56_comment_in_value_refuted",
    "C56_empty_text_refuted",
    "C56_variable_called_n_refuted",
    "C56_alias_equal_to_name_refuted"
   ],
   "note": "Schema exactness, compilation and reading of every input for classes within the stated conditions; the conditions that matter in practice are each shown necessary by a refutation."
  },
  {
   "property": "C57",
   "status": "proved",
   "theorems": [
    "C57_initial_agents_are_those_of_the_file",
    "C57_complete_file_is_loaded",
    "C57_second_alias_refuted"
   ],
   "note": "Loading a main-format file gives exactly its prototypes and agents; complete files load; second alias of an archetype refuted."
  },
  {
   "property": "C58",
   "status": "proved",
   "theorems": [
    "C58_flat_agents_are_those_of_the_file",
    "C58_complete_flat_file_is_loaded",
    "C58_loaded_only_if_parents_are_listed",
    "C58_missing_parent_never_ends_refuted",
    "C58_each_element_an_agent_refuted"
   ],
   "note": "Flat format: each name once, parents first; complete rooted files load within (n+1)^2 rounds and only such files; endless loop on missing parents and silent replacement of duplicates refuted."
  },
  {
   "property": "C59",
   "status": "proved",
   "theorems": [
    "C59_clone_is_an_empty_copy",
    "C59_saved_agent_comes_back",
    "C59_snapshot_of_overfull_buffer_refuted",
    "C59_changed_capacity_refuted",
    "C59_tracker_limit_refuted",
    "C59_resource_map_refuted"
   ],
   "note": "Classes with ResMap members, user-supplied code in annotations or members named like the generated methods' own variables are outside the positive theorems; what happens to ResMap members, trackers' limits, changed capacities and overfull buffers is stated by the _refuted theorems."
  },
  {
   "property": "C60",
   "status": "proved",
   "theorems": [
    "C60_settings_are_those_of_the_file",
    "C60_restart_has_the_settings",
    "C60_restart_tolerances_refuted",
    "C60_sensible_settings_load",
    "C60_unit_without_limit_refuted",
    "C60_reserved_unit_refuted"
   ],
   "note": "Settings from the input file to a started or restarted simulation; the weights of the greedy solver are C22; tolerances after a restart, unlimited and reserved transport units refuted"
  },
  {
   "property": "C61",
   "status": "proved",
   "theorems": [
    "C61_run",
    "C61_nothing_lost",
    "C61_growth",
    "C61_supplier",
    "C61_consumer",
    "C61_sink_capacity_refuted",
    "C61_full_sink_refuted",
    "C61_zero_source_refuted"
   ],
   "note": "Safety, completeness and bookkeeping for any number of facilities and steps (C61_run; fair_day.dy_met says no wanted supply is left over), conservation, growth of KFacility capacities, answers of one supplier and one consumer to any trades; three expectations about Sink and Source are refuted by computed runs."
  },
  {
   "property": "C62",
   "status": "proved",
   "theorems": [
    "C62_in_order",
    "C62_answers",
    "C62_messages",
    "C62_time_step",
    "C62_pause",
    "C62_registry",
    "C62_never_stuck",
    "C62_resumes",
    "C62_unpause_refuted",
    "C62_two_pauses_refuted",
    "C62_paused_requests_refuted",
    "C62_repeating_pause_refuted",
    "C62_registration_refuted",
    "C62_shutdown_refuted",
    "C62_shutdown_paused_refuted",
    "C62_reconnect_refuted",
    "C62_bad_unpause_refuted",
    "C62_loaded_refuted",
    "C62_never_runs_refuted"
   ],
   "note": "Every schedule. The parts of the claim the code violates are proved false (the _refuted theorems) and listed as findings."
  },
  {
   "property": "C63",
   "status": "proved",
   "theorems": [
    "C63_xml_to_json",
    "C63_json_to_xml",
    "C63_round_trip",
    "C63_same_queries",
    "C63_empty_repeated_refuted",
    "C63_empty_array_refuted",
    "C63_comment_refuted",
    "C63_markup_refuted",
    "C63_mixed_refuted"
   ],
   "note": "For files and documents without the shapes named in the statement; those are refuted by witnesses. The XML parser is a small model of one: no attributes, entities, CDATA or processing instructions. Numbers of a JSON document are the text they are printed as; doubles are printed with six significant digits."
  },
  {
   "property": "C64",
   "status": "proved",
   "theorems": [
    "C64_answers",
    "C64_input_file",
    "C64_restored",
    "C64_equal",
    "C64_equal_refuted",
    "C64_question_refuted",
    "C64_empty_refuted",
    "C64_lost_refuted"
   ],
   "note": "Resources are their object ids; the backend returns the rows recorded in their order."
  },
  {
   "property": "C65",
   "status": "proved",
   "theorems": [
    "C65_range",
    "C65_stored",
    "C65_again",
    "C65_great_circle",
    "C65_metric",
    "C65_sign_refuted"
   ],
   "note": "Doubles are exact: stored coordinates are rational numbers, distances real numbers. The text representation is not modelled but for the sign."
  },
  {
   "property": "C66",
   "status": "proved",
   "theorems": [
    "C66_warnings",
    "C66_errors",
    "C66_wrap_refuted",
    "C66_log",
    "C66_levels",
    "C66_no_mem_refuted"
   ],
   "note": "The text of log entries is not modelled, just whether they are printed."
  }
 ]
}