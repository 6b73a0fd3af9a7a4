{
 "claims": [
  {
   "property": "C01",
   "status": "proved",
   "theorems": [
    "C01_admissible_iff"
   ],
   "note": "exact equivalence for every two-way table, margins and fixed-cell list"
  },
  {
   "property": "C02",
   "status": "proved",
   "theorems": [
    "C02_closure_exact",
    "C02_closure_idempotent",
    "C02_two_way_closure"
   ],
   "note": "any number of dimensions; two-way corollary"
  },
  {
   "property": "C03",
   "status": "proved",
   "theorems": [
    "C03_distribution_name",
    "C03_order_irrelevant",
    "C03_never_fails"
   ],
   "note": ""
  },
  {
   "property": "C04",
   "status": "proved",
   "theorems": [
    "C04_residual_margins",
    "C04_free_cells_sum_to_residual",
    "C04_repeated_cell_refuted"
   ],
   "note": "for lists of distinct fixed cells; C04_repeated_cell_refuted shows the hypothesis is needed (a repeated cell is subtracted twice)"
  },
  {
   "property": "C05",
   "status": "partial",
   "theorems": [
    "C05_construction_fails_on_implied_cells",
    "C05_completion_refuted"
   ],
   "note": "the claimed completion is false of the code (C05_completion_refuted: construction raises TypeError); proved: exactly when construction fails"
  },
  {
   "property": "C06",
   "status": "proved",
   "theorems": [
    "C06_monte_carlo_start_table"
   ],
   "note": "every permutation, shape and consistent non-negative margins"
  },
  {
   "property": "C07",
   "status": "proved",
   "theorems": [
    "C07_returned_table_admissible"
   ],
   "note": "all solvers, any draws"
  },
  {
   "property": "C08",
   "status": "partial",
   "theorems": [
    "C08_maximum_entropy_terminates",
    "C08_fixed_cells_refuted"
   ],
   "note": "proved for every constraint set without fixed cells and for one-axis constraints with fixed cells (C08_maximum_entropy_terminates); the last sentence is false of the code when both margins are constrained with fixed cells (C08_fixed_cells_refuted)"
  },
  {
   "property": "C09",
   "status": "proved",
   "theorems": [
    "C09_update_table_margins"
   ],
   "note": ""
  },
  {
   "property": "C10",
   "status": "proved",
   "theorems": [
    "C10_random_start_table"
   ],
   "note": ""
  },
  {
   "property": "C11",
   "status": "proved",
   "theorems": [
    "C11_moves_preserve_constraints",
    "C11_generation_succeeds_iff"
   ],
   "note": "every draw, constraint set and fixed-cell list; also: generation succeeds exactly when row or column totals are constrained"
  },
  {
   "property": "C12",
   "status": "proved",
   "theorems": [
    "C12_one_margin_basis_connects"
   ],
   "note": "stronger: also with fixed cells, for tables agreeing on them"
  },
  {
   "property": "C13",
   "status": "partial",
   "theorems": [
    "C13_all_minors_connect",
    "C13_connects_iff_two_by_two",
    "C13_two_margin_basis_refuted"
   ],
   "note": "false of the code except for 2x2 tables: C13_connects_iff_two_by_two is the exact condition, C13_two_margin_basis_refuted the refutation for every larger table and every draw; a basis with all minors connects (C13_all_minors_connect)"
  },
  {
   "property": "C14",
   "status": "partial",
   "theorems": [
    "C14_row_basis_size_partial",
    "C14_column_basis_size_partial",
    "C14_length_function_refuted"
   ],
   "note": "number of moves and distinctness (up to sign) proved; the length function itself always raises (ragged array), C14_length_function_refuted"
  },
  {
   "property": "C15",
   "status": "proved",
   "theorems": [
    "C15_candidates_exact"
   ],
   "note": ""
  },
  {
   "property": "C16",
   "status": "proved",
   "theorems": [
    "C16_markov_move_keeps_constraints",
    "C16_degree_one_proposal"
   ],
   "note": "every draw, constraint set, step size and fixed-cell list"
  },
  {
   "property": "C17",
   "status": "partial",
   "theorems": [
    "C17_degree_higher_proposal",
    "C17_fallback_refuted"
   ],
   "note": "margins, fixed cells and non-negativity on the support proved; the fall-back clause is false of the code: C17_degree_higher_proposal gives the exact condition and C17_fallback_refuted a reachable negative table that is always accepted"
  },
  {
   "property": "C18",
   "status": "proved",
   "theorems": [
    "C18_chain_stays_admissible"
   ],
   "note": "any proposal type, log intensities that may change between steps, any draws, any number of steps"
  },
  {
   "property": "C19",
   "status": "proved",
   "theorems": [
    "C19_step_size_support_exact",
    "C19_support_keeps_table_nonnegative"
   ],
   "note": ""
  },
  {
   "property": "C20",
   "status": "proved",
   "theorems": [
    "C20_metropolis_step",
    "C20_acceptance_rule"
   ],
   "note": ""
  },
  {
   "property": "C21",
   "status": "partial",
   "theorems": [
    "C21_ratio_fails_iff",
    "C21_ratio_partial",
    "C21_ratio_refuted",
    "C21_ratio_exact_partial"
   ],
   "note": "false of the code: C21_ratio_fails_iff says exactly when the ratio raises, C21_ratio_refuted exhibits a wrong ratio; C21_ratio_partial: it is the true one when every changed cell is 0 or 1 before and after"
  },
  {
   "property": "C22",
   "status": "proved",
   "theorems": [
    "C22_multinomial_first_attempt",
    "C22_returned_table_admissible"
   ],
   "note": "draws of the multinomial are any non-negative counts with the requested sum"
  },
  {
   "property": "C23",
   "status": "partial",
   "theorems": [
    "C23_rows_no_fixed_cells_partial",
    "C23_columns_are_scrambled",
    "C23_columns_refuted",
    "C23_fixed_cells_copy_rows"
   ],
   "note": "holds for row totals without fixed cells (C23_rows_no_fixed_cells_partial); false for column totals (C23_columns_are_scrambled, C23_columns_refuted) and with fixed cells (C23_fixed_cells_copy_rows)"
  },
  {
   "property": "C24",
   "status": "partial",
   "theorems": [
    "C24_proposal_after_update_partial",
    "C24_switch_refuted"
   ],
   "note": "exact outcome of the update proved; the switch happens only for doubly constrained tables (C24_switch_refuted)"
  },
  {
   "property": "C25",
   "status": "partial",
   "theorems": [
    "C25_poisson_refuted",
    "C25_poisson_ratio_partial",
    "C25_multinomial_unnormalised_partial",
    "C25_product_multinomial_unnormalised_partial",
    "C25_fishers_ratio_partial",
    "C25_normalised_refuted"
   ],
   "note": "unnormalised multinomial, product multinomial and (as a ratio) Poisson and Fisher log-probabilities are right; the unnormalised Poisson one is never the density (C25_poisson_refuted) and all normalised ones swap their arguments (C25_normalised_refuted)"
  },
  {
   "property": "C26",
   "status": "proved",
   "theorems": [
    "C26_stopping_time_exact",
    "C26_terminates_iff",
    "C26_unique_and_tail"
   ],
   "note": "every exponent and draw, including exactly when the loop ends"
  },
  {
   "property": "C27",
   "status": "partial",
   "theorems": [
    "C27_series_value",
    "C27_series_exact_iff_partial",
    "C27_unit_weights_refuted"
   ],
   "note": "false of the code: C27_series_value is what is computed (one spurious last term), C27_series_exact_iff_partial when it is the announced estimator, C27_unit_weights_refuted the refutation for every stopping time"
  },
  {
   "property": "C28",
   "status": "proved",
   "theorems": [
    "C28_logsumexp_exact",
    "C28_logsumexp_stable"
   ],
   "note": ""
  },
  {
   "property": "C29",
   "status": "proved",
   "theorems": [
    "C29_totally_constrained_total"
   ],
   "note": ""
  },
  {
   "property": "C30",
   "status": "proved",
   "theorems": [
    "C30_production_constrained_rows",
    "C30_production_constrained_total"
   ],
   "note": ""
  },
  {
   "property": "C31",
   "status": "partial",
   "theorems": [
    "C31_totally_constrained_batch",
    "C31_production_constrained_batch",
    "C31_production_constrained_partial",
    "C31_production_constrained_refuted",
    "C31_torch_batch_partial",
    "C31_torch_batch_refuted"
   ],
   "note": "true of the totally constrained batch; the production constrained batch uses the wrong cost row unless there is one sweep value (C31_production_constrained_partial, refuted by C31_production_constrained_refuted) and the torch branch mixes attractions (C31_torch_batch_refuted)"
  },
  {
   "property": "C32",
   "status": "proved",
   "theorems": [
    "C32_attraction_shift",
    "C32_cost_shift"
   ],
   "note": ""
  },
  {
   "property": "C33",
   "status": "partial",
   "theorems": [
    "C33_totally_constrained_gradient",
    "C33_annealing_gradient",
    "C33_annealing_prior_is_limit",
    "C33_production_constrained_gradient",
    "C33_production_constrained_refuted"
   ],
   "note": "totally constrained potential, hand written annealing gradient and prior potential proved; the production constrained potential raises for I<>J and its slope ignores the flows (C33_production_constrained_refuted)"
  },
  {
   "property": "C34",
   "status": "proved",
   "theorems": [
    "C34_noise_variance",
    "C34_likelihood_and_gradient"
   ],
   "note": ""
  },
  {
   "property": "C35",
   "status": "proved",
   "theorems": [
    "C35_time_series",
    "C35_stays_positive",
    "C35_fixed_point_balance"
   ],
   "note": ""
  },
  {
   "property": "C36",
   "status": "partial",
   "theorems": [
    "C36_annealing_leapfrog_reversible",
    "C36_attraction_leapfrog_partial",
    "C36_attraction_reversal_error",
    "C36_attraction_leapfrog_refuted"
   ],
   "note": "true of the annealing integrator; the attraction steps evaluate the data likelihood gradient at the previous attractions, so a reversed step returns only if nothing moved (C36_attraction_leapfrog_refuted)"
  },
  {
   "property": "C37",
   "status": "proved",
   "theorems": [
    "C37_mirrored",
    "C37_accepted_in_range",
    "C37_chain_stays_in_range"
   ],
   "note": "both versions of the step; the whole chain stays in range"
  },
  {
   "property": "C38",
   "status": "proved",
   "theorems": [
    "C38_theta_step",
    "C38_theta_step_accepts",
    "C38_theta_given_table_step",
    "C38_attraction_step",
    "C38_chain_values_match"
   ],
   "note": "each step and along the whole chain; without leapfrog steps an accepted attraction step fails"
  },
  {
   "property": "C39",
   "status": "partial",
   "theorems": [
    "C39_get_reads_existing_path",
    "C39_successful_get_partial",
    "C39_get_reads_character_refuted",
    "C39_get_not_found_text_refuted",
    "C39_set_then_get_partial",
    "C39_reported_success_exact",
    "C39_missing_parent_refuted",
    "C39_path_through_list_refuted",
    "C39_attribute_error_exact",
    "C39_overwrite_sets_and_clears",
    "C39_overwrite_loses_siblings_refuted"
   ],
   "note": "full effect proved when the container of the last key exists (C39_set_then_get_partial); exact characterisation of reported success and of the AttributeError; false in general: a missing parent reports success without effect"
  },
  {
   "property": "C40",
   "status": "partial",
   "theorems": [
    "C40_exists_exact",
    "C40_find_exact_partial",
    "C40_find_up_to_order",
    "C40_find_nonempty_exact",
    "C40_find_wrong_path_refuted",
    "C40_get_misses_present_key_refuted",
    "C40_get_by_key_partial",
    "C40_sweep_mode_exact"
   ],
   "note": "existence test exact for every configuration; the paths are exact when no key repeats along a path, otherwise a rearrangement of the true ones (C40_find_wrong_path_refuted)"
  },
  {
   "property": "C41",
   "status": "partial",
   "theorems": [
    "C41_modify_changes_only_the_path",
    "C41_modify_existing_partial",
    "C41_single_key_exact",
    "C41_missing_nested_reports_success_refuted",
    "C41_list_path_refuted",
    "C41_checked_modification_exact_partial"
   ],
   "note": "exact for single keys; for longer dictionary paths modification of an existing path is proved, a missing last key is reported as success (refuted for every such path)"
  },
  {
   "property": "C42",
   "status": "partial",
   "theorems": [
    "C42_configurations_are_the_product_partial",
    "C42_configurations_are_combinations",
    "C42_distinct_values_accepted",
    "C42_repeated_value_refused",
    "C42_rows_printing_alike_lost_refuted",
    "C42_tuple_values_misaligned_refuted"
   ],
   "note": "proved for non-tuple values that print differently; tuple values and values printing alike refute the general statement"
  },
  {
   "property": "C43",
   "status": "partial",
   "theorems": [
    "C43_experiment_config_partial",
    "C43_path_through_list_refuted"
   ],
   "note": "proved for swept paths through dictionaries that do not contain each other; paths through lists raise"
  },
  {
   "property": "C44",
   "status": "partial",
   "theorems": [
    "C44_resume_always_fails_refuted",
    "C44_trimmed_list_is_not_used_refuted",
    "C44_existence_test_ignores_data_refuted",
    "C44_fresh_sweep_runs_everything_partial"
   ],
   "note": "false of the code: resuming raises KeyError for every non-empty sweep, the trimmed list is not used and only the log is tested; a fresh sweep runs everything (proved)"
  },
  {
   "property": "C45",
   "status": "partial",
   "theorems": [
    "C45_inclusive_exact",
    "C45_not_finite_exact",
    "C45_exclusive_lower_partial",
    "C45_exclusive_upper_refuted"
   ],
   "note": "exact with ends included, for non-finite values and for excluded lower ends; false with an excluded upper end: every value is refused (C45_exclusive_upper_refuted)"
  },
  {
   "property": "C46",
   "status": "partial",
   "theorems": [
    "C46_integer_range_partial",
    "C46_integer_steps_partial",
    "C46_general_steps_characterised",
    "C46_overshoot_refuted",
    "C46_descending_refuted",
    "C46_large_integer_refuted",
    "C46_plain_text_refuted",
    "C46_repeat",
    "C46_list_concatenates"
   ],
   "note": "exact for integers up to 2^24 (with any positive step), repetitions and lists; fractional steps overshoot, descending ranges lose the end, larger integers are rounded"
  },
  {
   "property": "C47",
   "status": "partial",
   "theorems": [
    "C47_bounded",
    "C47_finished_frees_one_slot",
    "C47_never_blocked_forever_partial",
    "C47_failed_submissions_block_refuted",
    "C47_limit_of_new_pool",
    "C47_zero_limit_blocks_refuted"
   ],
   "note": "bound, exact release and progress proved for all schedules; a submission that raises keeps its permit and a zero limit blocks (refuted)"
  },
  {
   "property": "C48",
   "status": "partial",
   "theorems": [
    "C48_chunks",
    "C48_every_configuration_submitted_once",
    "C48_instance_numbers_repeat_refuted",
    "C48_bad_sizes"
   ],
   "note": "chunks and submissions proved for every list and positive size; instance numbers repeat between chunks"
  },
  {
   "property": "C49",
   "status": "proved",
   "theorems": [
    "C49_burnin_thinning_trimming",
    "C49_joint_slice"
   ],
   "note": "Exact characterisation for lists of single-dimension slices with non-negative burn-in/trimming and thinning >= 1; C49_joint_slice covers one slice over several dimensions. Out-of-range settings are shown by example to raise or be skipped."
  },
  {
   "property": "C50",
   "status": "partial",
   "theorems": [
    "C50_write_appends_partial",
    "C50_joint_rows",
    "C50_sim_rows_partial",
    "C50_table_rows_partial",
    "C50_table_acceptance_refuted",
    "C50_table_every_refuted"
   ],
   "note": "Holds for the joint sampler (C50_joint_rows); for SIM_MCMC theta_acc and compute_time are never recorded (missing comma in the output names); for Table_MCMC the acceptance is never recorded and with write_every > 1 nothing is: refuted, exact behaviour proved."
  },
  {
   "property": "C51",
   "status": "partial",
   "theorems": [
    "C51_batches_refuted",
    "C51_integer_count_partial"
   ],
   "note": "The function raises on every input (numpy.repeat with a float count): refuted. With an integer count the property is proved."
  },
  {
   "property": "C52",
   "status": "proved",
   "theorems": [
    "C52_cell_roundtrip",
    "C52_table_roundtrip",
    "C52_table_text_injective",
    "C52_wrong_shape_refused"
   ],
   "note": "Cells with any number of coordinates, tables of any shape; the text of a table is injective and a text of the wrong size is refused."
  },
  {
   "property": "C53",
   "status": "partial",
   "theorems": [
    "C53_merge",
    "C53_merge_alters_argument_refuted",
    "C53_merge_argument_partial",
    "C53_update_nothing_else",
    "C53_update_every_occurrence_partial",
    "C53_update_nested_list_refuted",
    "C53_update_no_overwrite",
    "C53_update_recursively"
   ],
   "note": "False as stated: merging extends the lists of its first argument (C53_merge_alters_argument_refuted) and dictionaries in lists of lists are not updated (C53_update_nested_list_refuted). Proved: the merged value of every key; updates reach every outermost occurrence in trees without lists of lists and change nothing else in any tree; recursive update."
  },
  {
   "property": "C54",
   "status": "partial",
   "theorems": [
    "C54_kept_values_partial",
    "C54_distinct_keys_partial",
    "C54_union_refuted",
    "C54_single_value_refuted"
   ],
   "note": "False as stated: the result of the union is discarded for a second text (C54_union_refuted) and a single text without an underscore is taken apart into characters (C54_single_value_refuted). Proved: the exact values kept for every list, and the property for distinct keys."
  },
  {
   "property": "C55",
   "status": "proved",
   "theorems": [
    "C55_shortest_interval",
    "C55_interval_exists_iff",
    "C55_coverage_flag"
   ],
   "note": "any sample and mass; the interval is optimal among all intervals, not only windows of the sorted samples; also exactly when it exists"
  },
  {
   "property": "C56",
   "status": "proved",
   "theorems": [
    "C56_ssi_range",
    "C56_ssi_one_iff_equal",
    "C56_ssi_symmetric",
    "C56_srmse_zero_iff_equal"
   ],
   "note": ""
  },
  {
   "property": "C57",
   "status": "partial",
   "theorems": [
    "C57_counts_unit_transfers",
    "C57_metric",
    "C57_degree_higher_refuted"
   ],
   "note": "degree one: metric, and for count tables with equal totals the least number of unit transfers; the higher-degree distance always raises (C57_degree_higher_refuted)"
  },
  {
   "property": "C58",
   "status": "partial",
   "theorems": [
    "C58_updates_exact_partial",
    "C58_batch_of_one_partial",
    "C58_training_runs_use_all",
    "C58_every_loss_refuted"
   ],
   "note": "Losses of steps without an update are dropped: refuted for batch size 2. Proved: exact updates for all batch sizes; all losses used for batch size 1 and in the one-step epochs the experiments actually run."
  },
  {
   "property": "C59",
   "status": "partial",
   "theorems": [
    "C59_dims_refuted",
    "C59_one_group_partial",
    "C59_statistics_flat_partial",
    "C59_no_statistic_lost_partial",
    "C59_statistics_dropped_refuted",
    "C59_repeated_metric_refuted"
   ],
   "note": "False as stated: only the last group of dimensions is kept (C59_dims_refuted), surplus statistics are dropped silently (C59_statistics_dropped_refuted) and a repeated metric nests its entries (C59_repeated_metric_refuted). Proved: one group per option, and completeness of statistics whenever numbers match."
  },
  {
   "property": "C60",
   "status": "partial",
   "theorems": [
    "C60_positions_distinct_partial",
    "C60_position_reused",
    "C60_late_release_refuted",
    "C60_failed_run_refuted",
    "C60_interleaved_claims_refuted"
   ],
   "note": "proved for atomic claims and prompt callbacks; late callbacks, failed runs and interleaved claims give shared positions (refuted)"
  },
  {
   "property": "C61",
   "status": "partial",
   "theorems": [
    "C61_losses_partial",
    "C61_product_multinomial_refuted"
   ],
   "note": "holds for Poisson, multinomial and Fisher; false for the product multinomial (columns instead of rows are normalised)"
  },
  {
   "property": "C62",
   "status": "partial",
   "theorems": [
    "C62_expected_totals_partial",
    "C62_product_rows_refuted"
   ],
   "note": "holds for multinomial and Fisher; false for the product multinomial (C62_product_rows_refuted)"
  },
  {
   "property": "C63",
   "status": "proved",
   "theorems": [
    "C63_cross_ratio_invariant",
    "C63_margin_odds_ratio"
   ],
   "note": ""
  },
  {
   "property": "C64",
   "status": "proved",
   "theorems": [
    "C64_signed_moments",
    "C64_signed_moments_affine"
   ],
   "note": ""
  },
  {
   "property": "C65",
   "status": "partial",
   "theorems": [
    "C65_ssi_batch",
    "C65_srmse_grows_with_batch",
    "C65_srmse_refuted"
   ],
   "note": "holds for SSI; false for SRMSE: each score of a batch of N is sqrt N times the single one (C65_srmse_grows_with_batch, C65_srmse_refuted)"
  },
  {
   "property": "C66",
   "status": "partial",
   "theorems": [
    "C66_increments",
    "C66_proposal_increments",
    "C66_uncorrelated_partial",
    "C66_correlated_refuted"
   ],
   "note": "true for uncorrelated proposals; false for correlated ones (C66_correlated_refuted)"
  },
  {
   "property": "C67",
   "status": "partial",
   "theorems": [
    "C67_start_distribution_partial",
    "C67_start_distribution_refuted"
   ],
   "note": "true exactly when 2*kappa/sigma^2 = 1 (shape,rate used where shape,scale is meant); refuted otherwise"
  },
  {
   "property": "C68",
   "status": "proved",
   "theorems": [
    "C68_estimate_bounds",
    "C68_exact_for_proportional_target",
    "C68_shift",
    "C68_estimate_exists"
   ],
   "note": "bounds, shift, exactness and existence for all draws; unbiasedness over the draws is not stated (no measure theory)"
  },
  {
   "property": "C69",
   "status": "partial",
   "theorems": [
    "C69_potential_values_match",
    "C69_table_likelihood_partial",
    "C69_after_table_step_refuted",
    "C69_after_attraction_step_refuted"
   ],
   "note": "potential, gradient and normalising constant proved; the table likelihood is stale after an accepted attraction move and uses unscaled beta after a table step"
  },
  {
   "property": "C70",
   "status": "partial",
   "theorems": [
    "C70_acceptance_threshold",
    "C70_acceptance_refuted",
    "C70_acceptance_partial"
   ],
   "note": "the data likelihood cancels from the decision: right only where it is equal at both ends; refuted otherwise"
  },
  {
   "property": "C71",
   "status": "proved",
   "theorems": [
    "C71_derived_parameters"
   ],
   "note": ""
  },
  {
   "property": "C72",
   "status": "partial",
   "theorems": [
    "C72_table_gradient_partial",
    "C72_table_gradient_refuted"
   ],
   "note": "the code returns minus the gradient; equal only where the gradient vanishes"
  },
  {
   "property": "C73",
   "status": "proved",
   "theorems": [
    "C73_laplace_at_lowest_candidate"
   ],
   "note": "the optimiser and Cholesky factorisation are not modelled"
  },
  {
   "property": "C74",
   "status": "partial",
   "theorems": [
    "C74_delete_dictionary_entry_partial",
    "C74_delete_list_entry_partial",
    "C74_unreachable_deletes_nothing",
    "C74_numeric_text_key_refuted"
   ],
   "note": "proved for dictionary and list entries when no earlier key is a numeric text (needed: C74_numeric_text_key_refuted)"
  },
  {
   "property": "C75",
   "status": "partial",
   "theorems": [
    "C75_sweep_id_order_independent_partial",
    "C75_shared_first_word_refuted"
   ],
   "note": "proved when names differ before their first underscore, refuted otherwise"
  },
  {
   "property": "C76",
   "status": "partial",
   "theorems": [
    "C76_folder_determines_values_partial",
    "C76_noise_levels_share_folder_refuted"
   ],
   "note": "proved up to the noise level, for which two values in one regime share a folder (refuted)"
  },
  {
   "property": "C77",
   "status": "partial",
   "theorems": [
    "C77_swept_parameters_found_partial",
    "C77_sweep_in_list_refuted",
    "C77_coupled_without_target_dropped_refuted"
   ],
   "note": "proved for uncoupled sweeps outside lists; sweeps inside lists raise, coupled ones without target are dropped"
  },
  {
   "property": "C78",
   "status": "partial",
   "theorems": [
    "C78_file_check_partial",
    "C78_extension_never_checked_refuted",
    "C78_kind_not_checked_refuted"
   ],
   "note": "exact when both extension keys are present; with one key (as in the shipped schema) nothing is checked, and the kind of path never is"
  },
  {
   "property": "C79",
   "status": "partial",
   "theorems": [
    "C79_number_check_partial",
    "C79_allow_nan_accepts_anything_refuted",
    "C79_bool_unchecked_refuted",
    "C79_text_check_partial"
   ],
   "note": "exact for numbers and texts without allow-nan; allow-nan disables the type check and booleans are never checked (refuted)"
  },
  {
   "property": "C80",
   "status": "partial",
   "theorems": [
    "C80_flat_list_exact_partial",
    "C80_nested_lists_unchecked_refuted",
    "C80_printing_alike_refused_refuted"
   ],
   "note": "exact for flat lists; length and uniqueness of nested lists are not checked, values are compared as text (refuted)"
  },
  {
   "property": "C81",
   "status": "partial",
   "theorems": [
    "C81_sequential_exact",
    "C81_concurrent_runs_all",
    "C81_concurrent_silent_refuted"
   ],
   "note": "exact for sequential sweeps; concurrent sweeps run everything but report no failure (refuted)"
  },
  {
   "property": "C82",
   "status": "partial",
   "theorems": [
    "C82_joint_slice_order_refuted",
    "C82_single_slice_order_partial"
   ],
   "note": "Refuted by two set orders; proved for slices over a single dimension."
  },
  {
   "property": "C83",
   "status": "partial",
   "theorems": [
    "C83_losses_recorded_refuted",
    "C83_writer_records_partial"
   ],
   "note": "Refuted for every run (the writer looks for a key the caller removes); the writer itself records losses if handed that key."
  },
  {
   "property": "C84",
   "status": "proved",
   "theorems": [
    "C84_function_to_table",
    "C84_function_to_smallest_table",
    "C84_table_function_roundtrip"
   ],
   "note": ""
  },
  {
   "property": "C85",
   "status": "proved",
   "theorems": [
    "C85_keyword_arguments"
   ],
   "note": ""
  },
  {
   "property": "C86",
   "status": "proved",
   "theorems": [
    "C86_deep_get",
    "C86_deep_get_empty"
   ],
   "note": ""
  },
  {
   "property": "C87",
   "status": "partial",
   "theorems": [
    "C87_settings_effective_partial",
    "C87_settings_found_partial",
    "C87_settings_nothing_else",
    "C87_settings_dropped_refuted"
   ],
   "note": "False for settings whose name is not in the configuration: they are dropped (C87_settings_dropped_refuted). Proved for names present, in trees without lists of lists; nothing else changes in any tree."
  },
  {
   "property": "C88",
   "status": "partial",
   "theorems": [
    "C88_switched_off_partial",
    "C88_restored_partial",
    "C88_restored_refuted"
   ],
   "note": "False when experiments differ: all get the first experiment's value (C88_restored_refuted). Proved when they agree; switching off proved for trees without lists of lists."
  },
  {
   "property": "C89",
   "status": "partial",
   "theorems": [
    "C89_resume_missing_refuted",
    "C89_resume_partial"
   ],
   "note": "Raises when the new configuration lacks one of the settings (C89_resume_missing_refuted). Proved when it has all four."
  },
  {
   "property": "C90",
   "status": "proved",
   "theorems": [
    "C90_time_stamp"
   ],
   "note": ""
  },
  {
   "property": "C91",
   "status": "proved",
   "theorems": [
    "C91_deep_apply"
   ],
   "note": ""
  },
  {
   "property": "C92",
   "status": "partial",
   "theorems": [
    "C92_exact_partial",
    "C92_fails_refuted"
   ],
   "note": "False: an item shuffled into a fixed cell is lost and the final margin check fails (C92_fails_refuted). Proved: the exact condition on the shuffle under which the solver succeeds."
  },
  {
   "property": "C93",
   "status": "partial",
   "theorems": [
    "C93_known_total_partial",
    "C93_sampled_total_exact",
    "C93_margins_refuted",
    "C93_residuals_refuted"
   ],
   "note": "False: rows are drawn from the stale stored total (C93_margins_refuted) and the residual margins are reset ignoring the fixed cells (C93_residuals_refuted). Proved when the total is known, and the exact totals otherwise."
  },
  {
   "property": "C94",
   "status": "proved",
   "theorems": [
    "C94_mask_marks_listed_cells",
    "C94_ordinary_cells"
   ],
   "note": ""
  },
  {
   "property": "C95",
   "status": "proved",
   "theorems": [
    "C95_predictions_in_their_cells",
    "C95_other_cells_raise",
    "C95_number_of_predictions"
   ],
   "note": ""
  },
  {
   "property": "C96",
   "status": "partial",
   "theorems": [
    "C96_features_scaled_partial",
    "C96_constant_feature_refuted"
   ],
   "note": "False for a constant feature, which divides zero by zero (C96_constant_feature_refuted). Proved for every feature taking two values."
  },
  {
   "property": "C97",
   "status": "partial",
   "theorems": [
    "C97_hyperparameters_exact_partial",
    "C97_models_covered",
    "C97_configured_value_refuted"
   ],
   "note": "False: hyper-parameters are looked up as attributes of a dictionary and never found, so the default wins (C97_configured_value_refuted). Proved: the exact value used, for every model."
  },
  {
   "property": "C98",
   "status": "partial",
   "theorems": [
    "C98_layers_as_configured",
    "C98_activations_as_configured",
    "C98_text_layer_raises",
    "C98_activation_dictionary_refuted"
   ],
   "note": "False when activations are given in dictionary form (C98_activation_dictionary_refuted) and when widths or biases are keyed by texts, as configuration files require (C98_text_layer_raises). Proved for integer layer numbers and named activations."
  },
  {
   "property": "C99",
   "status": "proved",
   "theorems": [
    "C99_update_succeeds_iff",
    "C99_loss_is_sample_mean",
    "C99_cost_shares_sum_to_one"
   ],
   "note": ""
  },
  {
   "property": "C100",
   "status": "proved",
   "theorems": [
    "C100_minibatches_partition"
   ],
   "note": ""
  },
  {
   "property": "C101",
   "status": "partial",
   "theorems": [
    "C101_negative_samples_refuted",
    "C101_rate_zero_partial"
   ],
   "note": "False: a positive rate raises because the number of regions is never set (C101_negative_samples_refuted). Proved: rate zero returns the batch unchanged."
  },
  {
   "property": "C102",
   "status": "partial",
   "theorems": [
    "C102_edge_loss_exact_partial",
    "C102_best_prediction_is_constant",
    "C102_edge_loss_refuted",
    "C102_flow_loss_exact_partial",
    "C102_flow_loss_refuted"
   ],
   "note": "False: predictions and flows broadcast against each other (C102_edge_loss_refuted) and the flow rows include the region number (C102_flow_loss_refuted). Proved: the exact value of each loss and its minimiser."
  },
  {
   "property": "C103",
   "status": "proved",
   "theorems": [
    "C103_task_weights"
   ],
   "note": ""
  },
  {
   "property": "C104",
   "status": "partial",
   "theorems": [
    "C104_edges_exact_partial",
    "C104_zero_cost_refuted"
   ],
   "note": "False: an adjacent pair with zero cost has no edge (C104_zero_cost_refuted). Proved: the exact edges."
  },
  {
   "property": "C105",
   "status": "proved",
   "theorems": [
    "C105_cycles_exact"
   ],
   "note": ""
  },
  {
   "property": "C106",
   "status": "proved",
   "theorems": [
    "C106_cycle_moves_preserve_constraints"
   ],
   "note": "The caller at MarkovBasis.py:661 is commented out: the generator is modelled as written, called on a constructed table."
  },
  {
   "property": "C107",
   "status": "partial",
   "theorems": [
    "C107_cycle_basis_connects_partial",
    "C107_cycle_basis_connects_refuted"
   ],
   "note": "False: cycles of more than ten nodes are not listed, so a six by six table whose free cells form one long cycle has an empty basis (C107_cycle_basis_connects_refuted). Proved whenever no cycle can exceed the limit: at most five rows or five columns, any fixed cells."
  },
  {
   "property": "C108",
   "status": "proved",
   "theorems": [
    "C108_grouping",
    "C108_no_output_lost"
   ],
   "note": ""
  },
  {
   "property": "C109",
   "status": "partial",
   "theorems": [
    "C109_workers_partial",
    "C109_order_refuted",
    "C109_failed_run_refuted"
   ],
   "note": "False: the order of the collection's elements depends on which run finishes first (C109_order_refuted), and a run that fails to be processed raises without workers but is silently left out with them, since concurrent.futures ignores errors in callbacks (C109_failed_run_refuted). Proved: the same elements up to order when every run is readable and sort keys are distinct within groups."
  },
  {
   "property": "C110",
   "status": "partial",
   "theorems": [
    "C110_reread_partial",
    "C110_order_refuted"
   ],
   "note": "False: the list of arrays is popped from its end, so the elements come back reversed and no longer line up with freshly loaded samples (C110_order_refuted). Proved: every requested saved sample is read back complete and exactly reversed, for every listing order."
  },
  {
   "property": "C111",
   "status": "partial",
   "theorems": [
    "C111_access_partial",
    "C111_deletion_refuted",
    "C111_deletion_partial",
    "C111_metadata_partial",
    "C111_metadata_refuted"
   ],
   "note": "Reading, length and assignment of one sample's element are exact. False for the rest: del raises TypeError, pop removes nothing, assigning one collection's element from another raises (C111_deletion_refuted), so metadata computed by popping repeat the first element (C111_metadata_refuted)."
  },
  {
   "property": "C112",
   "status": "partial",
   "theorems": [
    "C112_strip_partial",
    "C112_both_refuted"
   ],
   "note": "Exact when outputs or elements alone are given. False when both are given: no output is removed, the kept outputs stay whole and the others are cut (C112_both_refuted)."
  },
  {
   "property": "C113",
   "status": "partial",
   "theorems": [
    "C113_groups_partial",
    "C113_group_by_coupled_refuted"
   ],
   "note": "False for a non-target coupled parameter: naming it in group_by has no effect (C113_group_by_coupled_refuted). Proved: the split is a partition, and a parameter identifies groups exactly when its target does."
  },
  {
   "property": "C114",
   "status": "partial",
   "theorems": [
    "C114_slices_partial",
    "C114_one_dimension_exact",
    "C114_empty_refuted",
    "C114_dropped_refuted"
   ],
   "note": "Exact for conditions on one dimension each (C114_one_dimension_exact); for conditions on several dimensions matching entries are kept and the others blanked (C114_slices_partial), but an array left all blank is not reported (C114_empty_refuted) and conditions naming a coordinate that cannot be swept are dropped silently (C114_dropped_refuted)."
  },
  {
   "property": "C115",
   "status": "partial",
   "theorems": [
    "C115_load_partial",
    "C115_interrupted_refuted"
   ],
   "note": "Proved for runs whose datasets have equal lengths. False for a run interrupted between the writes of two datasets of one iteration: loading both raises (C115_interrupted_refuted)."
  },
  {
   "property": "C116",
   "status": "partial",
   "theorems": [
    "C116_rows_partial",
    "C116_unswept_partial",
    "C116_summary_refuted",
    "C116_replaced_refuted"
   ],
   "note": "Proved when names are distinct and the first metric that succeeds is over the configurations, and for unswept outputs whose metrics are arrays. False otherwise: values are replaced, lost, placed in a row of their own, or taken from another metric (C116_summary_refuted, C116_replaced_refuted)."
  },
  {
   "property": "C117",
   "status": "partial",
   "theorems": [
    "C117_validation_partial",
    "C117_default_refuted",
    "C117_unlisted_refuted",
    "C117_list_sweep_refuted"
   ],
   "note": "C117_validation_partial proves the statement with exceptions that are false of the code: a default without range is not checked while sweeping (C117_default_refuted), settings outside the template are never checked (C117_unlisted_refuted), and sweeps below a list are refused once sweeping is switched off (C117_list_sweep_refuted). Values equal to the text not-found count as absent. The shape of the shipped template is shown to meet the hypotheses (shipped_template)."
  },
  {
   "property": "C118",
   "status": "partial",
   "theorems": [
    "C118_sweeps_found_partial",
    "C118_names_refuted",
    "C118_range_refuted"
   ],
   "note": "Proved: everything listed is a configured sweep, and sweeps whose name is unique are listed (C118_sweeps_found_partial). False: list entries below 'file' are named by their position, so margins[0] and cells_subset[0] collide and one is lost (C118_names_refuted, and shipped_names for the shipped template); coupled sweeps are listed even without a range (C118_range_refuted)."
  },
  {
   "property": "C119",
   "status": "proved",
   "theorems": [
    "C119_powerset"
   ],
   "note": "The order of iteration over the set is arbitrary; elements are distinct as in a Python set."
  },
  {
   "property": "C120",
   "status": "partial",
   "theorems": [
    "C120_chi_squared_partial",
    "C120_euclidean_metric_partial",
    "C120_symmetry_refuted"
   ],
   "note": "Proved: non-negativity, zero characterisation, invariance and duality of the chi-squared parts; the metric laws of the euclidean distance between tables of equal non-zero totals. False in general: distances are normalised by the first table only, so they are not symmetric, and chi_squared_distance passes too many positional arguments and always raises (C120_symmetry_refuted). l_p distances with other orders are not modelled."
  },
  {
   "property": "C121",
   "status": "partial",
   "theorems": [
    "C121_errors",
    "C121_relative_partial",
    "C121_relative_refuted",
    "C121_residuals"
   ],
   "note": "Absolute, squared and residual errors proved in full. The relative error divides by the smallest truth along the second axis, not by the cell's own (C121_relative_refuted); C121_relative_partial covers columns of constant truth. Residual errors are modelled for one sample without mask."
  },
  {
   "property": "C122",
   "status": "partial",
   "theorems": [
    "C122_one_tailed",
    "C122_degrees_of_freedom",
    "C122_constant_samples_refuted"
   ],
   "note": "Proved whenever a sample varies. For two constant samples the routes disagree: one returns nan and does not reject, the other divides by zero (C122_constant_samples_refuted). The t-distribution is an arbitrary increasing symmetric function into (0,1)."
  },
  {
   "property": "C123",
   "status": "proved",
   "theorems": [
    "C123_sigmoids"
   ],
   "note": "Reals instead of floats; the scale is positive."
  },
  {
   "property": "C124",
   "status": "proved",
   "theorems": [
    "C124_sparsity",
    "C124_null_rows_and_columns",
    "C124_symmetric"
   ],
   "note": "Reals instead of floats; arrays are rectangular."
  },
  {
   "property": "C125",
   "status": "proved",
   "theorems": [
    "C125_fisher_step",
    "C125_clipped_refuted"
   ],
   "note": "Fisher's non-central hypergeometric mass function of scipy and the uniform choice of the basis function are trusted. The range of the odds ratio is needed: outside it the clipped ratio gives another distribution (C125_clipped_refuted)."
  },
  {
   "property": "C126",
   "status": "partial",
   "theorems": [
    "C126_metropolis_step_partial",
    "C126_binary_tables_partial",
    "C126_metropolis_refuted"
   ],
   "note": "False as stated: the ratio sums log factorials where logs are needed (C21), so with two items in a row the target is not invariant (C126_metropolis_refuted). Proved: detailed balance and invariance with respect to the distribution the ratio belongs to, wherever the step does not raise, and with respect to the target when no table has a count above one."
  },
  {
   "property": "C127",
   "status": "partial",
   "theorems": [
    "C127_multinomial_partial",
    "C127_poisson_partial",
    "C127_rows_partial",
    "C127_both_margins_refuted",
    "C127_columns_refuted"
   ],
   "note": "Proved without margin constraints and with the grand total constrained (any fixed cells), and for row totals without fixed cells. False for column totals, where some tables are never drawn (C127_columns_refuted), and with both margins constrained, where the intensities are not used (C127_both_margins_refuted). Mass functions of torch's generators are trusted."
  },
  {
   "property": "C128",
   "status": "proved",
   "theorems": [
    "C128_shuffle"
   ],
   "note": "No fixed cells, as in every use with direct sampling (C24). torch.randperm is trusted to be uniform."
  },
  {
   "property": "C129",
   "status": "partial",
   "theorems": [
    "C129_limit",
    "C129_converges_iff_joined",
    "C129_connected_basis",
    "C129_two_by_two",
    "C129_all_margins_refuted"
   ],
   "note": "False as stated: the generated basis does not connect the tables of larger shapes (C13), and a chain can stay at its start table for ever (C129_all_margins_refuted). Proved: geometric convergence, from any start table, to the table distribution restricted to the tables the moves reach; convergence to the full distribution exactly when they reach every table, in particular for two-by-two tables."
  },
  {
   "property": "C130",
   "status": "partial",
   "theorems": [
    "C130_declared_sizes",
    "C130_agree",
    "C130_loaded",
    "C130_never_negative",
    "C130_grand_total",
    "C130_missing_file",
    "C130_conflict",
    "C130_destination_demand_refuted",
    "C130_consistent_files_are_read"
   ],
   "note": "Proved, with files that fit together always read, except that a destination demand vector can never be read: its schema declares axis 1 of a one-dimensional array (C130_destination_demand_refuted)."
  },
  {
   "property": "C131",
   "status": "partial",
   "theorems": [
    "C131_masks_partial",
    "C131_default_test_cells_partial",
    "C131_dims_order_refuted"
   ],
   "note": "Proved when the dims are in the usual order (always, unless the configuration lists them otherwise). False otherwise: masks then take the configured order and valid inputs are rejected (C131_dims_order_refuted)."
  },
  {
   "property": "C132",
   "status": "partial",
   "theorems": [
    "C132_margins_kept",
    "C132_margin_missing",
    "C132_margin_file_refuted",
    "C132_cells_subset_refuted"
   ],
   "note": "Margin values are imported. A margin file that exists always stops the read, and single cells are never imported (C132_margin_file_refuted, C132_cells_subset_refuted)."
  },
  {
   "property": "C133",
   "status": "proved",
   "theorems": [
    "C133_copy"
   ],
   "note": ""
  },
  {
   "property": "C134",
   "status": "partial",
   "theorems": [
    "C134_to_xarray",
    "C134_round_trip_truncates",
    "C134_integers_kept_partial",
    "C134_attraction_lost_refuted",
    "C134_all_needed_refuted",
    "C134_unlabelled_refused"
   ],
   "note": "Casting to labelled arrays is exact; casting back truncates to integers, so attraction shares below one become zero (C134_attraction_lost_refuted), and needs every castable dataset to be present (C134_all_needed_refuted). Exact for integer data."
  },
  {
   "property": "C135",
   "status": "partial",
   "theorems": [
    "C135_pass",
    "C135_idempotent",
    "C135_round_trip_partial",
    "C135_left_on_device_refuted"
   ],
   "note": "Proved for six datasets (integer tables); five others stay on the device and make the next pass fail (C135_left_on_device_refuted)."
  },
  {
   "property": "C136",
   "status": "partial",
   "theorems": [
    "C136_fixed_parameters_partial",
    "C136_delta_kappa_refuted"
   ],
   "note": "Proved for all parameters but delta and kappa, which are always held fixed (C136_delta_kappa_refuted)."
  },
  {
   "property": "C137",
   "status": "partial",
   "theorems": [
    "C137_directories_differ_partial",
    "C137_samples_kept_partial",
    "C137_same_second_refuted",
    "C137_noise_label"
   ],
   "note": "Different start seconds give different directories; started within the same second, experiments that differ only in settings the name omits overwrite each other (C137_same_second_refuted)."
  },
  {
   "property": "C138",
   "status": "partial",
   "theorems": [
    "C138_found_partial",
    "C138_search_succeeds_partial",
    "C138_date_alone_refuted",
    "C138_title_alone_refuted"
   ],
   "note": "Proved when the type is given and names hold no pattern characters. A search by date or title alone finds nothing (C138_date_alone_refuted, C138_title_alone_refuted)."
  },
  {
   "property": "C139",
   "status": "partial",
   "theorems": [
    "C139_sound_partial",
    "C139_last_character_ignored_refuted"
   ],
   "note": "Proved but for the last character of the date, which is never compared: searching for 2024 also returns 2023 (C139_last_character_ignored_refuted)."
  },
  {
   "property": "C140",
   "status": "partial",
   "theorems": [
    "C140_by_date",
    "C140_start_read_partial",
    "C140_start_order_partial",
    "C140_title_numbers_refuted",
    "C140_title_date_refuted",
    "C140_exclude_refuted",
    "C140_directories",
    "C140_absolute_directories"
   ],
   "note": "Order by the date in the path is proved, and is the start order unless the title ends in numbers (C140_title_numbers_refuted, C140_title_date_refuted). Exclusions always fail (C140_exclude_refuted)."
  },
  {
   "property": "C141",
   "status": "partial",
   "theorems": [
    "C141_stop_probability",
    "C141_announced_series_unbiased",
    "C141_average_of_returned_partial",
    "C141_unbiased_refuted"
   ],
   "note": "The announced series is exactly unbiased (C141_announced_series_unbiased); the returned one carries an extra last term and its averages exceed every bound (C141_unbiased_refuted)."
  },
  {
   "property": "C142",
   "status": "partial",
   "theorems": [
    "C142_exact_number",
    "C142_second_run_partial",
    "C142_single_refuted",
    "C142_seed_ignored_refuted",
    "C142_user_file_overwritten_refuted",
    "C142_named_file",
    "C142_default_files_apart"
   ],
   "note": "Number, reuse and untouched other files are proved; a single stopping time fails on the second run, later seeds are ignored, and a user's file of another length is overwritten (three refutations)."
  },
  {
   "property": "C143",
   "status": "partial",
   "theorems": [
    "C143_constants_partial",
    "C143_built_exactly",
    "C143_noise_regime",
    "C143_positions",
    "C143_experiment_constants",
    "C143_config_unused_refuted",
    "C143_defaults_unused_refuted",
    "C143_trial_unrecorded_refuted"
   ],
   "note": "Trial and call values are proved, and experiments always give them (C143_experiment_constants); the configuration and the defaults are never usable (C143_built_exactly, two refutations), trial values are not recorded."
  },
  {
   "property": "C144",
   "status": "partial",
   "theorems": [
    "C144_recomputed_partial",
    "C144_only_order",
    "C144_table_intensity_refuted",
    "C144_two_parameters_needed"
   ],
   "note": "Exactly when beta is the second learned parameter (or bmax is 1); tables of joint runs are drawn with the unscaled beta (C144_table_intensity_refuted)."
  },
  {
   "property": "C145",
   "status": "partial",
   "theorems": [
    "C145_estimator_by_noise",
    "C145_sequential_estimate_partial",
    "C145_infinite_weight_noticed",
    "C145_parallel_refuted",
    "C145_times_loaded",
    "C145_shared_times_refuted"
   ],
   "note": "One worker: the truncated series. More workers always fail (C145_parallel_refuted); the parameter steps of an iteration share one stopping time (C145_shared_times_refuted)."
  },
  {
   "property": "C146",
   "status": "partial",
   "theorems": [
    "C146_accepts_exactly",
    "C146_initial_valid",
    "C146_initial_theta",
    "C146_negative_sign_refuted",
    "C146_r2_refuted"
   ],
   "note": "Initial samples are valid and the accepted set is characterised; negative signs, which the estimator returns, are refused, and validation with r2 always fails."
  },
  {
   "property": "C147",
   "status": "partial",
   "theorems": [
    "C147_file_shared_exactly",
    "C147_reused_exact_partial",
    "C147_read_moves_safe",
    "C147_never_overwritten",
    "C147_fixed_first_refuted",
    "C147_space_refuted"
   ],
   "note": "Exact when the stored basis came from a table without fixed cells (one family of margins); otherwise moves are missing (C147_fixed_first_refuted); a space in the directory defeats it (C147_space_refuted)."
  },
  {
   "property": "C148",
   "status": "partial",
   "theorems": [
    "C148_best_point_partial",
    "C148_failed_point_refuted",
    "C148_prediction_refuted",
    "C148_scaled_beta_partial",
    "C148_solver_scale_refuted",
    "C148_parameter_order_refuted",
    "C148_grid_order_refuted",
    "C148_two_parameters_needed"
   ],
   "note": "The best of the points that were evaluated is reported; a failed point, a stale prediction, the solver's scale and the order of names are refuted."
  },
  {
   "property": "C149",
   "status": "partial",
   "theorems": [
    "C149_best_target_partial",
    "C149_names_swapped_refuted",
    "C149_two_parameters_needed"
   ],
   "note": "The best point is reported, with the two names swapped (C149_names_swapped_refuted)."
  },
  {
   "property": "C150",
   "status": "partial",
   "theorems": [
    "C150_attention_partial",
    "C150_between_neighbours",
    "C150_isolated_refuted",
    "C150_weights_unused_refuted"
   ],
   "note": "The average is proved for every region with an incoming edge; a region without one forgets its own features (C150_isolated_refuted) and the weight against the neighbours has no effect (C150_weights_unused_refuted)."
  },
  {
   "property": "C151",
   "status": "proved",
   "theorems": [
    "C151_locality",
    "C151_prediction_locality"
   ],
   "note": "For every graph and any number of layers."
  },
  {
   "property": "C152",
   "status": "proved",
   "theorems": [
    "C152_renumbering",
    "C152_predictions_renumbered",
    "C152_predictions_nonnegative"
   ],
   "note": "For every injective renumbering and any order of the edges."
  },
  {
   "property": "C153",
   "status": "partial",
   "theorems": [
    "C153_metadata_partial",
    "C153_swept_refuted"
   ],
   "note": "Proved when no chosen setting is itself swept; a chosen swept setting raises KeyError (C153_swept_refuted)."
  },
  {
   "property": "C154",
   "status": "partial",
   "theorems": [
    "C154_sequential",
    "C154_workers_partial",
    "C154_failed_run_refuted",
    "C154_failed_folder"
   ],
   "note": "Proved sequentially and for workers that all succeed; a failing run loses rows (C154_failed_run_refuted)."
  },
  {
   "property": "C155",
   "status": "partial",
   "theorems": [
    "C155_sorted_partial",
    "C155_folder_refuted",
    "C155_names_partial",
    "C155_endings",
    "C155_dates_refuted",
    "C155_below_output",
    "C155_dataset",
    "C155_outside_refuted"
   ],
   "note": "Sorting, names and place are proved conditionally; dates are replaced by a constant, a sort by folder and shared path endings fail (three refutations)."
  },
  {
   "property": "C156",
   "status": "partial",
   "theorems": [
    "C156_objects_partial",
    "C156_models_refuted",
    "C156_unnoticed_refuted"
   ],
   "note": "Table and sampler are built and config and inputs checked whenever every mention is a name followed by a dot; models can never be had and other mentions go unnoticed (two refutations)."
  },
  {
   "property": "C157",
   "status": "partial",
   "theorems": [
    "C157_sweep_partial",
    "C157_nothing_lost",
    "C157_killed_refuted",
    "C157_single_run_partial",
    "C157_info_refuted",
    "C157_several_refuted"
   ],
   "note": "In sequential sweeps every run's messages are in its file, with what was said after the previous run was closed; nothing is lost when the process ends itself. A killed run leaves nothing, a single run only logs warnings, and of several experiments in one command only the last has a log (three refutations)."
  },
  {
   "property": "C158",
   "status": "partial",
   "theorems": [
    "C158_console_partial",
    "C158_warnings_refuted",
    "C158_after_sweep_refuted"
   ],
   "note": "Holds but for warnings at levels between info and warning, which are hidden (C158_warnings_refuted); a sweep fixes the level for the rest of the command (C158_after_sweep_refuted)."
  },
  {
   "property": "C159",
   "status": "partial",
   "theorems": [
    "C159_places",
    "C159_documented_order_refuted",
    "C159_descending",
    "C159_first_criterion_refuted"
   ],
   "note": "Every point has its own place and the order is exactly characterised for all criteria (C159_places). The order is the reverse of the documented one, and the last criterion counts first (two refutations)."
  },
  {
   "property": "C160",
   "status": "partial",
   "theorems": [
    "C160_latest_value",
    "C160_own_values_partial",
    "C160_carried_over_refuted",
    "C160_shifted_refuted",
    "C160_failed_entry"
   ],
   "note": "Holds for a variable that all entries have. A point whose entry lacks a variable takes the value of an earlier entry of its folder, or that of another point (two refutations); the failure of an entry drops the rest of its folder only."
  },
  {
   "property": "C161",
   "status": "partial",
   "theorems": [
    "C161_latest_only",
    "C161_single_entry_partial",
    "C161_every_entry_refuted",
    "C161_failed_folder"
   ],
   "note": "Holds for an experiment with one entry; otherwise only the last value of every variable is drawn (C161_every_entry_refuted). A failed entry removes the figure of its folder only."
  },
  {
   "property": "C162",
   "status": "partial",
   "theorems": [
    "C162_one_key",
    "C162_known_names_partial",
    "C162_other_names_refuted",
    "C162_number_refuted",
    "C162_more_keys",
    "C162_missing_key"
   ],
   "note": "Known names have different labels; all other texts have the same, empty label and a number other than sigma raises (two refutations)."
  },
  {
   "property": "C163",
   "status": "partial",
   "theorems": [
    "C163_one_level_partial",
    "C163_two_levels_partial",
    "C163_default_refuted",
    "C163_no_minor_component_refuted",
    "C163_one_pair_refuted",
    "C163_overlap_refuted"
   ],
   "note": "Holds for one level with a given start and positive step, and for two levels when the minor step leaves room for the major labels. Without the option the program ends, with one pair for two levels no point is placed, and equal steps overlap (three refutations)."
  },
  {
   "property": "C164",
   "status": "partial",
   "theorems": [
    "C164_both_given",
    "C164_covers",
    "C164_one_given_refuted",
    "C164_discrete_partial",
    "C164_fraction_refuted",
    "C164_discrete_given_refuted",
    "C164_discrete_given_room"
   ],
   "note": "Both limits given on a continuous axis are kept; with none or one given nothing drawn lies outside. One given limit is widened by the data; on a discrete axis fractions are dropped and given limits are widened (three refutations)."
  },
  {
   "property": "C165",
   "status": "partial",
   "theorems": [
    "C165_grid_partial",
    "C165_missing_combination_refuted",
    "C165_rows",
    "C165_two_variables_refuted"
   ],
   "note": "Holds for one variable on the rows, and for one on each axis when every combination of values occurs. A missing combination raises; with two variables on one axis everything is in one subplot (two refutations)."
  },
  {
   "property": "C166",
   "status": "proved",
   "theorems": [
    "C166_keyword_values",
    "C166_kept",
    "C166_independent",
    "C166_metric_values",
    "C166_precedence"
   ],
   "note": "Expressions are names, constants, unary and binary operations of the libraries (arbitrary functions that may raise) and map over a lambda; keyword and metric loops, all namespaces."
  },
  {
   "property": "C167",
   "status": "partial",
   "theorems": [
    "C167_sample_expression_ignored",
    "C167_equation_partial",
    "C167_inner_names",
    "C167_bad_folder_argument",
    "C167_sample_name_refuted",
    "C167_fallback_refuted",
    "C167_lambda_refuted"
   ],
   "note": "Proved as an equation between the final values for a name that is not that of a sample, is defined once, and whose expression mentions no later name. An expression for the name of a sample is never evaluated; a failed definition falls back to a global of the same name; inside a lambda no definition is visible (three refutations)."
  },
  {
   "property": "C168",
   "status": "partial",
   "theorems": [
    "C168_sources",
    "C168_intensity",
    "C168_missing_left_out_partial",
    "C168_missing_input_ends",
    "C168_untyped_ends",
    "C168_missing_refuted",
    "C168_geometries_refuted"
   ],
   "note": "Sources characterised for every name, and the intensity of a model. A missing validation or recorded array is left out; a missing training input, a collection of two arrays, a missing part of the intensity and six accepted names end the program; the region geometries are never available (two refutations)."
  },
  {
   "property": "C169",
   "status": "partial",
   "theorems": [
    "C169_recorded_read_partial",
    "C169_only_asked",
    "C169_intensity_parts",
    "C169_no_error",
    "C169_compute_time_refuted",
    "C169_comparison_refuted"
   ],
   "note": "Holds for every recorded array but the intensity of a configuration with an intensity model; compute_time and theta_acc of SIM_MCMC are neither recorded nor read because of a missing comma (two refutations)."
  },
  {
   "property": "C170",
   "status": "partial",
   "theorems": [
    "C170_run_settings_exact_partial",
    "C170_left_out_kept_partial",
    "C170_left_out_refuted",
    "C170_create_option_given",
    "C170_optimise_option_given",
    "C170_create_dims"
   ],
   "note": "Exact description of the settings of run; options given take effect (run, create, optimise). False as stated: the number of workers, threads, device, norm, logging mode, sparse_margins and store_progress of the file are replaced by the defaults of the command line in every configuration."
  },
  {
   "property": "C171",
   "status": "partial",
   "theorems": [
    "C171_selected_partial",
    "C171_distinct_types_partial",
    "C171_repeated_type_refuted"
   ],
   "note": "Proved when no type occurs twice in the file; of several entries of one type only the last is run (at the place of the first), the others are dropped without a message. Independence of the experiments' configurations holds in general."
  },
  {
   "property": "C172",
   "status": "partial",
   "theorems": [
    "C172_unknown_type_ignored_refuted",
    "C172_nothing_asked"
   ],
   "note": "False: types that do not occur in the file change nothing at all, for every file; asking for nothing runs nothing and succeeds."
  },
  {
   "property": "C173",
   "status": "proved",
   "theorems": [
    "C173_all_set_up_first",
    "C173_run_in_turn",
    "C173_success"
   ],
   "note": "Validation, construction and run are arbitrary functions that may fail and may change their configuration."
  },
  {
   "property": "C174",
   "status": "partial",
   "theorems": [
    "C174_own_model_partial",
    "C174_own_reports_partial",
    "C174_reports_dropped_refuted",
    "C174_workers_refuted"
   ],
   "note": "Proved with one worker, for all metrics and prunings (reports: of models that report each iteration under its own step). False with two workers (each thread works on whatever model the shared experiment holds) and of random forests and gradient boosting, which report every iteration under step 0, of which the optimiser keeps the first only."
  },
  {
   "property": "C175",
   "status": "partial",
   "theorems": [
    "C175_best_trial",
    "C175_suggestion_used_partial",
    "C175_estimators_unused_refuted",
    "C175_config_of_last_trial_refuted",
    "C175_trials_independent"
   ],
   "note": "Best trial, independence of trials and use of suggestions proved; false of the number of estimators of gradient boosting and XGBoost, which is tuned and reported but not used, and of the written configuration, whose hyper-parameters are those of the last trial."
  },
  {
   "property": "C176",
   "status": "partial",
   "theorems": [
    "C176_trained_models_partial",
    "C176_not_optimisable_refuted"
   ],
   "note": "Proved of the neural and regression experiments; false of the analyses and the MCMC experiments (no value, ValueError after all trials have run) and of sweeps (TypeError)."
  },
  {
   "property": "C177",
   "status": "partial",
   "theorems": [
    "C177_first_run_partial",
    "C177_second_run_refuted"
   ],
   "note": "Proved of the first run; false of every second run, whose recorded time is too large by the clock's reading at construction, for all clocks."
  },
  {
   "property": "C178",
   "status": "partial",
   "theorems": [
    "C178_one_option_partial",
    "C178_labels_partial",
    "C178_slices_partial",
    "C178_two_options_partial",
    "C178_directories_partial",
    "C178_other_data_refuted"
   ],
   "note": "Changing any single text option that is part of the name gives another file. False of every other change: the variables drawn, groups and kind of plot are not part of the name, and the earlier figure, data and settings are replaced."
  },
  {
   "property": "C179",
   "status": "partial",
   "theorems": [
    "C179_json_partial",
    "C179_keys_exported",
    "C179_other_formats_refuted",
    "C179_csv_partial",
    "C179_no_points_refuted"
   ],
   "note": "Proved of json. dat always fails (a tuple is indexed with a text), txt writes no data and reports success, csv fails when lists differ in length, a figure without points raises."
  },
  {
   "property": "C180",
   "status": "partial",
   "theorems": [
    "C180_single_file_partial",
    "C180_colour_refuted",
    "C180_defaults_refuted",
    "C180_feature_of_point",
    "C180_several_refuted"
   ],
   "note": "Proved of one directory with one file, for every feature the figure had. False of missing features (black points lose their colour), of several directories (always an error) and several files (all but the first dropped)."
  },
  {
   "property": "C181",
   "status": "partial",
   "theorems": [
    "C181_vectors_partial",
    "C181_costs_partial",
    "C181_table_partial",
    "C181_uniform_refuted",
    "C181_order_refuted"
   ],
   "note": "Proved: drawn vectors non-negative with the dimensions of their schema and sum one (unless all draws are zero), costs in [0,1] reaching one, symmetric if square, cost shares, total of the table (given that torch's multinomial keeps the total). Refuted: the uniform distribution (the schema's default) never generates anything; with destination listed before origin in dims the files of costs and table have swapped dimensions."
  },
  {
   "property": "C182",
   "status": "partial",
   "theorems": [
    "C182_same_seed",
    "C182_generator_refuted",
    "C182_noise_refuted"
   ],
   "note": "Same seed, same data, files and generator states from any state before. Refuted: the noise of the solver and the draw of the table do not come from the seed (with distributions without spread all seeds give the same data), and numpy's generator is left in a state that depends only on the number of samples."
  },
  {
   "property": "C183",
   "status": "partial",
   "theorems": [
    "C183_elsewhere",
    "C183_overwrite_refuted",
    "C183_names",
    "C183_last_key_refuted",
    "C183_names_refuted"
   ],
   "note": "No file outside the directory changes; for a last entry of inputs.data with both dimensions names agree exactly when dimensions and total agree. Refuted: the files of an existing dataset are replaced whatever the flag; the name depends on the last entry of inputs.data, so that datasets with different destinations can share a directory; if that entry has no dimensions, nothing is written."
  },
  {
   "property": "C184",
   "status": "partial",
   "theorems": [
    "C184_regenerate_partial",
    "C184_scale_refuted",
    "C184_dt_refuted"
   ],
   "note": "Exact regeneration if bmax is one (or beta zero) and no negative delta or kappa is listed. Refuted otherwise: the stored beta is already scaled and is scaled again; the configured time step is ignored and replaced by 0.001."
  },
  {
   "property": "C185",
   "status": "partial",
   "theorems": [
    "C185_flows_partial",
    "C185_square_refuted",
    "C185_potential_refuted"
   ],
   "note": "With different numbers of origins and destinations the probabilities are exactly the flows of the totally and production constrained models. Refuted for square problems (attraction over cost, whatever alpha, beta and demand) and for sde_potential (fails unless square, and then the attractions cancel)."
  },
  {
   "property": "C186",
   "status": "partial",
   "theorems": [
    "C186_loaded_partial",
    "C186_rows_refuted",
    "C186_joint_refuted",
    "C186_log_target_refuted",
    "C186_silent_refuted"
   ],
   "note": "Proved for samples with equally many rows: values, order and labels. Refuted: samples with different numbers of rows cannot be loaded together (every joint run with different numbers of parameter and table samples per iteration; log_target, which is never written, with anything recorded); damaged, missing or busy files give no arrays and no error. The conversion to the schema's dtype is not modelled."
  },
  {
   "property": "C187",
   "status": "partial",
   "theorems": [
    "C187_labels_partial",
    "C187_labels_exact",
    "C187_labels_refuted"
   ],
   "note": "Proved what the label means: row r is sample (r-1) mod b of iteration recorded_at(start, every, (r-1)/b); it is the iteration's number exactly when recording starts at once with every iteration and one sample each. Refuted otherwise."
  },
  {
   "property": "C188",
   "status": "partial",
   "theorems": [
    "C188_numbers_partial",
    "C188_texts_partial",
    "C188_small_refuted",
    "C188_same_number_refuted",
    "C188_empty_text_refuted",
    "C188_stops_refuted",
    "C188_own_name_refuted"
   ],
   "note": "Proved for numbers further apart than 1e-5 (not integer coordinates) and for texts that are not numbers. Refuted: values below 5e-6 all become 0; names reading as the same number coincide; parameters without a coordinate type (epsilon) and texts for numeric ones stop the loading; the samples of a swept parameter lose its value."
  },
  {
   "property": "C189",
   "status": "partial",
   "theorems": [
    "C189_average_partial"
   ],
   "note": "Proved for a positive number of steps, from the Euler scheme written out and consecutive draws of a generator seeded with the number of the run; the time step is 0.001 whatever the configuration says (C184) and the initial attractions are existentially quantified."
  },
  {
   "property": "C190",
   "status": "partial",
   "theorems": [
    "C190_hessian",
    "C190_laplace_estimate",
    "C190_hessian_unique",
    "C190_defined_partial",
    "C190_saddle_refuted",
    "C190_production_constrained",
    "C190_starting_points"
   ],
   "note": "Proved: the matrix factorised is the (unique) Hessian of the potential; whenever a value is returned it is the stated formula (determinant: mathcomp's); it is returned at stationary points when alpha < 1 + delta; the production constrained instance always returns. Refuted: for alpha > 1 + 2 delta stationary points exist where the Cholesky factorisation raises. torch.linalg.cholesky is the textbook factorisation in exact arithmetic; the optimiser's results are arguments; autograd is modelled by the closed form proved to be the derivative."
  },
  {
   "property": "C191",
   "status": "partial",
   "theorems": [
    "C191_trajectory_volume",
    "C191_annealing_volume_partial",
    "C191_annealing_gradient",
    "C191_annealing_detailed_balance",
    "C191_annealing_acceptance",
    "C191_attraction_volume_refuted"
   ],
   "note": "Proved for annealed importance sampling: for every differentiable gradient, and for the tempered gradient of the code (totally constrained model), the trajectory has Jacobian determinant 1 everywhere; it follows the gradient of the energy, retraces itself, and the accept/reject step is in detailed balance. Refuted for the attraction step: because the gradient of the data likelihood is held at the attractions before the trajectory, one leapfrog step has Jacobian determinant (1 + e^2/(2 nu))^J > 1 (e the step size, nu the variance of the observations), which the acceptance rule ignores. Not derived from it: invariance of the distribution (a change of variables for integrals in J dimensions). Exact real arithmetic; autograd is modelled by the closed form."
  },
  {
   "property": "C192",
   "status": "partial",
   "theorems": [
    "C192_accepted_partial",
    "C192_completed",
    "C192_complete_table",
    "C192_disagreeing_refuted",
    "C192_total_needed_refuted",
    "C192_observed_cells_refuted",
    "C192_fixed_cells_refuted"
   ],
   "note": "Proved for two-way tables: exactly which margins are accepted, that those given are kept, that the completed ones are non-negative, have the right lengths and add up to the same total, and that a complete table is kept with its own sums as margins. Refuted: margins of rows or columns without the grand total are rejected although they determine it; margins given beside a complete table are replaced unchecked; the observed cells of a partly observed table are all replaced by -1, so fixing k of them in a row leaves k more than the row total for the free cells. Random draws are arguments (torch.randint, multinomial); a sampled margin is an array of integers here, of floats in the code."
  },
  {
   "property": "C193",
   "status": "partial",
   "theorems": [
    "C193_swept_partial",
    "C193_defined",
    "C193_missing_refuted",
    "C193_fixed_ignored_refuted",
    "C193_coupled_refuted",
    "C193_nothing_swept_refuted",
    "C193_strict_function_refuted",
    "C193_roundint_refuted",
    "C193_name_clash_refuted",
    "C193_no_function_refuted"
   ],
   "note": "Proved: whenever something comes out it holds exactly the compositions, for every combination and entry, and the conditions under which it comes out. Refuted: coupled sweeps always raise TypeError (a method is not called); without a sweep nothing is applied and a KeyError is raised; every swept argument is handed to every function, so a function without that keyword (roundint) can never be in the list; a fixed value of a swept argument is silently ignored because the clash test looks at names of functions; an argument named like a function is refused; combinations of levels that were not run appear as missing. Swept values are numbers, strings or None; outputs over different entries are not joined."
  },
  {
   "property": "C194",
   "status": "partial",
   "theorems": [
    "C194_slice_elements",
    "C194_first_samples_partial",
    "C194_no_end_refuted",
    "C194_bad_step_refused",
    "C194_cumulative_mean",
    "C194_beyond_refuted"
   ],
   "note": "Proved: the elements of a slice with non-negative start and end and positive step, the first n samples, and the cumulative means of figure 2 through the whole sweep. Refuted: without an end (the default) the slice raises TypeError; an end beyond the number of samples is a label under which the mean of all the samples is repeated. Real arithmetic."
  },
  {
   "property": "C195",
   "status": "partial",
   "theorems": [
    "C195_one_group_partial",
    "C195_groups_refuted",
    "C195_outside_refuted"
   ],
   "note": "Proved for a single group and grouping by levels of the sweep. Refuted: with two groups or more it always fails (the dictionary of arguments is overwritten by that of the first group); a dimension outside the sweep is looked up under the last label of the sweep."
  },
  {
   "property": "C196",
   "status": "proved",
   "theorems": [
    "C196_total_cost_falls",
    "C196_cost_by_origin_falls",
    "C196_attraction_rises",
    "C196_attractive_destination",
    "C196_dearer_journey",
    "C196_totally_constrained_jacobian",
    "C196_production_constrained_jacobian"
   ],
   "note": "One draw and one sweep; the values torch.autograd computes are modelled by closed forms, proved to be the partial derivatives. Real arithmetic."
  },
  {
   "property": "C197",
   "status": "proved",
   "theorems": [
    "C197_totally_constrained",
    "C197_production_constrained",
    "C197_beta_identified",
    "C197_both_identified"
   ],
   "note": "One draw and one sweep, real arithmetic."
  },
  {
   "property": "C198",
   "status": "partial",
   "theorems": [
    "C198_confining",
    "C198_balanced_sizes",
    "C198_minimum",
    "C198_balances_are_fixed_points",
    "C198_unique_balance",
    "C198_several_balances",
    "C198_without_delta",
    "C198_annealing_minimum",
    "C198_production_constrained_refuted"
   ],
   "note": "Proved for the totally constrained model and the annealing prior, with several balances exhibited for exponent two. Refuted for the production constrained model: its potential (defined only for as many origins as destinations) has its minimum at sizes that do not depend on the costs or parameters. Real arithmetic."
  },
  {
   "property": "C199",
   "status": "proved",
   "theorems": [
    "C199_only_costs_matter",
    "C199_effects_cancel",
    "C199_degree_one_effects_cancel",
    "C199_models_agree_given_rows",
    "C199_direct_effects_cancel",
    "C199_cross_differences_matter",
    "C199_attractions_matter_refuted"
   ],
   "note": "Laws as in C125-C129: uniform choices, documented mass functions, exact integers, real intensities. C199_attractions_matter_refuted is the counterexample showing that the row-total theorem does not extend to column effects."
  },
  {
   "property": "C200",
   "status": "partial",
   "theorems": [
    "C200_limit_partial",
    "C200_binary_one_margin_partial",
    "C200_wrong_limit_refuted"
   ],
   "note": "Proved for one fixed margin when counts are zero or one, for instance with one item per row (C200_binary_one_margin_partial), and in general, whatever is fixed, up to counts of two: geometric convergence to the distribution of the acceptance ratio restricted to the tables the moves reach. Refuted with counts of two: the limit is one third where the target is one quarter, because the ratio sums log factorials (C21). With counts of three steps can raise."
  },
  {
   "property": "C201",
   "status": "partial",
   "theorems": [
    "C201_every_cell_kept",
    "C201_nothing_invented",
    "C201_shape",
    "C201_when_it_loads",
    "C201_unswept",
    "C201_all_samples",
    "C201_layout_edges_refuted"
   ],
   "note": "Proved for every layout (C201_every_cell_kept, C201_nothing_invented, C201_shape, C201_unswept, C201_all_samples), with the exact condition under which a sample can be laid out (C201_when_it_loads). Refuted edges: a further core dimension makes the whole load raise, and a sample with no iteration, schema or swept dimension comes back with its dimensions reversed (C201_layout_edges_refuted)."
  },
  {
   "property": "C202",
   "status": "partial",
   "theorems": [
    "C202_own_regions",
    "C202_first_plot_partial",
    "C202_same_regions_partial",
    "C202_other_regions_refuted",
    "C202_edges_refuted"
   ],
   "note": "Proved when region ids are distinct and all experiments of the session share their regions (C202_own_regions, C202_first_plot_partial, C202_same_regions_partial). Refuted otherwise: the first experiment's regions are remembered and reused for every later one (C202_other_regions_refuted); a region listed twice doubles its rows and a frame without a location column raises (C202_edges_refuted)."
  },
  {
   "property": "C203",
   "status": "partial",
   "theorems": [
    "C203_one_value_per_parameter",
    "C203_ranges",
    "C203_default_nonnegative",
    "C203_default_hidden_layer_idle",
    "C203_trial_negative_refuted"
   ],
   "note": "Proved for the activations the code itself uses, over the reals (C203_one_value_per_parameter, C203_ranges, C203_default_nonnegative), together with the fact that the default hidden layer adds nothing to what the network can represent (C203_default_hidden_layer_idle). Refuted for hyperparameter trials, which may end the network with a linear or tanh layer and then predict negative parameters (C203_trial_negative_refuted)."
  },
  {
   "property": "C204",
   "status": "partial",
   "theorems": [
    "C204_as_written_partial",
    "C204_exclusive",
    "C204_refused",
    "C204_margins_refuted",
    "C204_text_is_no_file"
   ],
   "note": "Proved for command lines of whole option tokens where the margin files are followed by an option or by nothing (C204_as_written_partial, C204_refused, C204_exclusive). Refuted otherwise (C204_margins_refuted): an argument after the margins is swallowed, an option right after --margins is taken for a file name, and what the program receives is one text that is none of the names (C204_text_is_no_file)."
  },
  {
   "property": "C205",
   "status": "partial",
   "theorems": [
    "C205_cheap_and_attractive_preferred",
    "C205_trial_prefers_costly_refuted"
   ],
   "note": "Proved for the default hyperparameters, learning alpha and beta, in both models (C205_cheap_and_attractive_preferred). Refuted for networks a hyperparameter trial may choose, which can predict that costlier destinations are preferred (C205_trial_prefers_costly_refuted)."
  },
  {
   "property": "C206",
   "status": "partial",
   "theorems": [
    "C206_axes_as_written_partial",
    "C206_no_misreading",
    "C206_bad_text_refuted"
   ],
   "note": "Proved for well-formed texts (C206_axes_as_written_partial): any spacing before the bracket and after the commas, with or without a last comma; a word that is not a number is never read as something else, it stops the parse (C206_no_misreading). Refuted half: a malformed text is not reported as a usage error, the failure of eval passes through (C206_bad_text_refuted). Python expressions other than lists of integers are not modelled."
  },
  {
   "property": "C207",
   "status": "partial",
   "theorems": [
    "C207_has_all_trips",
    "C207_nonnegative_partial",
    "C207_first_guess_is_mode_partial",
    "C207_corrected_not_mode_refuted",
    "C207_zero_draw_negative_refuted",
    "C207_near_the_shares"
   ],
   "note": "Proved: the shape and the total always (C207_has_all_trips); nonnegative cells when no draw is exactly zero (C207_nonnegative_partial); within 3/2 trips per cell in total of the shares (n + r/2) p, whatever the draws (C207_near_the_shares); a mode whenever the first guess floor((n + r/2) p) already has n trips (C207_first_guess_is_mode_partial). Refuted: a corrected table need not be a mode, because the corrections go by random numbers instead of the fractional parts (C207_corrected_not_mode_refuted), and a draw of exactly zero can make a cell negative (C207_zero_draw_negative_refuted). Exact real arithmetic; the function is in the library and called by nothing else in it."
  }
 ]
}