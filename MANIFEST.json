{
 "claims": [
  {
   "property": "C01",
   "status": "proved",
   "theorems": [
    "trim_keeps_exactly_requested_species",
    "trim_fails_iff_nothing_left",
    "trim_depends_on_known_names_only"
   ],
   "note": ""
  },
  {
   "property": "C02",
   "status": "proved",
   "theorems": [
    "trim_keeps_exactly_surviving_reactions",
    "trim_leaves_no_dangling_reference",
    "trim_antitone"
   ],
   "note": "reaction orders that name non-reactant species are not modelled"
  },
  {
   "property": "C03",
   "status": "proved",
   "theorems": [
    "trim_in_steps",
    "trim_in_steps_refuted"
   ],
   "note": "the law holds under a restriction; the unrestricted law is refuted by a concrete mechanism"
  },
  {
   "property": "C04",
   "status": "proved",
   "theorems": [
    "trim_keeps_duplicates_together"
   ],
   "note": ""
  },
  {
   "property": "C05",
   "status": "proved",
   "theorems": [
    "drg_matrix_matches_definition",
    "drg_matrix_bounds",
    "drg_matrix_scale_invariant"
   ],
   "note": "exact arithmetic"
  },
  {
   "property": "C06",
   "status": "proved",
   "theorems": [
    "drgep_matrix_matches_definition",
    "drgep_matrix_bounds",
    "drgep_matrix_scale_invariant"
   ],
   "note": "exact arithmetic"
  },
  {
   "property": "C07",
   "status": "proved",
   "theorems": [
    "pfa_matrix_matches_definition",
    "pfa_matrix_bounds"
   ],
   "note": "exact arithmetic; numpy views modelled as explicit array updates"
  },
  {
   "property": "C08",
   "status": "proved",
   "theorems": [
    "drg_keeps_exactly_reachable",
    "pfa_keeps_exactly_reachable",
    "graph_search_keeps_targets",
    "graph_search_unknown_target"
   ],
   "note": ""
  },
  {
   "property": "C09",
   "status": "proved",
   "theorems": [
    "graph_search_antitone",
    "reduce_antitone_in_threshold"
   ],
   "note": ""
  },
  {
   "property": "C10",
   "status": "proved",
   "theorems": [
    "dijkstra_finds_max_product"
   ],
   "note": "exact products"
  },
  {
   "property": "C11",
   "status": "proved",
   "theorems": [
    "dijkstra_diverges_on_growing_cycle",
    "rounded_ratio_exceeds_one"
   ],
   "note": "the rounding part is a witness about two summation orders in binary64; which order numpy uses is not modelled"
  },
  {
   "property": "C12",
   "status": "proved",
   "theorems": [
    "dijkstra_cutoff_suppresses_search"
   ],
   "note": ""
  },
  {
   "property": "C13",
   "status": "proved",
   "theorems": [
    "importance_is_best_chain",
    "importance_range",
    "drgep_search_terminates"
   ],
   "note": ""
  },
  {
   "property": "C14",
   "status": "proved",
   "theorems": [
    "reduce_keeps_exactly",
    "reduce_never_drops_targets",
    "reduce_never_drops_safe",
    "reduce_drops_unsafe_targets"
   ],
   "note": ""
  },
  {
   "property": "C15",
   "status": "proved",
   "theorems": [
    "reuse_of_previous_model_invisible",
    "reuse_with_falling_threshold_refuted"
   ],
   "note": ""
  },
  {
   "property": "C16",
   "status": "proved",
   "theorems": [
    "returned_model_within_limit",
    "returned_model_is_last_acceptable",
    "driver_returns_last_acceptable",
    "returned_model_metrics_close",
    "returned_model_within_limit_binary64"
   ],
   "note": "exact thresholds, as the property says; returned_model_within_limit_binary64 is the binary64 counterpart"
  },
  {
   "property": "C17",
   "status": "proved",
   "theorems": [
    "returned_model_within_limit_binary64_refuted",
    "step_back_error",
    "returned_model_within_limit_binary64"
   ],
   "note": "uses Flocq, hence the stdlib axioms of the reals; coefficients are exact rationals, in the counterexample they equal what binary64 division gives"
  },
  {
   "property": "C18",
   "status": "proved",
   "theorems": [
    "gives_up_iff_all_starts_fail",
    "gives_up_iff_all_starts_fail_binary64"
   ],
   "note": ""
  },
  {
   "property": "C19",
   "status": "proved",
   "theorems": [
    "driver_ends",
    "driver_never_returns",
    "driver_ends_binary64",
    "driver_never_returns_binary64"
   ],
   "note": ""
  },
  {
   "property": "C20",
   "status": "proved",
   "theorems": [
    "returned_file_holds_model",
    "only_reduced_files_change"
   ],
   "note": ""
  },
  {
   "property": "C21",
   "status": "proved",
   "theorems": [
    "rejected_first_attempt_left_behind",
    "input_named_like_output_lost"
   ],
   "note": ""
  },
  {
   "property": "C22",
   "status": "proved",
   "theorems": [
    "limbo_of_step",
    "drg_reports_targets_as_limbo",
    "limbo_of_driver"
   ],
   "note": ""
  },
  {
   "property": "C23",
   "status": "proved",
   "theorems": [
    "drgep_limbo_extends_shared_list",
    "second_drgep_call_reports_first"
   ],
   "note": ""
  },
  {
   "property": "C24",
   "status": "proved",
   "theorems": [
    "sa_within_limit",
    "sa_removes_only_candidates",
    "sa_default_keeps_safe",
    "sa_given_safe_removed",
    "sa_ends"
   ],
   "note": ""
  },
  {
   "property": "C25",
   "status": "proved",
   "theorems": [
    "greedy_crashes_on_success",
    "greedy_never_removes_all",
    "initial_removes_all"
   ],
   "note": ""
  },
  {
   "property": "C26",
   "status": "proved",
   "theorems": [
    "sa_reported_file"
   ],
   "note": ""
  },
  {
   "property": "C27",
   "status": "proved",
   "theorems": [
    "reuse_without_file_gives_zeros",
    "standalone_sa_removes_nothing"
   ],
   "note": ""
  },
  {
   "property": "C28",
   "status": "proved",
   "theorems": [
    "small_error_bounds_every_metric",
    "close_metrics_give_small_error",
    "error_is_largest_deviation",
    "error_zero_iff_metrics_agree",
    "error_ignores_order",
    "zero_metric_gives_hundred"
   ],
   "note": "exact arithmetic"
  },
  {
   "property": "C29",
   "status": "proved",
   "theorems": [
    "nan_metric_gives_nan",
    "nan_error_crashes_driver",
    "nan_candidate_removed"
   ],
   "note": ""
  },
  {
   "property": "C30",
   "status": "proved",
   "theorems": [
    "candidate_delay",
    "failing_candidate_scores_hundred",
    "candidate_without_mixture_species_aborts",
    "negative_step_limit_crashes"
   ],
   "note": "fuel only bounds runs to an end time; the exceptions that do escape are stated too"
  },
  {
   "property": "C31",
   "status": "proved",
   "theorems": [
    "delays_measured_alike",
    "flame_speeds_measured_alike",
    "psr_metrics_measured_alike",
    "flame_speed_reported",
    "stirred_reactor_reported",
    "sampled_model_has_no_error"
   ],
   "note": ""
  },
  {
   "property": "C32",
   "status": "proved",
   "theorems": [
    "sampled_rows_are_states",
    "sampled_rows_are_determined",
    "coarse_profile_leaves_zero_rows",
    "fine_profile_fills_all_rows",
    "all_rows_filled_refuted"
   ],
   "note": ""
  },
  {
   "property": "C33",
   "status": "proved",
   "theorems": [
    "ignition_pool_is_serial",
    "psr_pool_is_serial",
    "flame_pool_is_serial",
    "metric_pool_is_serial",
    "ignition_pool_can_finish",
    "first_sample_measures",
    "first_sample_succeeds"
   ],
   "note": "for runs in which every worker succeeds; with a failing worker the pool may report another worker's exception"
  },
  {
   "property": "C34",
   "status": "proved",
   "theorems": [
    "ignition_workers_do_not_interfere"
   ],
   "note": ""
  },
  {
   "property": "C35",
   "status": "proved",
   "theorems": [
    "second_sample_reuses",
    "misfit_samples_replaced",
    "saved_samples_taken_on_trust",
    "first_sample_measures"
   ],
   "note": ""
  },
  {
   "property": "C36",
   "status": "proved",
   "theorems": [
    "next_sample_recovers",
    "torn_metric_is_accepted_refuted",
    "crash_mixes_old_metrics_with_new_data",
    "emptied_data_file_blocks",
    "two_crashes_block"
   ],
   "note": "the mixing and blocking theorems are stated for ignition cases only"
  },
  {
   "property": "C37",
   "status": "proved",
   "theorems": [
    "ignition_cases_accepted_iff",
    "psr_cases_accepted_iff",
    "flame_cases_accepted_iff",
    "input_accepted_iff",
    "typed_cases_fail_by_assertion",
    "text_amounts_fail_by_type",
    "empty_fuel_accepted_then_fails"
   ],
   "note": "true and .inf count as positive numbers; end-time and max-steps are not checked; the whole-file theorem is for targets and retained species given as lists"
  },
  {
   "property": "C38",
   "status": "proved",
   "theorems": [
    "used_species_are_protected",
    "parsing_again_gives_the_same",
    "text_targets_leave_fuel_unprotected_refuted"
   ],
   "note": "for targets and retained species given as lists; refuted for targets given as one string"
  },
  {
   "property": "C39",
   "status": "proved",
   "theorems": [
    "candidates_can_be_set_up",
    "returned_model_can_be_set_up",
    "lax_drgep_run_aborts_refuted"
   ],
   "note": "DRGEP above threshold 1 can lose a target that a case needs; a concrete run is given"
  },
  {
   "property": "C40",
   "status": "proved",
   "theorems": [
    "main_keeps_targets_and_safe",
    "standalone_analysis_keeps_targets_and_safe",
    "returned_model_has_targets_and_safe",
    "drg_analysis_removes_target_and_safe_refuted"
   ],
   "note": "exact arithmetic; DRG with an upper threshold is refuted by a concrete run"
  },
  {
   "property": "C41",
   "status": "proved",
   "theorems": [
    "other_models_are_never_reduced",
    "converted_model_gives_attribute_error"
   ],
   "note": "reading the file and the conversion are arbitrary functions"
  },
  {
   "property": "C42",
   "status": "proved",
   "theorems": [
    "models_accepted_iff",
    "model_matches_itself",
    "order_does_not_matter",
    "order_of_duplicates_matters_refuted",
    "symmetric_refuted"
   ],
   "note": "exact arithmetic for isclose; the order of duplicate reactions matters and the comparison is not symmetric: both refuted by concrete models"
  },
  {
   "property": "C43",
   "status": "proved",
   "theorems": [
    "exported_model_reads_back"
   ],
   "note": "for models with usable names, equations below 51 characters and finite numbers; unit conversion in exact arithmetic; str of a number is assumed to read back to 15 digits; Chebyshev coefficients are those of the model, see C64"
  },
  {
   "property": "C44",
   "status": "proved",
   "theorems": [
    "exported_thermo_reads_back"
   ],
   "note": "within the field widths stated by fits_card"
  },
  {
   "property": "C45",
   "status": "proved",
   "theorems": [
    "species_list_survives_wrapping"
   ],
   "note": "textwrap.fill is modelled from the Python standard library"
  },
  {
   "property": "C46",
   "status": "proved",
   "theorems": [
    "psr_extinction_is_smallest",
    "psr_sampled_points",
    "psr_points_are_steady",
    "psr_branch_is_bounded"
   ],
   "note": "exact arithmetic; norm, exp, log, sqrt, linear and nonlinear solver are arbitrary functions with the properties listed in Spec/PsrSpec.v (numerics); step sizes above the tolerance (sensible); that it raises without a turning point is psr_full_march_shape read backwards, see also C71"
  },
  {
   "property": "C47",
   "status": "proved",
   "theorems": [
    "psr_jacobian_entries",
    "psr_augmented_jacobian_entries",
    "psr_augmented_jacobian_paths"
   ],
   "note": "over the real numbers, for an ideal gas whose rate derivatives are exact (hypotheses of the theorem); axioms of the standard library's real numbers and functional extensionality"
  },
  {
   "property": "C48",
   "status": "proved",
   "theorems": [
    "newton_reports_honestly"
   ],
   "note": "for every norm, linear solver and function; exact arithmetic"
  },
  {
   "property": "C49",
   "status": "proved",
   "theorems": [
    "negative_limit"
   ],
   "note": ""
  },
  {
   "property": "C50",
   "status": "proved",
   "theorems": [
    "ignition_run_succeeds_iff",
    "steady_on_last_step_fails",
    "run_without_ignition_leaves_file",
    "negative_step_limit_crashes"
   ],
   "note": ""
  },
  {
   "property": "C51",
   "status": "proved",
   "theorems": [
    "sa_stops_because",
    "sa_maximal_refuted"
   ],
   "note": ""
  },
  {
   "property": "C52",
   "status": "proved",
   "theorems": [
    "sa_changes_one_file"
   ],
   "note": ""
  },
  {
   "property": "C53",
   "status": "proved",
   "theorems": [
    "sa_consumes_shared_list"
   ],
   "note": ""
  },
  {
   "property": "C54",
   "status": "proved",
   "theorems": [
    "main_end_to_end",
    "main_metrics_close",
    "cli_end_to_end"
   ],
   "note": "exact arithmetic, one process, simulators are arbitrary functions of case and model"
  },
  {
   "property": "C55",
   "status": "proved",
   "theorems": [
    "drg_analysis_with_target_in_mixture_fails",
    "cli_drg_analysis_with_target_in_mixture_fails"
   ],
   "note": "exact arithmetic"
  },
  {
   "property": "C56",
   "status": "proved",
   "theorems": [
    "different_models_match_refuted"
   ],
   "note": "refutation by two concrete pairs of models; what is accepted is characterised by models_accepted_iff"
  },
  {
   "property": "C57",
   "status": "proved",
   "theorems": [
    "troe_lengths_raise_refuted"
   ],
   "note": "refutation by a concrete pair of models"
  },
  {
   "property": "C58",
   "status": "proved",
   "theorems": [
    "exported_transport_reads_back"
   ],
   "note": ""
  },
  {
   "property": "C59",
   "status": "proved",
   "theorems": [
    "export_succeeds_iff",
    "export_returns_the_files"
   ],
   "note": ""
  },
  {
   "property": "C60",
   "status": "proved",
   "theorems": [
    "export_stops_at_unsupported_reaction"
   ],
   "note": ""
  },
  {
   "property": "C61",
   "status": "proved",
   "theorems": [
    "convert_writes_chemkin",
    "convert_returns_the_files",
    "convert_calls_ck2yaml"
   ],
   "note": "ct.Solution and ck2yaml are arbitrary functions"
  },
  {
   "property": "C62",
   "status": "proved",
   "theorems": [
    "default_efficiency_is_lost_refuted"
   ],
   "note": ""
  },
  {
   "property": "C63",
   "status": "proved",
   "theorems": [
    "long_equation_refuted"
   ],
   "note": "refutation by a concrete model"
  },
  {
   "property": "C64",
   "status": "proved",
   "theorems": [
    "chebyshev_units_refuted"
   ],
   "note": "refutation by a concrete model"
  },
  {
   "property": "C65",
   "status": "proved",
   "theorems": [
    "exported_model_matches_refuted",
    "falloff_energy_refuted"
   ],
   "note": "refutation by concrete models"
  },
  {
   "property": "C66",
   "status": "proved",
   "theorems": [
    "five_elements_refuted",
    "fraction_of_atom_refuted",
    "other_thermo_refuted"
   ],
   "note": "refutation by concrete models"
  },
  {
   "property": "C67",
   "status": "proved",
   "theorems": [
    "psr_full_march_shape",
    "psr_full_march_same_points"
   ],
   "note": "exact arithmetic; norm, exp, log, sqrt, linear and nonlinear solver are arbitrary functions with the properties listed in Spec/PsrSpec.v (numerics); step sizes above the tolerance (sensible)"
  },
  {
   "property": "C68",
   "status": "proved",
   "theorems": [
    "psr_branch_ends_past_extinction"
   ],
   "note": "exact arithmetic; norm, exp, log, sqrt, linear and nonlinear solver are arbitrary functions with the properties listed in Spec/PsrSpec.v (numerics); step sizes above the tolerance (sensible)"
  },
  {
   "property": "C69",
   "status": "proved",
   "theorems": [
    "psr_ascending_seeds"
   ],
   "note": "exact arithmetic; norm, exp, log, sqrt, linear and nonlinear solver are arbitrary functions with the properties listed in Spec/PsrSpec.v (numerics); step sizes above the tolerance (sensible)"
  },
  {
   "property": "C70",
   "status": "proved",
   "theorems": [
    "psr_late_extinction_one_point"
   ],
   "note": "exact arithmetic; norm, exp, log, sqrt, linear and nonlinear solver are arbitrary functions with the properties listed in Spec/PsrSpec.v (numerics); step sizes above the tolerance (sensible)"
  },
  {
   "property": "C71",
   "status": "proved",
   "theorems": [
    "psr_exceptions"
   ],
   "note": "for every gas and solver"
  },
  {
   "property": "C72",
   "status": "proved",
   "theorems": [
    "psr_tiny_steps_refuted"
   ],
   "note": "refutation by a concrete gas and solver"
  },
  {
   "property": "C73",
   "status": "proved",
   "theorems": [
    "binary64_coefficients_in_unit_interval",
    "binary64_diagonal_is_zero"
   ],
   "note": "numpy adds the summands of a row from left to right (the layout of array[:, indices]; see DESIGN section 2); axioms of the standard library's real numbers through Flocq"
  },
  {
   "property": "C74",
   "status": "proved",
   "theorems": [
    "binary64_drgep_accuracy",
    "binary64_drg_accuracy"
   ],
   "note": "numpy adds the summands of a row from left to right (the layout of array[:, indices]; see DESIGN section 2); axioms of the standard library's real numbers through Flocq; PFA is in C81"
  },
  {
   "property": "C75",
   "status": "proved",
   "theorems": [
    "binary64_dijkstra_finds_max_product"
   ],
   "note": "axioms of the standard library's real numbers through Flocq"
  },
  {
   "property": "C76",
   "status": "proved",
   "theorems": [
    "binary64_importance",
    "binary64_importance_is_best_chain",
    "binary64_removal",
    "binary64_drg_keeps"
   ],
   "note": "numpy adds the summands of a row from left to right (the layout of array[:, indices]; see DESIGN section 2); axioms of the standard library's real numbers through Flocq"
  },
  {
   "property": "C77",
   "status": "proved",
   "theorems": [
    "rounding_decides_removal_refuted"
   ],
   "note": "refutation by a concrete model; numpy adds the summands of a row from left to right (the layout of array[:, indices]; see DESIGN section 2); axioms of the standard library's real numbers through Flocq"
  },
  {
   "property": "C78",
   "status": "proved",
   "theorems": [
    "binary64_sampled_rows",
    "binary64_gentle_profile_fills",
    "binary64_last_row_lost",
    "binary64_rise_adds_up",
    "binary64_all_rows_filled_refuted"
   ],
   "note": "np.arange as numpy computes it, no fused operations; axioms of the standard library's real numbers through Flocq"
  },
  {
   "property": "C79",
   "status": "proved",
   "theorems": [
    "binary64_error_accuracy",
    "binary64_error_against_limit",
    "binary64_failed_case_error"
   ],
   "note": "axioms of the standard library's real numbers through Flocq"
  },
  {
   "property": "C80",
   "status": "proved",
   "theorems": [
    "psr_points_are_spaced"
   ],
   "note": "exact arithmetic; norm, exp, log, sqrt, linear and nonlinear solver are arbitrary functions with the properties listed in Spec/PsrSpec.v (numerics); step sizes above the tolerance (sensible)"
  },
  {
   "property": "C81",
   "status": "proved",
   "theorems": [
    "binary64_pfa_range",
    "binary64_pfa_accuracy"
   ],
   "note": "numpy adds the summands of a row from left to right (the layout of array[:, indices]; see DESIGN section 2); axioms of the standard library's real numbers through Flocq"
  },
  {
   "property": "C82",
   "status": "proved",
   "theorems": [
    "binary64_pfa_keeps"
   ],
   "note": "numpy adds the summands of a row from left to right (the layout of array[:, indices]; see DESIGN section 2); axioms of the standard library's real numbers through Flocq"
  },
  {
   "property": "C83",
   "status": "proved",
   "theorems": [
    "saved_number_reads_back",
    "field_reads_as_nearest",
    "saved_table_reads_back",
    "saved_metrics_read_back"
   ],
   "note": "numpy's default format %.18e and Python's correctly rounded printing and reading of doubles are trusted; axioms of the standard library's real numbers through Flocq"
  },
  {
   "property": "C84",
   "status": "proved",
   "theorems": [
    "cut_table_reads",
    "cut_table_is_a_state",
    "cut_metrics_are_a_state",
    "cut_number_is_noticed_refuted"
   ],
   "note": "numpy's default format %.18e and Python's correctly rounded printing and reading of doubles are trusted; axioms of the standard library's real numbers through Flocq"
  },
  {
   "property": "C85",
   "status": "proved",
   "theorems": [
    "double_driver_result",
    "double_driver_only_writes_outputs",
    "double_driver_keeps",
    "thresholds_stay_off_one"
   ],
   "note": "numpy sums along reactions from left to right; axioms of the standard library's real numbers through Flocq"
  },
  {
   "property": "C86",
   "status": "proved",
   "theorems": [
    "double_driver_within_limit",
    "double_driver_within_limit_refuted"
   ],
   "note": "numpy sums along reactions from left to right; axioms of the standard library's real numbers through Flocq"
  },
  {
   "property": "C87",
   "status": "proved",
   "theorems": [
    "double_driver_gives_up",
    "double_driver_ends",
    "double_driver_never_returns"
   ],
   "note": "numpy sums along reactions from left to right; axioms of the standard library's real numbers through Flocq"
  },
  {
   "property": "C88",
   "status": "proved",
   "theorems": [
    "double_driver_near_exact"
   ],
   "note": "numpy sums along reactions from left to right; axioms of the standard library's real numbers through Flocq"
  },
  {
   "property": "C89",
   "status": "proved",
   "theorems": [
    "double_error_near_exact",
    "double_error_special_values",
    "double_error_failed_case",
    "double_errors_same_run",
    "double_errors_same_run_refuted",
    "double_driver_metrics_close"
   ],
   "note": "numpy sums along reactions from left to right; axioms of the standard library's real numbers through Flocq"
  },
  {
   "property": "C90",
   "status": "proved",
   "theorems": [
    "saved_metrics_after_sample",
    "saved_metrics_are_read",
    "missing_metrics_are_an_error",
    "reading_is_reuse"
   ],
   "note": "an output file is the list of its numbers; their text is in C83 and C84"
  },
  {
   "property": "C91",
   "status": "proved",
   "theorems": [
    "psr_calls_repeat",
    "psr_attributes",
    "psr_metrics_mean",
    "psr_zero_means_no_curve",
    "psr_objects_are_conditions",
    "main_keeps_extinction_curves"
   ],
   "note": "numpy, scipy and the gas are functions with stated properties (Spec/PsrSpec.v, works in Spec/PsrCaseSpec.v); the state after gas.TPY = s depends on s only"
  },
  {
   "property": "C92",
   "status": "proved",
   "theorems": [
    "ignition_answers_are_visited",
    "new_ignition_objects_are_cases",
    "steady_runs_end_nearly_unchanged",
    "stop_at_ignition_returns_delay",
    "stop_at_ignition_same_delay",
    "restart_returns_no_delay",
    "process_results_repeats",
    "second_run_destroys_results",
    "second_calculate_returns_next_time",
    "calculate_repeats_refuted",
    "ignition_delay_attribute",
    "ignition_samples_attribute"
   ],
   "note": "a reactor network is a function of the steps and reinitialisations made so far, and reading it changes nothing; where stated, reinitialising a new network changes nothing, and its states are finite with a sound norm (decent in Spec/IgnCaseSpec.v)"
  },
  {
   "property": "C93",
   "status": "proved",
   "theorems": [
    "main_keeps_ignition_and_flames"
   ],
   "note": "as C54"
  },
  {
   "property": "C94",
   "status": "proved",
   "theorems": [
    "flame_calls_answer",
    "flame_speed_attribute",
    "flame_samples_attribute",
    "flame_objects_are_conditions"
   ],
   "note": "the n-th solution of a flame is an arbitrary function of n, the case and the model"
  },
  {
   "property": "C95",
   "status": "proved",
   "theorems": [
    "command_line_grammar",
    "command_line_exit_codes",
    "version_wins",
    "help_wins",
    "processes_as_written",
    "command_line_starts_program",
    "argument_not_parsed",
    "argument_is_parsed_refuted",
    "main_runs_its_arguments_refuted"
   ],
   "note": "the rules of argparse (Python 3.11) for this parser are part of the model; they were compared with argparse on 5000 random command lines"
  },
  {
   "property": "C96",
   "status": "proved",
   "theorems": [
    "sampling_with_any_processes",
    "sampling_can_use_any_processes",
    "sampling_fails_only_if_serial_does",
    "zero_processes_are_all_but_one",
    "one_process_is_serial",
    "negative_processes_are_refused",
    "failures_reported_alike_refuted",
    "metrics_with_any_processes",
    "metrics_negative_processes"
   ],
   "note": "the model file is not one of the files that sampling writes; a process that dies without an exception is not modelled"
  },
  {
   "property": "C97",
   "status": "proved",
   "theorems": [
    "sa_follows_course",
    "sa_course_is_followed",
    "sa_tries_nearest",
    "sa_tries_nearest_double",
    "sa_tries_special_values_double",
    "double_nearest_refuted"
   ],
   "note": "the distance between errors is a parameter of the model: exact or rounded to doubles"
  },
  {
   "property": "C98",
   "status": "proved",
   "theorems": [
    "double_main_end_to_end",
    "double_main_metrics_close",
    "double_main_within_limit_refuted"
   ],
   "note": "the arithmetic of the simulations is a parameter, with doubles in the examples (C103); metrics, rates and the upper threshold are doubles far from overflow and underflow (double_posed in Spec/FloatMainSpec.v)"
  },
  {
   "property": "C99",
   "status": "proved",
   "theorems": [
    "main_with_any_processes",
    "main_fails_only_if_serial_does",
    "main_end_to_end_any_processes",
    "main_with_one_process_is_serial",
    "main_refuses_negative_processes",
    "main_failures_reported_alike_refuted"
   ],
   "note": "the model file is not one of the files that sampling writes; the program is the one with doubles of C98; the refuted theorem is about which of several failures is reported"
  },
  {
   "property": "C100",
   "status": "proved",
   "theorems": [
    "program_end_to_end",
    "program_with_any_processes",
    "program_unasked_changes_nothing",
    "program_refuses_negative_processes"
   ],
   "note": "the model file is in Cantera format (else C41); the hypotheses about simulations and doubles are those of C98; the default upper threshold is the double 0.1"
  },
  {
   "property": "C101",
   "status": "proved",
   "theorems": [
    "double_comparison_accepts",
    "double_model_matches_itself",
    "double_order_does_not_matter",
    "double_comparison_exact_refuted"
   ],
   "note": "numpy isclose in binary64; reading the numbers from Cantera is taken as exact"
  },
  {
   "property": "C102",
   "status": "proved",
   "theorems": [
    "double_export_reads_back",
    "double_transport_reads_back",
    "double_export_digits_refuted"
   ],
   "note": "1e3**x of the C library is a parameter, right to one unit in the last place for small integers; the sum of the stoichiometric coefficients is exact; the five numbers of a transport card stay a little within their columns"
  },
  {
   "property": "C103",
   "status": "proved",
   "theorems": [
    "double_delay_near",
    "double_metrics_exact",
    "double_metrics_exact_refuted",
    "double_reactors_start",
    "double_samples_near"
   ],
   "note": "the arithmetic of the simulations is a parameter of the model (calc in Model/Simulation.v) in the theorems of C30-C32, C50, C54, C91-C94 and C98-C100; here it is binary64"
  },
  {
   "property": "C104",
   "status": "proved",
   "theorems": [
    "write_replaces_one_file",
    "written_model_reads_back",
    "trim_names_model",
    "trim_in_steps_through_files",
    "reduced_file_loses_phase_name"
   ],
   "note": "Cantera's write_yaml and Solution are taken to give back the same mechanism"
  },
  {
   "property": "C105",
   "status": "proved",
   "theorems": [
    "threshold_is_near_its_multiple",
    "double_driver_returns_documented",
    "double_driver_exits_as_documented",
    "double_driver_returns_documented_refuted"
   ],
   "note": "numpy sums along reactions from left to right; axioms of the standard library's real numbers through Flocq"
  },
  {
   "property": "C106",
   "status": "proved",
   "theorems": [
    "main_writes_documented",
    "main_analyses_documented",
    "main_gives_up_as_documented",
    "program_writes_documented"
   ],
   "note": "numpy sums along reactions from left to right; axioms of the standard library's real numbers through Flocq"
  },
  {
   "property": "C107",
   "status": "proved",
   "theorems": [
    "run_again_same",
    "run_after_other_run"
   ],
   "note": "the hypotheses of C98 for both runs; the first run starts without saved samples and both return a model; one process; a new process starts with the empty default list of DRGEP (in one process that list is shared, see C23)"
  },
  {
   "property": "C108",
   "status": "proved",
   "theorems": [
    "searched_coefficients_documented",
    "reference_coefficients_documented"
   ],
   "note": "links the arrays of C05-C07 to the model; product_stoich_coeffs and reactant_stoich_coeffs of Cantera are taken to list the coefficients of the reactions"
  }
 ]
}