{
 "claims": [
  {
   "property": "C01",
   "status": "partial",
   "theorems": [
    "C01_set_read_back",
    "C01_set_refused_unchanged",
    "C01_set_key_partial",
    "C01_set_key_two_segments",
    "C01_set_key_refuted",
    "C01_lookup"
   ],
   "note": "Read-back and 'refused means unchanged' hold for all inputs; the frame condition holds for keys of up to two segments and whenever no plain value is in the way. With three or more segments and a plain value in the way the code deletes siblings (refuted theorem)."
  },
  {
   "property": "C02",
   "status": "proved",
   "theorems": [
    "C02_flat_round_trip",
    "C02_flat_entries"
   ],
   "note": "Empty sub-dictionaries included."
  },
  {
   "property": "C03",
   "status": "proved",
   "theorems": [
    "C03_union_override",
    "C03_union_override_shape"
   ],
   "note": "Exact leaf-wise characterisation, including the treatment of None and of empty dictionaries."
  },
  {
   "property": "C04",
   "status": "partial",
   "theorems": [
    "C04_union_strict_conflict_partial",
    "C04_union_strict_disjoint_partial",
    "C04_union_strict_refuted"
   ],
   "note": "A key defined on both sides is always refused and disjoint dictionaries always merge; a plain value against a sub-dictionary of the first argument is not refused (refuted theorem)."
  },
  {
   "property": "C05",
   "status": "proved",
   "theorems": [
    "C05_last_layer_wins",
    "C05_layer_idempotent",
    "C05_last_layer_wins_empty_blocks"
   ],
   "note": "For layers of a common shape without empty dictionaries."
  },
  {
   "property": "C06",
   "status": "proved",
   "theorems": [
    "C06_del_key",
    "C06_del_missing"
   ],
   "note": ""
  },
  {
   "property": "C07",
   "status": "partial",
   "theorems": [
    "C07_priority_partial",
    "C07_priority_any_scenario_partial",
    "C07_priority_refuted"
   ],
   "note": "Proved for definitions whose sources agree on where leaves sit, without empty blocks, _REPLACE_ or templates. Refuted in general: None given by a higher source does not displace a block of a lower one."
  },
  {
   "property": "C08",
   "status": "partial",
   "theorems": [
    "C08_order_independent_partial",
    "C08_combination_partial",
    "C08_order_refuted",
    "C08_conflict_unnoticed_refuted",
    "C08_refused"
   ],
   "note": "Proved when overrides agree on where leaves sit. Refuted in general: the set iteration order decides whether a value and a block for the same key combine. C08_refused: the first override that is not defined, or is not a dictionary that can be used, decides the error."
  },
  {
   "property": "C09",
   "status": "partial",
   "theorems": [
    "C09_scenario_partial",
    "C09_circular_refuted"
   ],
   "note": "Proved for every table whose references are not circular. Refuted for circular ones: the recursion never ends."
  },
  {
   "property": "C10",
   "status": "partial",
   "theorems": [
    "C10_templates_terminate",
    "C10_templates_partial",
    "C10_undefined_refuted"
   ],
   "note": "Termination for all inputs; nearest definition wins for unambiguous shapes. Refuted: an undefined template is a KeyError, not a model error."
  },
  {
   "property": "C11",
   "status": "partial",
   "theorems": [
    "C11_imports_partial",
    "C11_override_partial",
    "C11_circular_refuted",
    "C11_empty_import_refuted"
   ],
   "note": "Proved for import structures that end and files that agree on where leaves sit. Refuted: an empty import list survives; circular imports never end."
  },
  {
   "property": "C12",
   "status": "partial",
   "theorems": [
    "C12_user_file_replaces_predefined",
    "C12_last_file_wins_partial",
    "C12_missing_file_reported",
    "C12_missing_only_refuted"
   ],
   "note": "Layering proved for compatible layers (no setting of one file at, above or below an empty block or setting of another); a missing name is always a ModelError, but a ModelError does not imply a missing name (C12_missing_only_refuted)."
  },
  {
   "property": "C13",
   "status": "proved",
   "theorems": [
    "C13_unique_active_names",
    "C13_find",
    "C13_find_subset",
    "C13_all_names_refuted",
    "C13_find_ambiguous"
   ],
   "note": "Proved for switched-on components; C13_all_names_refuted records that switched-off components may share names."
  },
  {
   "property": "C14",
   "status": "partial",
   "theorems": [
    "C14_update_local_partial",
    "C14_update_accepted_iff",
    "C14_one_by_one_or_at_once",
    "C14_inside_dictionary_refuted",
    "C14_nested_dictionary_refuted",
    "C14_unknown_none_refuted",
    "C14_update_none"
   ],
   "note": "Updates addressing plain fields of models and dictionaries of models change exactly those; fails inside dictionary-valued settings, nested dictionaries and for unknown names set to None (refuted). Object identity of the original is not modelled."
  },
  {
   "property": "C15",
   "status": "partial",
   "theorems": [
    "C15_attributes_round_trip_partial",
    "C15_dataset_round_trip_partial",
    "C15_empty_list_refuted",
    "C15_coordinates_refuted",
    "C15_dictionary_keys_refuted",
    "C15_reading"
   ],
   "note": "Proved for all attribute dictionaries of supported types without empty lists, dotted keys or import keys; these exceptions and coordinate attributes are refuted. YAML text round trip and the netCDF library's handling of lists are assumptions. C15_reading gives what reading any file restores, also files not written by save_netcdf."
  },
  {
   "property": "C16",
   "status": "partial",
   "theorems": [
    "C16_memory_unchanged_partial",
    "C16_failed_preparation_refuted",
    "C16_reported"
   ],
   "note": "Unchanged for every outcome of writing the file; a failure while preparing the attributes leaves them changed (refuted). C16_reported: if saving reports no failure, the file was written and no attribute was a list with members other than strings."
  },
  {
   "property": "C17",
   "status": "partial",
   "theorems": [
    "C17_every_timestep_once_partial",
    "C17_single_window_refuted",
    "C17_short_horizon_refuted",
    "C17_gap_refuted"
   ],
   "note": "Proved for at least two windows, horizon >= window and no window without time stamps, for every optimiser. Refuted otherwise: one window ends in NameError, a shorter horizon drops time stamps, a gap ends in an error."
  },
  {
   "property": "C18",
   "status": "partial",
   "theorems": [
    "C18_met_balance_partial",
    "C18_stitched_balance_partial",
    "C18_no_loss",
    "C18_loss_refuted"
   ],
   "note": "The stitched balance holds with factor 1 instead of the loss factor at window boundaries; without losses the full property holds; with losses it is refuted."
  },
  {
   "property": "C19",
   "status": "partial",
   "theorems": [
    "C19_fresh_run",
    "C19_resumed_run",
    "C19_resumed_files",
    "C19_resume_equals_uninterrupted_partial",
    "C19_cost_bounded_partial",
    "C19_resume_evolving_refuted",
    "C19_second_run_refuted"
   ],
   "note": "Numbering, order, stopping, resuming and files proved for every solver. Resumed = uninterrupted proved for integer and relative scoring with deterministic solver and non-zero cost limit, refuted for evolving averages. Cost bound proved for the first run of a built model; a forced second run keeps the old cost limit (refuted)."
  },
  {
   "property": "C20",
   "status": "partial",
   "theorems": [
    "C20_guards",
    "C20_results_kept",
    "C20_errors_keep",
    "C20_solved_iff_results_partial",
    "C20_built_is_complete_partial",
    "C20_infeasible_refuted",
    "C20_loaded_refuted",
    "C20_failed_rebuild_refuted"
   ],
   "note": "Guards proved for all histories. 'Solved' is refuted as equivalent to having results (infeasible solves, loaded files); a failed forced rebuild leaves a half-built problem that counts as built (refuted)."
  },
  {
   "property": "C21",
   "status": "partial",
   "theorems": [
    "C21_zero_threshold_partial",
    "C21_no_threshold_no_change",
    "C21_joined_conditions_refuted"
   ],
   "note": "Value-wise effect proved for termination conditions optimal and feasible; joined conditions of multi-solve modes skip the threshold (refuted)."
  },
  {
   "property": "C22",
   "status": "partial",
   "theorems": [
    "C22_every_timestep_in_one_bin",
    "C22_bin_values",
    "C22_sum_total",
    "C22_range",
    "C22_loaded_hours",
    "C22_first_hours_partial",
    "C22_first_hours_refuted"
   ],
   "note": "Sums, means and first values hold for every ordered series (gaps and missing values included) and every fixed step. The number of hours is kept for models read from file; for models made from their definition the resolution is inferred after resampling, so it is kept only for regular series that start on a bin edge and fill two or more whole bins, and refuted otherwise (5 h become 6 h, a single day becomes 1 h). pandas' binning rule is modelled."
  },
  {
   "property": "C23",
   "status": "partial",
   "theorems": [
    "C23_weights_count",
    "C23_weights_total_partial",
    "C23_weights_uniform",
    "C23_clusters",
    "C23_date_last",
    "C23_step_last_partial",
    "C23_missing_day_refuted",
    "C23_step_last_refuted"
   ],
   "note": "Weights, cluster membership and the last time step per date hold for every assignment; a representative day absent from the data is not detected (refuted), and the last time step per time step is found only for days that start at midnight (refuted otherwise)."
  },
  {
   "property": "C24",
   "status": "partial",
   "theorems": [
    "C24_links_partial",
    "C24_directions_partial",
    "C24_self_link_refuted"
   ],
   "note": "Every two-way or one-way link between two distinct nodes is present at exactly its two end nodes with the inflow/outflow its direction allows. A link from a node to itself is refuted by a witness."
  },
  {
   "property": "C25",
   "status": "partial",
   "theorems": [
    "C25_inherited_partial",
    "C25_undefined_tech",
    "C25_nodes",
    "C25_node_errors",
    "C25_indexed_override_refuted"
   ],
   "note": "Node-level settings win over technology-level settings per parameter; inactive nodes/techs disappear; unknown techs raise. An indexed node-level setting over a plain tech-level value is refuted (KeyError)."
  },
  {
   "property": "C26",
   "status": "proved",
   "theorems": [
    "C26_members",
    "C26_data",
    "C26_combinations",
    "C26_flags"
   ],
   "note": "Members and data kept by cleaning are exactly those taking part in defined combinations."
  },
  {
   "property": "C27",
   "status": "proved",
   "theorems": [
    "C27_one",
    "C27_sequence",
    "C27_members",
    "C27_types"
   ],
   "note": "Per-entry precedence of the latest addition, for one addition and for any sequence."
  },
  {
   "property": "C28",
   "status": "proved",
   "theorems": [
    "C28_combinations",
    "C28_names"
   ],
   "note": "All combinations exactly once; names sorted as text in numeric order."
  },
  {
   "property": "C29",
   "status": "partial",
   "theorems": [
    "C29_script",
    "C29_commands",
    "C29_words_partial",
    "C29_unquoted_refuted"
   ],
   "note": "The text of the generated script is interpreted by a small model of a shell; i-th argument runs the i-th command, no argument runs all in order; output files pairwise distinct. Names with spaces are not quoted (refuted by witness)."
  },
  {
   "property": "C30",
   "status": "partial",
   "theorems": [
    "C30_time_partial",
    "C30_long_refuted"
   ],
   "note": "Exact for less than a day; wraps around for longer times (refuted by witness)."
  },
  {
   "property": "C31",
   "status": "partial",
   "theorems": [
    "C31_no_influence",
    "C31_save_logs_refuted"
   ],
   "note": "The code violates the property: the options are passed under dotted names relative to the wrong level and never reach the solve configuration."
  },
  {
   "property": "C32",
   "status": "proved",
   "theorems": [
    "C32_grammar",
    "C32_unambiguous",
    "C32_round_trip",
    "C32_text_round_trip",
    "C32_not_binds_tightest",
    "C32_brackets"
   ],
   "note": "For sets of names that do not clash with the words and/or/not/true/false and conditions whose helper functions are not called like those words.  Tokens and texts of any length.  Recorded beside the theorems: 'and' and 'or' share one level; arguments of helper functions that start with a number, or are calls, are not accepted."
  },
  {
   "property": "C33",
   "status": "proved",
   "theorems": [
    "C33_grammar",
    "C33_equation_grammar",
    "C33_slice_grammar",
    "C33_unambiguous",
    "C33_round_trip",
    "C33_text_round_trip",
    "C33_value",
    "C33_text_value",
    "C33_number",
    "C33_missing",
    "C33_outside_mask"
   ],
   "note": "All texts, expressions, data and positions; values are exact rationals, missing, infinite, text or Boolean entries. Function calls are given by an arbitrary meaning."
  },
  {
   "property": "C34",
   "status": "partial",
   "theorems": [
    "C34_same_texts",
    "C34_usual_unambiguous",
    "C34_deviation",
    "C34_usual_value_partial",
    "C34_sign_refuted",
    "C34_power_refuted"
   ],
   "note": "The claim is false for signs before powers (-2**2 is 4) and repeated powers (2**3**2 is 64); the exact deviation is proved, and that all other texts have the usual value."
  },
  {
   "property": "C35",
   "status": "proved",
   "theorems": [
    "C35_truth",
    "C35_comparison",
    "C35_default",
    "C35_missing_compares_false",
    "C35_subset",
    "C35_boolean_laws",
    "C35_left_to_right",
    "C35_absent"
   ],
   "note": "Conditions at single positions; the reduction over dimensions that are not in foreach is treated with C39. Helper functions have an arbitrary meaning. Inputs of dtype bool count by value, all others by being neither missing nor infinite."
  },
  {
   "property": "C36",
   "status": "proved",
   "theorems": [
    "C36_expansion",
    "C36_at_most_one",
    "C36_exactly_one"
   ],
   "note": "parse_equations, extend_equation_list_with_expression_group, add_expression_group_combination and generate_expression_list are modelled on texts; the iteration order of Python sets is an arbitrary function that lists each element once."
  },
  {
   "property": "C37",
   "status": "partial",
   "theorems": [
    "C37_found",
    "C37_all_given_partial",
    "C37_refuted"
   ],
   "note": "Holds for references that are not below a sign. False otherwise: 'n + -$s' and a sub-expression '-a[carriers=$l]' are accepted but their references are not found and the build fails (C37_refuted)."
  },
  {
   "property": "C38",
   "status": "proved",
   "theorems": [
    "C38_entry",
    "C38_fails",
    "C38_order",
    "C38_component"
   ],
   "note": "_eval_equations, evaluate_where, drop_dims_not_in_foreach, evaluate_expression and the top-level where are modelled; arrays are functions of labels. Not treated: expressions over dimensions outside foreach (an error in the code). C38_fails assumes that helper functions depend on the entries of their arguments only."
  },
  {
   "property": "C39",
   "status": "partial",
   "theorems": [
    "C39_moved_partial",
    "C39_refuted"
   ],
   "note": "Holds for conditions over the dimensions of foreach. False for conditions over other dimensions, and for combinations outside the definition matrix (C39_refuted)."
  },
  {
   "property": "C40",
   "status": "proved",
   "theorems": [
    "C40_shift",
    "C40_other_dimension",
    "C40_back",
    "C40_add",
    "C40_round",
    "C40_total"
   ],
   "note": "Stated on calls as written in math texts, whatever condition the equation has. A dimension called 'array' cannot be rolled (keyword clash)."
  },
  {
   "property": "C41",
   "status": "proved",
   "theorems": [
    "C41_dimensions",
    "C41_value",
    "C41_nested",
    "C41_order",
    "C41_absent_dimension",
    "C41_groups",
    "C41_grouping_preserves_totals",
    "C41_datetime",
    "C41_reduce",
    "C41_where"
   ],
   "note": "Entries are rationals, truth values or missing. Groups add up to the overall sum if every entry has a group; otherwise to the sum of those that have one."
  },
  {
   "property": "C42",
   "status": "partial",
   "theorems": [
    "C42_window",
    "C42_full_window",
    "C42_rendering_refuted"
   ],
   "note": "The value is proved. The rendered formula has N+1 terms (C42_rendering_refuted)."
  },
  {
   "property": "C43",
   "status": "partial",
   "theorems": [
    "C43_update_series_partial",
    "C43_order_refuted",
    "C43_failed_update_refuted",
    "C43_build_order"
   ],
   "note": "C43_update_series_partial: after any sequence of updates that meets its side conditions (components noted in an order that stays usable, references not depending on the values) every component exists once, refers only to existing ones and has the references of a fresh build. Without them it is false: a second update can rebuild a component from stale ones (C43_order_refuted), and an update that fails leaves components deleted (C43_failed_update_refuted). The building of one component is an arbitrary reading program."
  },
  {
   "property": "C44",
   "status": "partial",
   "theorems": [
    "C44_update_first",
    "C44_update_series",
    "C44_update_numbers",
    "C44_built_values",
    "C44_condition_refuted",
    "C44_unnoted_refuted",
    "C44_some_dims_refuted"
   ],
   "note": "Equal to a fresh build for every math whose reading programs note what they read and, if the parameter is changed in place, do not read its value; for the first update, for series of updates that keep the stored order usable and (Gurobi) for plain numbers. A fresh build has the values of its inputs (C44_built_values). Refuted in general: a condition on the value is not evaluated again in place (C44_condition_refuted); inputs read without being noted, such as carrier_in (C44_unnoted_refuted); a new array with some of the dimensions is matched with the wrong axes (C44_some_dims_refuted)."
  },
  {
   "property": "C45",
   "status": "partial",
   "theorems": [
    "C45_partial",
    "C45_gurobi",
    "C45_failed_choice_refuted",
    "C45_unknown_name",
    "C45_unknown_name_refuted",
    "C45_condition_refuted"
   ],
   "note": "Pyomo: holds for every sequence of successful switches and rebuilds of objectives. False after a failing set_objective (the old objective is deactivated before the new one is looked up), for a configured name that is no objective (no check; no later choice can succeed) and if the condition of the current objective fails after an update. Gurobi: holds for failing calls, too."
  },
  {
   "property": "C46",
   "status": "partial",
   "theorems": [
    "C46_bounds",
    "C46_refused_partial",
    "C46_refused_refuted",
    "C46_labels_refuted",
    "C46_fix",
    "C46_fix_refused_partial",
    "C46_fix_refused_refuted",
    "C46_unfix"
   ],
   "note": "Bounds are exact if the new array has all labels of the variable or the labels are in ascending order, otherwise not (C46_labels_refuted). A refused update of both bounds may have changed the lower ones; refused fixing may have fixed some variables. Unfixing restores. The joins of labels by xarray and pandas are modelled from their documentation. New arrays have no dimensions that the variable lacks."
  },
  {
   "property": "C47",
   "status": "proved",
   "theorems": [
    "C47_checks",
    "C47_accepted"
   ],
   "note": "_check_inputs and print_warnings_and_raise_errors are modelled."
  },
  {
   "property": "C48",
   "status": "partial",
   "theorems": [
    "C48_formula_partial",
    "C48_sign_refuted",
    "C48_zero_refuted",
    "C48_sub_expression_refuted",
    "C48_condition_partial",
    "C48_condition_refuted"
   ],
   "note": "False in general: -(a+b) is shown as -a+b, 0-x as x, sub-expressions without brackets, p or q and r. Proved for all expressions and conditions that satisfy a syntactic criterion; the shipped math satisfies it (checked). Rounding of numbers to six digits and formulas of helper functions are not modelled."
  },
  {
   "property": "C49",
   "status": "partial",
   "theorems": [
    "C49_list_partial",
    "C49_warnings_partial",
    "C49_groups_partial",
    "C49_raised",
    "C49_empty_group_refuted",
    "C49_multiline_refuted"
   ],
   "note": "For one-line messages that do not look like list items. A dictionary with only empty lists raises, and multi-line messages are ambiguous (refuted by witnesses)."
  },
  {
   "property": "C50",
   "status": "proved",
   "theorems": [
    "C50_exactly_one",
    "C50_every_step"
   ],
   "note": "For all 15 combinations of shipped math files, all inputs and positions; a built balance has an equation at every entry its condition selects."
  },
  {
   "property": "C51",
   "status": "proved",
   "theorems": [
    "C51_step",
    "C51_level",
    "C51_cyclic",
    "C51_lossless",
    "C51_capacity"
   ],
   "note": "For base, operate and spores math with or without MILP, without clustering. A solution is a world whose variable values satisfy the built constraints; the non-negativity of the level is a variable bound and not part of the constraints. What remains after hours that are not whole numbers is numpy's power."
  },
  {
   "property": "C52",
   "status": "partial",
   "theorems": [
    "C52_node",
    "C52_link",
    "C52_balance_partial",
    "C52_losses",
    "C52_refuted"
   ],
   "note": "For all 15 combinations of shipped math files. Holds when each link carries one carrier; refuted for links with two carriers, which may turn one into the other. With losses the balance is an inequality. The refuting worlds are full solutions: all constraints, expressions, limits and domains of variables hold."
  },
  {
   "property": "C53",
   "status": "partial",
   "theorems": [
    "C53_partial",
    "C53_refuted"
   ],
   "note": "The minimum number of units is only enforced where a maximum number is given too: milp.yaml unit_capacity_min_systemwide_milp has the condition of the maximum (C53_refuted, a solution of all constraints)."
  },
  {
   "property": "C54",
   "status": "partial",
   "theorems": [
    "C54_partial",
    "C54_refuted"
   ],
   "note": "A solution is a world whose variable values satisfy the built constraints and expressions of the shipped math. total_generation weighs only exports (missing brackets in base.yaml): the value is given exactly, it is right if every weight is one (C54_partial), and wrong otherwise (C54_refuted, a solution of all constraints)."
  },
  {
   "property": "C55",
   "status": "partial",
   "theorems": [
    "C55_rule",
    "C55_one_rule",
    "C55_recovers",
    "C55_refuted"
   ],
   "note": "A solution is a world whose variable values satisfy the built constraints and expressions of the shipped math. Exactly one rule and full recovery for zero and positive interest and whole lifetimes. With a negative interest rate no rule applies and the investment is free (C55_refuted)."
  },
  {
   "property": "C56",
   "status": "partial",
   "theorems": [
    "C56_partial",
    "C56_refuted"
   ],
   "note": "Holds without linked clusters, for cyclic and other storage. With linked clusters it is refuted: the level carried into the first day is the fraction storage_initial itself (not times the capacity), and the first timestep starts from the fraction times the capacity again. The refuting worlds are full solutions: all constraints, expressions, limits and domains of variables hold."
  },
  {
   "property": "C57",
   "status": "proved",
   "theorems": [
    "C57_replace_block",
    "C57_replace_missing"
   ],
   "note": "One replacement block at any depth."
  },
  {
   "property": "C59",
   "status": "partial",
   "theorems": [
    "C59_expression_roles",
    "C59_where_roles",
    "C59_one_where_role_refuted"
   ],
   "note": "Expressions: one role. Where strings: one role for switched-on inputs and results; a switched-off name can be both input and result, and a dimension can also be an input."
  },
  {
   "property": "C60",
   "status": "partial",
   "theorems": [
    "C60_window_data_partial",
    "C60_lookups_refuted",
    "C60_no_storage"
   ],
   "note": "Proved for time-varying parameters; look-up arrays keep the data of the first window (refuted). C60_no_storage: without storage, and without conditions on gaps, every result is the one found for the data of its window alone."
  },
  {
   "property": "C61",
   "status": "proved",
   "theorems": [
    "C61_integer_scores"
   ],
   "note": ""
  },
  {
   "property": "C62",
   "status": "partial",
   "theorems": [
    "C62_links_partial",
    "C62_two_carriers_refuted"
   ],
   "note": "Proved for links with the same carriers at both ends. A link with different inflow and outflow carriers is dropped although both ends are selected (refuted by witness)."
  },
  {
   "property": "C63",
   "status": "partial",
   "theorems": [
    "C63_lp_only",
    "C63_run",
    "C63_prebuilt",
    "C63_feasible_refuted"
   ],
   "note": "Failure on request is exact with respect to the termination 'optimal'; a termination of 'feasible', which the solve step accepts, is reported as infeasible (refuted by witness)."
  },
  {
   "property": "C64",
   "status": "partial",
   "theorems": [
    "C64_partial",
    "C64_refuted",
    "C64_scalar_refuted"
   ],
   "note": "Holds if no summed dimension belongs to foreach or the condition. False otherwise: operands of arithmetic are masked and broadcast over foreach before the sum, plain names are not."
  },
  {
   "property": "C65",
   "status": "proved",
   "theorems": [
    "C65_select",
    "C65_select_nothing",
    "C65_value_at",
    "C65_value_from_start",
    "C65_value_from_end",
    "C65_any",
    "C65_defined",
    "C65_defined_in",
    "C65_defined_shown",
    "C65_documented_example_refuted",
    "C65_defined_shown_refuted",
    "C65_unknown_member"
   ],
   "note": "defined is proved for any number of searched dimensions. Beyond the statement: the documented example of defined, its promise on transmission base names and the formula shown for several dimensions do not hold."
  },
  {
   "property": "C66",
   "status": "proved",
   "theorems": [
    "C66_in_place",
    "C66_call_free",
    "C66_slices"
   ],
   "note": "Every call of a helper function included; slices given by reference take the entry at the label that their text has."
  },
  {
   "property": "C67",
   "status": "partial",
   "theorems": [
    "C67_partial",
    "C67_refuted"
   ],
   "note": "Holds for variables that do not refer to the updated input, directly or through others, and if only existing values change. Variables that are built again are new objects with the bounds of the definition, not fixed."
  },
  {
   "property": "C68",
   "status": "partial",
   "theorems": [
    "C68_partial",
    "C68_gurobi",
    "C68_gurobi_unsolved",
    "C68_one_label_refuted"
   ],
   "note": "Pyomo: holds if the condition has all labels of the variable. A condition for one label only fixes the variables of all labels. Gurobi: holds, and fixing before solving fails."
  },
  {
   "property": "C69",
   "status": "proved",
   "theorems": [
    "C69_accepted",
    "C69_no_overlap",
    "C69_troubles"
   ],
   "note": "For conditions that depend on the dimensions of their component. Annualised costs need finite interest rates (an infinite one makes two alternatives apply), the minimum outflow of technologies with units needs the condition of available_flow_cap. Building can still fail for lack of values, an error in a helper function or foreign dimensions (C69_troubles)."
  },
  {
   "property": "C70",
   "status": "proved",
   "theorems": [
    "C70_met",
    "C70_at_most",
    "C70_at_least"
   ],
   "note": "A solution is a world whose variable values satisfy the built constraints of the shipped math (all 15 combinations of files). Demand may be absolute, per area used or per installed capacity."
  },
  {
   "property": "C71",
   "status": "partial",
   "theorems": [
    "C71_continuous",
    "C71_units",
    "C71_refuted",
    "C71_solved"
   ],
   "note": "A solution is a world whose variable values satisfy the built constraints of the shipped math (all 15 combinations of files unless stated). Violated with MILP math: with integer_dispatch, cap_method=integer and flow_cap_max but no flow_cap_per_unit no constraint limits the flows (C71_refuted, a solution of all constraints). C71_solved states it for solutions (C96) without conditions on the variables."
  },
  {
   "property": "C72",
   "status": "proved",
   "theorems": [
    "C72_supply",
    "C72_limits",
    "C72_capacity"
   ],
   "note": "A solution is a world whose variable values satisfy the built constraints of the shipped math (all 15 combinations of files unless stated). The source is not shared among carriers: each output carrier gets the whole of it."
  },
  {
   "property": "C73",
   "status": "proved",
   "theorems": [
    "C73_running",
    "C73_capacity",
    "C73_investment",
    "C73_link",
    "C73_fixed",
    "C73_total",
    "C73_objective"
   ],
   "note": "A solution is a world whose variable values satisfy the built constraints and expressions of the shipped math. In operate mode the cost is the sum of the running costs (C73_total)."
  },
  {
   "property": "C74",
   "status": "partial",
   "theorems": [
    "C74_ramping",
    "C74_climb",
    "C74_hours_refuted"
   ],
   "note": "The limit is per timestep, not per hour as the unit of flow_ramping says: with half-hour steps a solution of all constraints changes twice as fast (C74_hours_refuted). C74_ramping and C74_climb give the limit as coded, for every shipped combination. There is no limit at the first timestep and clustered days that are not neighbours are limited too."
  },
  {
   "property": "C75",
   "status": "proved",
   "theorems": [
    "C75_balance",
    "C75_one_to_one"
   ],
   "note": "A solution is a world whose variable values satisfy the built constraints of the shipped math (all 15 combinations of files unless stated)."
  },
  {
   "property": "C76",
   "status": "proved",
   "theorems": [
    "C76_systemwide",
    "C76_area",
    "C76_storage",
    "C76_source",
    "C76_link",
    "C76_no_area"
   ],
   "note": "A solution is a world whose variable values satisfy the built constraints of the shipped math (all 15 combinations of files unless stated). The system-wide minimum for base math without MILP."
  },
  {
   "property": "C77",
   "status": "proved",
   "theorems": [
    "C77_export",
    "C77_depth"
   ],
   "note": "A solution is a world whose variable values satisfy the built constraints of the shipped math (all 15 combinations of files unless stated)."
  },
  {
   "property": "C78",
   "status": "proved",
   "theorems": [
    "C78_slack",
    "C78_no_costs",
    "C78_objective"
   ],
   "note": "A solution is a world whose variable values satisfy the built constraints and expressions of the shipped math. For the five combinations with the SPORES math."
  },
  {
   "property": "C79",
   "status": "proved",
   "theorems": [
    "C79_not_both",
    "C79_solved"
   ],
   "note": "A solution is a world whose variable values satisfy the built constraints of the shipped math (all 15 combinations of files unless stated). For the combinations with MILP math. C79_solved states it for solutions (C96) without conditions on the variables."
  },
  {
   "property": "C80",
   "status": "proved",
   "theorems": [
    "C80_units",
    "C80_limits",
    "C80_least"
   ],
   "note": "A solution is a world whose variable values satisfy the built constraints of the shipped math (all 15 combinations of files unless stated). For the combinations with MILP math."
  },
  {
   "property": "C81",
   "status": "proved",
   "theorems": [
    "C81_available"
   ],
   "note": "A solution is a world whose variable values satisfy the built constraints of the shipped math (all 15 combinations of files unless stated). For the combinations with MILP math; 'nothing available' is an upper limit, the lower one is the bound of the variable."
  },
  {
   "property": "C82",
   "status": "partial",
   "theorems": [
    "C82_refuted"
   ],
   "note": "The code violates the property: cost_om_annual times flow_cap is charged at both ends while the investment is halved."
  },
  {
   "property": "C83",
   "status": "proved",
   "theorems": [
    "C83_factor",
    "C83_systemwide",
    "C83_curtailment"
   ],
   "note": "A solution is a world whose variable values satisfy the built constraints and expressions of the shipped math. The capacity factor needs a parasitic efficiency of at most one and no integer operating units."
  },
  {
   "property": "C84",
   "status": "partial",
   "theorems": [
    "C84_partial",
    "C84_refuted"
   ],
   "note": "A solution is a world whose variable values satisfy the built constraints and expressions of the shipped math. The value is given exactly; right if every weight is one and nothing is exported; with other weights too high by the weight (C84_refuted: 4380 instead of 1)."
  },
  {
   "property": "C85",
   "status": "partial",
   "theorems": [
    "C85_cells",
    "C85_dims",
    "C85_no_loss",
    "C85_protected",
    "C85_wellformed",
    "C85_unnamed_refuted",
    "C85_select_refuted",
    "C85_definition",
    "C85_levels",
    "C85_levels_refused",
    "C85_labels",
    "C85_dropped",
    "C85_distinct",
    "C85_index",
    "C85_flags"
   ],
   "note": "Proved for frames with a single column (row) if no dimension is defined for the columns (rows). With several, a dimension without a name is added (C85_unnamed_refuted); selecting from a dimension the table does not have is silently ignored (C85_select_refuted)."
  },
  {
   "property": "C86",
   "status": "partial",
   "theorems": [
    "C86_partial",
    "C86_refuted"
   ],
   "note": "Holds if tables on one frame name its levels in the same way; otherwise the in-place rename_axis makes a table fail that loads alone, and the caller's frame is changed."
  },
  {
   "property": "C87",
   "status": "partial",
   "theorems": [
    "C87_nodes",
    "C87_refusal",
    "C87_inactive_refuted",
    "C87_definition_wins",
    "C87_no_links"
   ],
   "note": "A technology that is switched off but has node data in a table makes loading fail with a KeyError (C87_inactive_refuted)."
  },
  {
   "property": "C88",
   "status": "partial",
   "theorems": [
    "C88_lookup",
    "C88_false_refuted",
    "C88_override_refuted",
    "C88_technologies",
    "C88_other_dimensions",
    "C88_taken_out"
   ],
   "note": "Labels with any entry are taken, also with False or 0 (C88_false_refuted); a second table with base_tech, link ends or a lookup of the same technology is a KeyError instead of overriding (C88_override_refuted)."
  },
  {
   "property": "C89",
   "status": "partial",
   "theorems": [
    "C89_source",
    "C89_only",
    "C89_techs",
    "C89_nodes",
    "C89_inactive_refuted",
    "C89_order_refuted"
   ],
   "note": "C89_source is for settings that are no dictionaries and for listed technologies (links are C24). C89_techs and C89_nodes are for arrays with no further dimensions than the setting: a setting without index next to indexed ones of other technologies is copied to some of the labels only, depending on the order (C89_order_refuted). A technology that is switched off but has settings at a node is a KeyError (C89_inactive_refuted)."
  },
  {
   "property": "C90",
   "status": "proved",
   "theorems": [
    "C90_override",
    "C90_others"
   ],
   "note": "For positions of the dataset built so far; settings with an empty list of dimensions must be plain values."
  },
  {
   "property": "C91",
   "status": "proved",
   "theorems": [
    "C91_colors",
    "C91_distinct",
    "C91_distance",
    "C91_others",
    "C91_refusal"
   ],
   "note": "The geodesic formula is a parameter."
  },
  {
   "property": "C92",
   "status": "partial",
   "theorems": [
    "C92_step",
    "C92_level",
    "C92_carriers",
    "C92_refuted"
   ],
   "note": "C92_step and C92_level hold for each output carrier, so they are the property for a single one, without clustered timesteps. With several output carriers each gets the full amount (C92_carriers): a solution of all constraints gives out more than was there and came in (C92_refuted)."
  },
  {
   "property": "C93",
   "status": "partial",
   "theorems": [
    "C93_partial",
    "C93_weights_refuted",
    "C93_constant_refuted"
   ],
   "note": "C93_partial is the property for limits given as a series and timesteps of equal weight. Weights are ignored otherwise (C93_weights_refuted, a solution of all constraints); a constant limit is counted once instead of once per timestep, which makes the result negative (C93_constant_refuted)."
  },
  {
   "property": "C94",
   "status": "partial",
   "theorems": [
    "C94_partial",
    "C94_refuted"
   ],
   "note": "C94_partial gives the exact value, which is the property with a single carrier. With several carriers the costs of the whole system are charged to each of them (C94_refuted, a solution of all constraints)."
  },
  {
   "property": "C95",
   "status": "proved",
   "theorems": [
    "C95_unmet"
   ],
   "note": "Exact value of the result, for every shipped combination; `network` asks for proper labels and numbers in the arrays of the flows, and nothing about the technologies."
  },
  {
   "property": "C96",
   "status": "proved",
   "theorems": [
    "C96_capacities",
    "C96_bought",
    "C96_flows",
    "C96_slack",
    "C96_store",
    "C96_switches",
    "C96_nowhere_negative"
   ],
   "note": "`solution` is a world in which every active constraint and expression holds and every active variable has a value exactly where add_variable builds one, within its limits and domain. C96_capacities is for planning without units, C96_bought with units (there the upper limits of a technology stay in force however many units are bought). C96_store is for the formulations without clusters; with clusters the level within a day may be negative by design."
  },
  {
   "property": "C97",
   "status": "partial",
   "theorems": [
    "C97_scores",
    "C97_unlimited",
    "C97_undefined_refuted"
   ],
   "note": "Steps of all four algorithms proved for fresh runs (C61 gives the closed form for integer scores). Refused when there are no largest capacities or an infinite one; a missing one for a tracked technology is accepted and never scores, against the text of the error (refuted)."
  },
  {
   "property": "C98",
   "status": "partial",
   "theorems": [
    "C98_subset_partial",
    "C98_range",
    "C98_pair",
    "C98_month_refuted",
    "C98_empty_refuted"
   ],
   "note": "Proved whenever the end names a day or part of one; what is accepted is always cut to the inclusive range. Refuted otherwise: an end naming a month is judged by the first of the month, so a month with data from the fifth is refused; reversed ranges and ranges between steps are accepted and leave no time steps."
  },
  {
   "property": "C99",
   "status": "partial",
   "theorems": [
    "C99_again",
    "C99_totals",
    "C99_two_steps_partial",
    "C99_cluster_kept",
    "C99_means_refuted",
    "C99_record_refuted",
    "C99_inferred"
   ],
   "note": "Opening again, totals over any history of resolutions, and the fixed clustering are proved. Two steps equal one for sums and first values; not for means (refuted: mean of means). The record does not list what was applied: taking a resolution or subset back clears it but not its effect (refuted)."
  },
  {
   "property": "C100",
   "status": "partial",
   "theorems": [
    "C100_curve_partial",
    "C100_function",
    "C100_refused",
    "C100_inactive",
    "C100_rebuild",
    "C100_gaps_refuted",
    "C100_rebuild_refuted",
    "C100_failed_refuted",
    "C100_solvers_partial",
    "C100_solvers_refuted"
   ],
   "note": "Proved for Pyomo if the values of x and y are missing at the same breakpoints (the weights of the library's formulation are proved equivalent to the pieces). Refuted: missing values at different breakpoints shift the pairs; Gurobi keeps the old curve when the constraint is built again, and objects made before an error; beyond the breakpoints Pyomo allows nothing and Gurobi continues the curve. The formulations of the two libraries and their further checks are taken from their documentation. Changes of values in place are not covered."
  },
  {
   "property": "C101",
   "status": "partial",
   "theorems": [
    "C101_default_partial",
    "C101_given",
    "C101_others_partial",
    "C101_others_refuted",
    "C101_condition_partial",
    "C101_condition_refuted"
   ],
   "note": "Proved for all inputs that are not boolean, for booleans with default false and for inputs given nowhere. Refuted for cyclic_storage (default true): gaps of boolean inputs are filled with False when the model is opened, so setting it for one technology switches it off for all others. The name of a lookup with a default holds everywhere as long as it is given nowhere, and only where given otherwise."
  },
  {
   "property": "C102",
   "status": "partial",
   "theorems": [
    "C102_kept",
    "C102_typed",
    "C102_again",
    "C102_refused",
    "C102_undeclared",
    "C102_text_refuted",
    "C102_ambiguous",
    "C102_whole"
   ],
   "note": "Everything but the last sentence is proved. A boolean input given as text is on whatever the text says, as in tables whose columns hold texts and booleans (refuted). Texts of numbers and the reading of numbers and dates from text are left open (any function). Missing booleans become false (see C101)."
  },
  {
   "property": "C103",
   "status": "partial",
   "theorems": [
    "C103_prices_partial",
    "C103_asked",
    "C103_cbc_partial",
    "C103_integer_partial",
    "C103_gurobi",
    "C103_stale_refuted",
    "C103_integer_refuted",
    "C103_rebuilt",
    "C103_untouched"
   ],
   "note": "Pyomo: proved for solvers other than CBC and problems without integer variables after any history, for models only ever solved with CBC and for models that always had integer variables; Gurobi: proved. Refuted: after a solve with shadow prices, solving again with CBC keeps the constraints tracked and reports the prices of the earlier solution; integer variables added later do not switch tracking off. That loading a solution clears active suffixes only is taken from the Pyomo library."
  },
  {
   "property": "C104",
   "status": "partial",
   "theorems": [
    "C104_coordinates_partial",
    "C104_coordinates_refuted",
    "C104_index_partial",
    "C104_index_refuted"
   ],
   "note": "Characterised exactly for all coordinates and for all index lists of labels or of lists of labels. Refuted: a position with a whole degree for one coordinate and a fraction for the other (54 and 2.5) is refused because int and float differ; an index entry that names the same label in two dimensions is refused. Texts that pydantic would turn into numbers are not modelled."
  },
  {
   "property": "C105",
   "status": "partial",
   "theorems": [
    "C105_mirror",
    "C105_valid",
    "C105_all_partial",
    "C105_used_in",
    "C105_inputs",
    "C105_used_in_partial",
    "C105_written_partial",
    "C105_inactive_partial",
    "C105_all_refuted",
    "C105_letter_refuted",
    "C105_links_refuted",
    "C105_deactivated_refuted",
    "C105_inactive_refuted"
   ],
   "note": "Proved: mirror property for any math; exact contents with \"valid\"; all equations of applying components with \"all\"; exact list of references. Refuted: with \"all\" a component that applies nowhere is shown without equations; with \"valid\" references may point to components not shown; a bound given by a one-letter parameter whose letter is in the variable's name is not listed; a math with a deactivated, not replaced variable cannot be documented; deactivated piecewise constraints are shown."
  },
  {
   "property": "C106",
   "status": "partial",
   "theorems": [
    "C106_results_partial",
    "C106_deactivated_refuted",
    "C106_replaced_refuted",
    "C106_hidden_refuted",
    "C106_price_refuted"
   ],
   "note": "Proved if no name is used twice, not even by deactivated components. The schema demands this for active components only, and then: a deactivated postprocessed array removes the results of the variable of its name; a postprocessed array that takes the name of a deactivated variable makes loading fail; a deactivated parameter hides the variable of its name from postprocessing; a variable named shadow_price_x is replaced by the price of constraint x."
  },
  {
   "property": "C107",
   "status": "partial",
   "theorems": [
    "C107_checks",
    "C107_refused",
    "C107_active",
    "C107_coordinates_refuted",
    "C107_export_refuted",
    "C107_infinite_refuted",
    "C107_cyclic_refuted",
    "C107_depth_refuted",
    "C107_severity"
   ],
   "note": "Proved for any inputs: what each of the 19 checks is about, and that the model is refused or warned about exactly then. Refuted where message and condition differ: a node with a latitude and no longitude passes; a technology may export a carrier it has nothing to do with (the check only looks at carriers it uses); a demand of minus infinity and an infinite initial storage pass; a clustered model without any storage is refused because cyclic_storage is on by default; storage_discharge_depth is said to have no effect with clustered time but still limits storage."
  },
  {
   "property": "C108",
   "status": "partial",
   "theorems": [
    "C108_within",
    "C108_next",
    "C108_cyclic",
    "C108_limits",
    "C108_loss",
    "C108_start",
    "C108_loss_refuted",
    "C108_refuted",
    "C108_initial_refuted"
   ],
   "note": "Proved for any world with linked clusters: within a date the content follows charging and discharging; without losses the next date starts with it, and cyclic storage gives back over all dates what it took; the content stays within [0, storage_cap] if the days have 24 hours; C108_loss says exactly what the next date starts with. Refuted: with losses the next date starts with more than remains, since what the day itself added loses nothing in its last timestep; without cyclic storage the initial storage is handed out on every date that the first day represents; with cyclic storage the first date does not start with storage_initial * storage_cap, since set_storage_initial leaves out what the last date adds. C108_within excludes the first timestep of non-cyclic storage (that is where the refutation arises). C108_start says exactly what non-cyclic storage starts with: the first date with the fraction storage_initial itself (not multiplied by the capacity), and every date of the first day with storage_initial * storage_cap on top."
  },
  {
   "property": "C109",
   "status": "partial",
   "theorems": [
    "C109_within",
    "C109_first",
    "C109_day",
    "C109_loss",
    "C109_year",
    "C109_refuted",
    "C109_initial_refuted"
   ],
   "note": "Proved for any world without linked clusters: within a day the level follows charging and discharging and the day starts with what remains at its own end (C109_within; the first day of non-cyclic storage starts with storage_initial * storage_cap, C109_first); a day gives back what it takes without losses and no more with losses; over all dates, weighted by timestep_weights, cyclic storage without losses gives back what it took. Refuted: for non-cyclic storage the initial storage counts once for each date the first day stands for; for cyclic storage the first day does not start with storage_initial * storage_cap, since set_storage_initial fixes the end of the last representative day only."
  },
  {
   "property": "C110",
   "status": "partial",
   "theorems": [
    "C110_linked",
    "C110_days",
    "C110_unlinked",
    "C110_dates",
    "C110_refuted"
   ],
   "note": "Proved for any clustering whose representative days are in the data from midnight on: the arrays describe runs of timesteps that are the times of the representative days (C110_linked, C110_days; the weights count all dates), and with the shipped constraints cyclic storage without losses gives back over all dates what it took (C110_unlinked, C110_dates). Refuted without the condition on midnight: if all times are half past the hour, the starts of days are not looked up, and with linked clusters a full solution gives out energy that was never taken in."
  },
  {
   "property": "C111",
   "status": "partial",
   "theorems": [
    "C111_array",
    "C111_saved",
    "C111_refused",
    "C111_run",
    "C111_lost_refuted",
    "C111_stale_refuted"
   ],
   "note": "Proved: files hold their arrays (C111_array), all files of inputs, results and attributes are there and nothing else changes (C111_saved), refusal without permission to overwrite (C111_refused), saving by the run command to paths not in use (C111_run). Refuted: the run command given an existing directory for CSV solves and then saves nothing, also not to the netCDF file (C111_lost_refuted); with permission to overwrite, results of an earlier model can be next to a model without results (C111_stale_refuted, a documented mix)."
  },
  {
   "property": "C112",
   "status": "partial",
   "theorems": [
    "C112_window",
    "C112_run_partial",
    "C112_energy",
    "C112_run_refuted"
   ],
   "note": "Proved: any world that satisfies balance_storage is what the theorems on the run (C18) ask of a solver (C112_window); the trajectory of the run obeys the balance except that nothing is lost in the first timestep of a window (C112_run_partial); without losses energy is conserved over the whole run (C112_energy). Refuted: with losses the trajectory breaks the balance although every window obeys it (C112_run_refuted)."
  },
  {
   "property": "C113",
   "status": "partial",
   "theorems": [
    "C113_reported",
    "C113_stopped_refuted"
   ],
   "note": "Proved for fresh runs: the reported condition is a list with commas of the different conditions of the solver calls behind the results (C113_reported). Refuted: a run that stops early because a spore is infeasible reports \"optimal\", since the infeasible call is not among the results (C113_stopped_refuted)."
  },
  {
   "property": "C114",
   "status": "partial",
   "theorems": [
    "C114_messages_partial",
    "C114_solver_partial",
    "C114_warnings_partial",
    "C114_once_refuted",
    "C114_zero_refuted",
    "C114_refused_refuted"
   ],
   "note": "Proved for verbosities other than 0, whatever was set before, for loggers that others left alone: one console writes the messages asked for, next to the handlers of Python itself. Refuted: with a handler of Python's root logger messages are written twice; verbosity 0 hides messages below a warning; a refused verbosity has effects. Loggers that are disabled or do not propagate are not modelled."
  }
 ]
}
