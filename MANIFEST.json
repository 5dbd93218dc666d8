{
 "claims": [
  {
   "property": "C01",
   "status": "proved",
   "theorems": [
    "C01_status_eq_names",
    "C01_partition",
    "C01_limit_predicates",
    "C01_isLimitsReached_all_ends_refuted",
    "C01_every_status_has_message_refuted",
    "C01_worst_status"
   ],
   "note": "Partition proved for every status; two findings: isLimitsReached omits the time limit, and the two safety violations have no message."
  },
  {
   "property": "C02",
   "status": "proved",
   "theorems": [
    "C02_interpolation_value",
    "C02_interpolation_knots",
    "C02_interpolation_bounded",
    "C02_interpolation_monotone",
    "C02_outside_rejected",
    "C02_outside_clamped",
    "C02_interior_no_out_of_range_read",
    "C02_nan_query_refuted"
   ],
   "note": "Over the reals for the search path; any carrier for rejection and for interior reads. Finding: a NaN query is undefined behaviour."
  },
  {
   "property": "C03",
   "status": "partial",
   "theorems": [
    "C03_shortcut_equals_search_partial",
    "C03_shortcut_differs_refuted",
    "C03_shortcut_out_of_range_refuted",
    "C03_decimal_refuted",
    "C03_accepted_tables"
   ],
   "note": "Equality proved for exactly uniform tables; refuted for tables that check_is_fixed accepts within its 1 percent tolerance."
  },
  {
   "property": "C04",
   "status": "proved",
   "theorems": [
    "C04_linspace_length",
    "C04_linspace_values",
    "C04_linspace_ends",
    "C04_linspace_forms_agree",
    "C04_prev_next",
    "C04_forms_agree_double_refuted"
   ],
   "note": "Finding: in doubles the two grid constructors disagree in the last bits."
  },
  {
   "property": "C05",
   "status": "proved",
   "theorems": [
    "C05_histogram_conserves",
    "C05_histogram_bins",
    "C05_histogram_order_irrelevant",
    "C05_default_histogram_refuted",
    "C05_nan_or_far_sample_refuted",
    "C05_double_edge_misbinned_refuted",
    "C05_double_edge_missing_refuted",
    "C05_edges"
   ],
   "note": "Over the reals every sample lands in its bin, counts are conserved; findings: default histogram, NaN/far samples, double rounding at edges."
  },
  {
   "property": "C06",
   "status": "proved",
   "theorems": [
    "C06_each_index_once",
    "C06_same_state_as_serial",
    "C06_unknown_hardware_refuted",
    "C06_overflow_refuted"
   ],
   "note": "All positive hardware concurrencies with int arithmetic in range. Findings: unknown hardware concurrency runs nothing; a range ending at INT_MAX overflows."
  },
  {
   "property": "C07",
   "status": "partial",
   "theorems": [
    "C07_push_and_get_partial",
    "C07_push_full_refuted",
    "C07_interval_drops_last_refuted"
   ],
   "note": "Proved up to the capacity. Findings: the push after the capacity writes outside the storage; interval views drop the last element."
  },
  {
   "property": "C08",
   "status": "proved",
   "theorems": [
    "C08_restore",
    "C08_last_added_wins"
   ],
   "note": "Any history of additions and mutations."
  },
  {
   "property": "C09",
   "status": "partial",
   "theorems": [
    "C09_one_batch_rows_partial",
    "C09_samples_in_order",
    "C09_buffer_emptied",
    "C09_batches_glued_refuted",
    "C09_cell_file_glued_refuted"
   ],
   "note": "Order and completeness proved for all batch splits, row structure for one batch; findings: later batches are glued to the previous one."
  },
  {
   "property": "C10",
   "status": "partial",
   "theorems": [
    "C10_independent_partial",
    "C10_same_behaviour",
    "C10_identifiers_refuted"
   ],
   "note": "Copies are alike, live in fresh memory and are independent under every interleaving of operations on parts. The identifier clause is false: the parent pointers of a copy's parts still point to the original module (C10_identifiers_refuted)."
  },
  {
   "property": "C11",
   "status": "proved",
   "theorems": [
    "C11_decision_table",
    "C11_reported_voltage",
    "C11_tight_hard_limit_refuted",
    "C11_nan_voltage_refuted"
   ],
   "note": "Limits must contain the soft band including its margin. Findings: hard limits tighter than that are masked; a NaN voltage is reported as Success."
  },
  {
   "property": "C12",
   "status": "proved",
   "theorems": [
    "C12_setCurrent_atomic",
    "C12_setCurrent_status",
    "C12_setVoltage_atomic",
    "C12_setVoltage_throw_atomic",
    "C12_setSOC_atomic",
    "C12_setSOC_status",
    "C12_setStates_atomic",
    "C12_setCurrent_returns"
   ],
   "note": "Any carrier."
  },
  {
   "property": "C13",
   "status": "proved",
   "theorems": [
    "C13_roundtrip",
    "C13_invalid_rejected",
    "C13_short_span_refuted",
    "C13_valid_range"
   ],
   "note": "Any carrier. Finding: a short span is read out of bounds."
  },
  {
   "property": "C14",
   "status": "proved",
   "theorems": [
    "C14_accounting",
    "C14_steps_return",
    "C14_pack",
    "C14_pack_times"
   ],
   "note": "Over the reals, for every history of commands and steps."
  },
  {
   "property": "C15",
   "status": "proved",
   "theorems": [
    "C15_relaxation",
    "C15_bounded",
    "C15_long_step_refuted",
    "C15_pack"
   ],
   "note": "Over the reals. Finding: steps beyond twice the time constant diverge."
  },
  {
   "property": "C16",
   "status": "proved",
   "theorems": [
    "C16_compose",
    "C16_zero_and_negative",
    "C16_step_frame",
    "C16_rescaled_step_refuted"
   ],
   "note": "Any carrier, hence bit for bit in doubles."
  },
  {
   "property": "C17",
   "status": "proved",
   "theorems": [
    "C17_delivers",
    "C17_low_voltage_accepted_refuted"
   ],
   "note": "Over the reals."
  },
  {
   "property": "C18",
   "status": "partial",
   "theorems": [
    "C18_commands_keep_soc_partial",
    "C18_leaving_is_detected",
    "C18_step_leaves_range_refuted",
    "C18_nan_soc_refuted"
   ],
   "note": "Commands keep the range over the reals; leaving through time steps is silent at the step (refuted) but detected by every later check; NaN is accepted (refuted)."
  },
  {
   "property": "C19",
   "status": "partial",
   "theorems": [
    "C19_setCurrent_rejected",
    "C19_setCurrent_accepted",
    "C19_setSOC_rejected",
    "C19_setStates_rejected",
    "C19_exceptions",
    "C19_setVoltage_success",
    "C19_setStates_exception_refuted",
    "C19_nan_current_refuted",
    "C19_setVoltage_refuted"
   ],
   "note": "Bad status: proved for setCurrent, setSOC, setStates on any carrier, with the effect of an accepted setCurrent and the list of exceptions; refuted for the exception of setStates (negative lost lithium stays installed), for a not-a-number current and for setVoltage beyond reach (undefined behaviour). setVoltage success is within 1 microvolt."
  },
  {
   "property": "C20",
   "status": "partial",
   "theorems": [
    "C20_fresh_partial",
    "C20_fresh_nodeg_partial",
    "C20_constructed",
    "C20_setT_refuted",
    "C20_characterisation_refuted",
    "C20_curves_refuted",
    "C20_degradation_refuted"
   ],
   "note": "Proved for every history without temperature, characterisation or curve changes and with degradation blocked (any carrier) or absent (reals); refuted for setT, setCharacterisationParam, setOCVcurve and degrading time steps."
  },
  {
   "property": "C21",
   "status": "proved",
   "theorems": [
    "C21_accounting",
    "C21_never_decrease"
   ],
   "note": "Over the reals, any degradation and thermal model; the monotonicity theorem also covers calls that fail or throw."
  },
  {
   "property": "C22",
   "status": "proved",
   "theorems": [
    "C22_superposition",
    "C22_flux_balance",
    "C22_inventory",
    "C22_rest",
    "C22_relaxation",
    "C22_long_step_refuted"
   ],
   "note": "Over the reals: superposition along any profile, flux balance, inventory of the mean mode, inertness at rest, relaxation. Finding: longer steps diverge."
  },
  {
   "property": "C23",
   "status": "partial",
   "theorems": [
    "C23_no_model",
    "C23_monotone_partial",
    "C23_default_rates",
    "C23_negative_steps_refuted",
    "C23_zero_step_refuted"
   ],
   "note": "Over the reals, nonnegative exponential and rate parameters, while the anode exists; refuted for negative step counts and for zero-length steps with crack model 1."
  },
  {
   "property": "C24",
   "status": "partial",
   "theorems": [
    "C24_layout",
    "C24_round",
    "C24_round_checked",
    "C24_round_aged_partial",
    "C24_lam4_refuted",
    "C24_short_refuted"
   ],
   "note": "Layout and round trip for any carrier for states the cell's own check accepts; aged states over the reals except active-material-loss model 4 (refuted: the cell rejects its own vector). Short vectors are read beyond their end."
  },
  {
   "property": "C25",
   "status": "partial",
   "theorems": [
    "C25_factors_partial",
    "C25_capacity_partial",
    "C25_resistance_partial",
    "C25_degradation_factors_refuted",
    "C25_readback_refuted"
   ],
   "note": "Capacity and resistance factors proved (also behaviourally for capacity); degradation factors have no effect and cannot be read back (refuted)."
  },
  {
   "property": "C26",
   "status": "partial",
   "theorems": [
    "C26_capacity",
    "C26_voltage_limits",
    "C26_current",
    "C26_open_circuit_voltage",
    "C26_voltage",
    "C26_resistance",
    "C26_cell_count_partial",
    "C26_cell_count_refuted"
   ],
   "note": "Capacity, limits, current, OCV, voltage and resistance hold for every tree; the cell count is right when the children are complete when added, and a later inner setSUs is not counted (C26_cell_count_refuted)."
  },
  {
   "property": "C27",
   "status": "partial",
   "theorems": [
    "C27_accepted",
    "C27_rejected_partial",
    "C27_rejected_refuted"
   ],
   "note": "Acceptance proved for every depth and carrier. The rejection half is false of the code: the first child keeps the new current (C27_rejected_refuted); everything outside the first child is restored (C27_rejected_partial)."
  },
  {
   "property": "C28",
   "status": "proved",
   "theorems": [
    "C28_roundtrip"
   ],
   "note": "For every tree of equivalent-circuit cells and any carrier."
  },
  {
   "property": "C29",
   "status": "partial",
   "theorems": [
    "C29_refuted",
    "C29_flat_partial",
    "C29_tree_partial"
   ],
   "note": "False of the code (C29_refuted: the children before the failing one keep the new states). C29_tree_partial: in every tree, one child rejected, those in front keep what they took over, those behind are untouched; C29_flat_partial: in a flat module the rejecting cell is as before too."
  },
  {
   "property": "C30",
   "status": "partial",
   "theorems": [
    "C30_unit_history_partial",
    "C30_module_history_partial",
    "C30_child_call_refuted",
    "C30_throw_refuted"
   ],
   "note": "Holds for every history of calls on the root (module), not for calls on the children behind its back or after an exception (two refuted theorems)."
  },
  {
   "property": "C31",
   "status": "proved",
   "theorems": [
    "C31_ladder",
    "C31_terminal"
   ],
   "note": "Ladder drop for every branch, terminal voltage for the module."
  },
  {
   "property": "C32",
   "status": "partial",
   "theorems": [
    "C32_redistribute_partial",
    "C32_time_step_partial",
    "C32_setVoltage_partial",
    "C32_one_branch_partial",
    "C32_total_refuted",
    "C32_voltages_refuted",
    "C32_restore_refuted"
   ],
   "note": "What success guarantees after redistribution, time steps and setVoltage is proved; setCurrent may report success with a wrong total or unequal voltages, and failures do not restore (three refuted theorems)."
  },
  {
   "property": "C33",
   "status": "proved",
   "theorems": [
    "C33_every_cell_steps",
    "C33_same_time",
    "C33_any_schedule"
   ],
   "note": "Every cell steps once per step; every schedule of the worker threads gives the serial result."
  },
  {
   "property": "C34",
   "status": "partial",
   "theorems": [
    "C34_parallel_step_partial",
    "C34_series_history_partial",
    "C34_parallel_refuted"
   ],
   "note": "Series modules over every history. Parallel modules: C34_parallel_step_partial gives the law a step follows in every tree (currents piled up from resistance to resistance), right when only the first resistance is not zero and never too little for currents of one sign; wrong in general (C34_parallel_refuted)."
  },
  {
   "property": "C35",
   "status": "partial",
   "theorems": [
    "C35_extremes_partial",
    "C35_refuted"
   ],
   "note": "Correct when no module voltage limit lies beyond the cell voltages; otherwise false (C35_refuted)."
  },
  {
   "property": "C36",
   "status": "partial",
   "theorems": [
    "C36_battery_partial",
    "C36_direct_children_partial",
    "C36_nested_refuted"
   ],
   "note": "Direct children only; nested modules are not reached (C36_nested_refuted)."
  },
  {
   "property": "C37",
   "status": "proved",
   "theorems": [
    "C37_worst_status",
    "C37_success_iff",
    "C37_voltage"
   ],
   "note": "For every tree and carrier."
  },
  {
   "property": "C38",
   "status": "proved",
   "theorems": [
    "C38_path",
    "C38_unique",
    "C38_separator_needed"
   ],
   "note": "Full names spell the path and are unique; C38_separator_needed shows that the condition on the separator is needed."
  },
  {
   "property": "C39",
   "status": "proved",
   "theorems": [
    "C39_temperature_in_range",
    "C39_command"
   ],
   "note": "Any carrier: after every history of calls the coolant temperature is a number in [273 K, 348 K]; a command outside it throws and changes nothing."
  },
  {
   "property": "C40",
   "status": "proved",
   "theorems": [
    "C40_hysteresis",
    "C40_proportional",
    "C40_open_as_made",
    "C40_open_has_no_flow"
   ],
   "note": "Over the reals, for every temperature history and both on/off strategies, and for proportional control."
  },
  {
   "property": "C41",
   "status": "proved",
   "theorems": [
    "C41_battery",
    "C41_books_balance",
    "C41_query"
   ],
   "note": "For every tree and every history."
  },
  {
   "property": "C42",
   "status": "partial",
   "theorems": [
    "C42_power_bounded",
    "C42_proportional_partial",
    "C42_onoff",
    "C42_switch_on_fraction_refuted"
   ],
   "note": "Over the reals; the bound is invariant over all histories. The proportional law is proved away from the switch-on instant; at switch-on the code takes a fraction that ignores the bound argument order (finding, refuted)."
  },
  {
   "property": "C43",
   "status": "proved",
   "theorems": [
    "C43_battery",
    "C43_coolant_balance",
    "C43_children_only",
    "C43_tree",
    "C43_isolated"
   ],
   "note": "Coupled update of every tree of single-particle cells over the reals (C43_tree, C43_isolated): exchanges cancel, heat content grows by generated heat and what neighbours give, less the air conditioning. Coolant balance, battery container and the refusals of air-conditioned systems besides. Cells must have waited as long as the caller says (the code accepts a second of difference)."
  },
  {
   "property": "C44",
   "status": "partial",
   "theorems": [
    "C44_positive",
    "C44_documented_partial",
    "C44_documented_refuted",
    "C44_law",
    "C44_as_made",
    "C44_conduction"
   ],
   "note": "Over the reals, for every rating, voltage and current: at least 981 W per inverter. The documented 1.5 kW hold only at rest and when charging (C44_documented_partial); C44_documented_refuted is a discharge with less. The exact loss law per inverter and the converter as made are proved."
  },
  {
   "property": "C45",
   "status": "partial",
   "theorems": [
    "C45_scaling",
    "C45_power",
    "C45_command",
    "C45_readback_partial",
    "C45_extremes_refuted",
    "C45_checked",
    "C45_construction"
   ],
   "note": "All terminal quantities follow from the tree's by the circuit laws of the s x p arrangement (any tree, reals). Reading back an accepted current is proved for series trees (C45_readback_partial); parallel modules need not carry the commanded current (C32). Battery::getVhigh/getVlow are no cell voltages (C45_extremes_refuted)."
  },
  {
   "property": "C46",
   "status": "proved",
   "theorems": [
    "C46_books",
    "C46_once"
   ],
   "note": "Any sequence of calls on a battery over any storage-unit interface, including failing ones; the loss of a step is the loss at its end times its duration, as the code integrates it."
  },
  {
   "property": "C47",
   "status": "partial",
   "theorems": [
    "C47_roundtrip_partial",
    "C47_continuation_refuted",
    "C47_short_refuted",
    "C47_refusal_refuted"
   ],
   "note": "Round trip proved when nothing follows the states in the span. Missing: the span is not consumed and the temperature is taken from its end (C47_continuation_refuted), and a refusal changes the temperature (C47_refusal_refuted)."
  },
  {
   "property": "C48",
   "status": "proved",
   "theorems": [
    "C48_observer",
    "C48_rest",
    "C48_rest_any"
   ],
   "note": "Any unit, any dt>0, any time, over the reals: exact time, zero current, termination; any arithmetic (doubles): the steps summed in order reach the time, exceed it by less than 1 s and are what is reported."
  },
  {
   "property": "C49",
   "status": "partial",
   "theorems": [
    "C49_time",
    "C49_books_partial",
    "C49_last_step_refuted"
   ],
   "note": "Time limit proved for any unit. Accounting proved for runs that report a limit; C49_last_step_refuted: the step after which the voltage check fails is simulated but not accounted."
  },
  {
   "property": "C50",
   "status": "partial",
   "theorems": [
    "C50_reached_partial",
    "C50_inside",
    "C50_charge_refuted",
    "C50_safety_refuted",
    "C50_past"
   ],
   "note": "Proved for discharges, for charges from below the limit and whenever a step was taken. C50_charge_refuted: charging from above the limit reports a limit that is not reached. C50_safety_refuted: in non-diagnostic mode the safety limit is not checked against the voltage of the run."
  },
  {
   "property": "C51",
   "status": "partial",
   "theorems": [
    "C51_ends_partial",
    "C51_double_refuted",
    "C51_time_refuted",
    "C51_time_never",
    "C51_setpoint_refuted"
   ],
   "note": "End conditions, duration, charge and energy proved over the reals. Refuted: reported time (never updated), doubles (throws 100 when the steps sum to less than the time), set point (a refused setVoltage is ignored)."
  },
  {
   "property": "C52",
   "status": "partial",
   "theorems": [
    "C52_sum_partial",
    "C52_duration_partial",
    "C52_time_refuted"
   ],
   "note": "Charge and energy are the phases' sums; duration respected up to one step. C52_time_refuted: time of the CV phase missing and the time limit exceeded."
  },
  {
   "property": "C53",
   "status": "partial",
   "theorems": [
    "C53_capacity_partial",
    "C53_restore_refuted"
   ],
   "note": "Failed tests restore the states; successful ones do not (C53_restore_refuted)."
  },
  {
   "property": "C54",
   "status": "proved",
   "theorems": [
    "C54_bound",
    "C54_lossless",
    "C54_two_cyclers_refuted"
   ],
   "note": "One cycler: at most CELL_NDATA_MAX data points pending at every moment, after any sequence of calls. Content: file blocks and buffer hold every data point in order. C54_two_cyclers_refuted: with two cyclers on one unit the bound does not hold."
  },
  {
   "property": "C55",
   "status": "proved",
   "theorems": [
    "C55_visit"
   ],
   "note": "Any tree including batteries; order is reading order of paths."
  },
  {
   "property": "C56",
   "status": "partial",
   "theorems": [
    "C56_all_partial",
    "C56_kinds_refuted",
    "C56_status_refuted"
   ],
   "note": "Module trees of exactly-Cell_SPM cells; the status of the cycling itself is ignored by the code (refuted), other cell types and batteries are silently skipped (refuted). The unit under each cell is the generic interface."
  },
  {
   "property": "C57",
   "status": "proved",
   "theorems": [
    "C57_cycles",
    "C57_returns",
    "C57_zero_refuted"
   ],
   "note": "Any outcome of every call; zero period refuted as undefined behaviour."
  },
  {
   "property": "C58",
   "status": "partial",
   "theorems": [
    "C58_complete_partial",
    "C58_sum_refuted",
    "C58_second_run_refuted"
   ],
   "note": "Completeness and order of the records within a run proved over the reals; per-step reading and survival of an earlier run's records refuted."
  },
  {
   "property": "C59",
   "status": "partial",
   "theorems": [
    "C59_accepted_iff_partial",
    "C59_complete",
    "C59_interpolation",
    "C59_doubles",
    "C59_nan_refuted",
    "C59_tolerance_refuted",
    "C59_short_refuted"
   ],
   "note": "Acceptance characterised for all lengths over the reals (the end points may miss 0 and 1 by less than 1e-5) and in doubles for columns of numbers; interpolation on accepted curves proved. Refuted: not-a-numbers pass, a query at 0 may fail on an accepted curve, empty and one-point curves are undefined."
  },
  {
   "property": "C60",
   "status": "partial",
   "theorems": [
    "C60_scan_doubles",
    "C60_level",
    "C60_refined_partial",
    "C60_bounds",
    "C60_cost_value_partial",
    "C60_even_refuted",
    "C60_zero_material_refuted",
    "C60_no_level_refuted",
    "C60_no_point_refuted",
    "C60_error",
    "C60_ragged_refuted"
   ],
   "note": "Single-level search returns the first best point of the grid (reals, with the cost of the files' curves; doubles, for any cost that yields numbers); starting points stay in [0,1]; deeper searches never worse for odd space sizes with room. Refuted for even sizes (the shipped 100) and for amounts of material that reach 0; zero levels return an uninitialised result. The simulated discharge used for plotting is not covered by these theorems."
  },
  {
   "property": "C61",
   "status": "partial",
   "theorems": [
    "C61_update_diagonal_partial",
    "C61_offdiagonal_refuted"
   ],
   "note": "Proved for diagonal factors, the only use in the program; refuted for factors with off-diagonal entries."
  },
  {
   "property": "C62",
   "status": "partial",
   "theorems": [
    "C62_taken",
    "C62_refused",
    "C62_decides_partial",
    "C62_one_owner",
    "C62_message_refuted",
    "C62_copy_refuted",
    "C62_own_units_refuted",
    "C62_dead_refuted"
   ],
   "note": "Taken / refused / one owner over all histories of constructions and setSUs calls on pointers held by the caller. Missing: with printing on and a module that has no parent, a foreign unit leads to a null dereference instead of a throw (C62_message_refuted); a copied module's units are not protected (C62_copy_refuted); a module's own vector (C62_own_units_refuted)."
  },
  {
   "property": "C63",
   "status": "partial",
   "theorems": [
    "C63_two_columns",
    "C63_matrix",
    "C63_one_column",
    "C63_any_columns",
    "C63_missing_file",
    "C63_shared_stable",
    "C63_matrix_mark_refuted",
    "C63_short_refuted",
    "C63_wide_refuted",
    "C63_leading_blank_refuted",
    "C63_narrow_refuted",
    "C63_header_refuted",
    "C63_cut_refuted",
    "C63_ragged_refuted",
    "C63_empty_line_refuted",
    "C63_empty_refuted",
    "C63_array_refuted",
    "C63_span_refuted"
   ],
   "note": "Byte-level model. Two-column and any-column readers proved for every well-formed file (with or without mark); the matrix reader for files without mark; the conversion of one numeral is a parameter. Refuted: matrices with a byte order mark, short, wide, ragged, cut and empty files are misread, undefined or loop."
  },
  {
   "property": "C64",
   "status": "proved",
   "theorems": [
    "C64_identifier_unique",
    "C64_zero_never_stored"
   ],
   "note": "Injectivity, with add_model keeping zeros out."
  },
  {
   "property": "C65",
   "status": "proved",
   "theorems": [
    "C65_fan_energy",
    "C65_hvac_energy",
    "C65_fan_monotone",
    "C65_convection",
    "C65_fast_fan_refuted"
   ],
   "note": "Over the reals. C65_fast_fan_refuted: above an air speed of 25 m/s (which the uncapped proportional fan can reach) more flow convects less."
  },
  {
   "property": "C66",
   "status": "proved",
   "theorems": [
    "C66_days",
    "C66_rest"
   ],
   "note": "Any outcome of every call including exceptions."
  },
  {
   "property": "C67",
   "status": "partial",
   "theorems": [
    "C67_books_partial",
    "C67_data_written",
    "C67_state_refuted"
   ],
   "note": "Throughput and records proved; the unit is charged and left under current (refuted)."
  },
  {
   "property": "C68",
   "status": "partial",
   "theorems": [
    "C68_exact",
    "C68_ends",
    "C68_terminates",
    "C68_lithium",
    "C68_overloads",
    "C68_refuses",
    "C68_error_refuted",
    "C68_stale_refuted",
    "C68_endless_refuted",
    "C68_thickness"
   ],
   "note": "Proved over the reals for all tables and parameters: exact result of every ending discharge, termination for positive capacity, lithium balance, agreement of the overloads, refusal of the plain overload. Refuted (doubles): the throwing overload never raises its error, the stored voltage is one period old, a zero or tiny capacity never ends."
  },
  {
   "property": "C69",
   "status": "partial",
   "theorems": [
    "C69_layout",
    "C69_carriers",
    "C69_factories",
    "C69_no_spread",
    "C69_names",
    "C69_sizes",
    "C69_resistance",
    "C69_ocv",
    "C69_spm",
    "C69_announced_refuted",
    "C69_degradation_spread_refuted"
   ],
   "note": "Proved for any carrier, generator, cell constructor that succeeds and nesting. Sizes over the reals. Refuted: makeBattery_TestParallel announces 72 cells and builds 3; the degradation spread changes no single-particle cell. The final voltage read of the factories is not modelled."
  },
  {
   "property": "C70",
   "status": "partial",
   "theorems": [
    "C70_update",
    "C70_direction",
    "C70_adaptation",
    "C70_zero_step_refuted",
    "C70_prior",
    "C70_nan_refuted",
    "C70_posterior",
    "C70_record",
    "C70_outputs_refuted",
    "C70_gamma",
    "C70_norm_refuted",
    "C70_powers",
    "C70_rejected",
    "C70_penalty_refuted",
    "C70_short_refuted"
   ],
   "note": "Proved over the reals in any dimension, with std::pow assumed to square and to map [1,inf) to (0,1] at exponent -1/2. Refuted: a zero random vector gives NaN; the prior accepts NaN; records of two or more outputs throw 123511; norm_sq with odd power is not a norm."
  },
  {
   "property": "C71",
   "status": "partial",
   "theorems": [
    "C71_periods",
    "C71_frame",
    "C71_written_energy_refuted",
    "C71_series_refuted",
    "C71_hvac_refuted",
    "C71_hvac_sample",
    "C71_rows",
    "C71_tree",
    "C71_factories"
   ],
   "note": "Histogram accounting over the reals; frame, tree and factory results for any carrier. DATASTORE_COOL is a parameter (the repository has 0). Refuted: the time series (level 2) is never reset and gives life means; the energy written is 0 right after a stored point; the AC unit of an HVAC never records anything because its data member has the type of the plain system."
  },
  {
   "property": "C72",
   "status": "proved",
   "theorems": [
    "C72_polarisation",
    "C72_resistance",
    "C72_range",
    "C72_uniform",
    "C72_surface_node"
   ],
   "note": "Over the reals, for any increasing exp and any increasing asinh with asinh 0 = 0 (the mathematical functions are an instance). The uniform-profile theorem assumes that the matrices represent a uniform profile exactly (uniform_mode); the tables in data/ are not in the model."
  },
  {
   "property": "C73",
   "status": "proved",
   "theorems": [
    "C73_generated",
    "C73_only_steps",
    "C73_balance",
    "C73_between",
    "C73_pairwise",
    "C73_single",
    "C73_lost_refuted",
    "C73_off"
   ],
   "note": "Over the reals. Thermal models 1 (environment) and 2 (neighbours) are parameters; this build has model 0, for which C73_off shows the temperature constant. Refuted: a temperature outside the limits throws 9 after the pending heat and time were cleared, so a caller that goes on has lost that heat."
  },
  {
   "property": "C74",
   "status": "proved",
   "theorems": [
    "C74_sum_SEI",
    "C74_sum_CS",
    "C74_sum_LAM",
    "C74_order",
    "C74_lithium",
    "C74_frame",
    "C74_known",
    "C74_crack",
    "C74_diffusion"
   ],
   "note": "Over the reals, at the level of whole calls of timeStep_CC. The effect of crack growth on the anode diffusion constant is capped and therefore not additive; it is bounded instead. The lithium balance assumes that side reactions exchange as many electrons as the main reaction (all 1 in the code)."
  },
  {
   "property": "C75",
   "status": "proved",
   "theorems": [
    "C75_ecm_units",
    "C75_spm_units",
    "C75_voltage_returns",
    "C75_parallel_setVoltage",
    "C75_batteries",
    "C75_nan_refuted",
    "C75_restore_refuted",
    "C75_contact_refuted",
    "C75_threads_refuted",
    "C75_many_refuted",
    "C75_no_module_refuted"
   ],
   "note": "Proved over the reals: with binary64 a value that is not a number makes a look-up leave its table (C75_nan_refuted). Further refuted theorems show what happens outside the well-formed units, all of which the interface accepts: children with different numbers of states when rejected states are restored, too few contact resistances, more than 100 children, exceptions in worker threads, batteries without a module."
  },
  {
   "property": "C76",
   "status": "proved",
   "theorems": [
    "C76_time_temperature",
    "C76_rest_voltage",
    "C76_kinetics",
    "C76_film",
    "C76_plating",
    "C76_LAM"
   ],
   "note": "Film growth and plating are stated at rest, for a cell in a module (its temperature is then constant during a call); loss of active material at any current. The potential of the anode is the one the program uses: its entropic coefficient is read at the concentration of the cathode."
  },
  {
   "property": "C77",
   "status": "proved",
   "theorems": [
    "C77_never_decrease",
    "C77_books",
    "C77_rest",
    "C77_CC",
    "C77_exact_refuted"
   ],
   "note": "C77_never_decrease holds of all doubles. C77_books bounds the error of any history whose books stay sound (state of charge within [-2, 2], counters within range) with currents, steps and capacity zero or between 2^-300 and 2^300; C77_rest and C77_CC hold of any unit. C77_exact_refuted shows the drift on three steps of 0.1 s. The rounding facts come from Flocq, whose operations are proved equal to those of the model (the standard library's SpecFloat)."
  },
  {
   "property": "C78",
   "status": "proved",
   "theorems": [
    "C78_thickness",
    "C78_surface",
    "C78_volume",
    "C78_cracks",
    "C78_decay"
   ],
   "note": "Over the reals. The end-of-call concentrations and stresses are those of the same call on a cell that does not age. The speeds of dissolution (loss model 3) and of crack model 5, here bounded only, are given exactly in C90_cathode and C90_cracks."
  },
  {
   "property": "C79",
   "status": "partial",
   "theorems": [
    "C79_accepted",
    "C79_checked",
    "C79_unchecked_refuted",
    "C79_nan_refuted"
   ],
   "note": "C79_accepted and C79_checked over the reals. \"Physically meaningless vectors are refused\" is false: C79_unchecked_refuted (negative thickness, diffusion constant, clock and throughput are stored) and C79_nan_refuted (in doubles a vector of not-a-numbers is stored)."
  },
  {
   "property": "C80",
   "status": "partial",
   "theorems": [
    "C80_rest",
    "C80_constant_current",
    "C80_history",
    "C80_round_trip",
    "C80_constant_voltage_refuted",
    "C80_checked_voltage"
   ],
   "note": "Proved for rests and constant currents (reals, exact counters), histories and round trips; diagnostic mode needs every cell to have a positive voltage at the new current. For constant voltage the claim is false: C80_constant_voltage_refuted."
  },
  {
   "property": "C81",
   "status": "proved",
   "theorems": [
    "C81_terminals",
    "C81_check",
    "C81_set_current",
    "C81_step",
    "C81_constant_current",
    "C81_rest",
    "C81_recording",
    "C81_warning_refuted"
   ],
   "note": "Over the reals. The cell must accept the current without a warning (modules pass on failures only: C81_warning_refuted shows a string discharged where the single cell refuses), its maximum voltage must be at least 3.1 V (the cycler compares the lowest cell voltage with the constants 3.1 and 3), and a run that ended because a time step threw (timeStep_CC_failed) is not covered. What storeData and writeData do is a parameter, required to keep the battery a battery of identical cells; C81_recording shows it for rows filled with V()."
  },
  {
   "property": "C82",
   "status": "partial",
   "theorems": [
    "C82_ratings",
    "C82_limits",
    "C82_command",
    "C82_step",
    "C82_check",
    "C82_extremes_partial",
    "C82_voltage",
    "C82_rest",
    "C82_constant_current",
    "C82_history",
    "C82_checked_voltage"
   ],
   "note": "Over the reals, for any exp, asinh and pow. C82_extremes_partial: as in C35, the lowest and highest cell voltage are right only if some cell is within the module's own voltage limits (C35_refuted). Strings have at most 100 children per module (the code's buffer). In diagnostic mode a CC is required to start with cells that refuse a current only because of a voltage limit (the cycler treats other refusals as accepted, see C80). storeData/writeData may read voltages only."
  },
  {
   "property": "C83",
   "status": "proved",
   "theorems": [
    "C83_never_decrease",
    "C83_energy",
    "C83_books",
    "C83_exact_refuted"
   ],
   "note": "C83_never_decrease ranges over all operating calls with any outcome. C83_energy is per time step: it assumes that the numbers the voltage is computed from are doubles (an ageing call computes new ones with pow and exp). C83_books bounds the error of any history whose books stay sound with currents, steps and capacity zero or between 2^-300 and 2^300 and fewer than 2^31 steps per call (the int of the API). C83_exact_refuted shows the drift on three steps of 0.1 s."
  },
  {
   "property": "C84",
   "status": "partial",
   "theorems": [
    "C84_value",
    "C84_knots",
    "C84_knots_refuted",
    "C84_bounded",
    "C84_monotone",
    "C84_rising",
    "C84_rising_refuted"
   ],
   "note": "Finding: the ordinate at an inner table point is reproduced only up to rounding (0.1 at 3 becomes the next double), so a rising table can fall by a rounding error there. Proved for the searching look-up (tables not marked equidistant)."
  },
  {
   "property": "C85",
   "status": "partial",
   "theorems": [
    "C85_report",
    "C85_exception",
    "C85_empty_refuted",
    "C85_headings_refuted",
    "C85_variations",
    "C85_film_refuted",
    "C85_mixed_refuted",
    "C85_states_refuted",
    "C85_modules",
    "C85_no_cooling_refuted"
   ],
   "note": "Lines, order, names, throughputs and capacities proved for every tree (any carrier), also after an exception. Refuted: headings are shifted; states are those after the capacity test; film thickness, lost lithium and eight other states of single-particle cells are missing instead of the concentrations; other cells behind one have no states; units without cells and modules without cooling system are undefined behaviour."
  },
  {
   "property": "C86",
   "status": "proved",
   "theorems": [
    "C86_CC",
    "C86_CV"
   ],
   "note": "Any unit, any limits; conditions only on what an observer of the calls sees (finite steps and currents below 2^300, at most 2^50 steps). Energy in doubles is not covered."
  },
  {
   "property": "C87",
   "status": "partial",
   "theorems": [
    "C87_recorded",
    "C87_voltage",
    "C87_coulomb",
    "C87_repeatable",
    "C87_columns",
    "C87_separate",
    "C87_times",
    "C87_pulses",
    "C87_capacity",
    "C87_current_refuted",
    "C87_rest_refuted"
   ],
   "note": "Records, voltages, coulomb count, independence of the experiments and of the two cells, columns, times and moved charge proved. Refuted: the current column of the voltage file is the requested current also when the command is refused; when a pulse empties an electrode the command to rest is refused and the current goes on. The preparation before the experiments is C88. Not modelled: the number format of the files."
  },
  {
   "property": "C88",
   "status": "proved",
   "theorems": [
    "C88_prepared",
    "C88_prepared_small",
    "C88_current",
    "C88_unreported_refuted",
    "C88_rest_refuted",
    "C88_stuck_refuted",
    "C88_cached",
    "C88_resolved",
    "C88_resolved_R",
    "C88_log",
    "C88_log_line",
    "C88_log_double",
    "C88_long_refuted"
   ],
   "note": "Any carrier for the preparation and the curve, reals and doubles for the log. Findings: the helper returns zero counters whatever it did; it never looks at the status of a command and steps for ever when a current is refused; a cell prepared to rest is not at the voltage asked for; the long pack benchmark charges towards 2.7 V and so never charges."
  },
  {
   "property": "C89",
   "status": "proved",
   "theorems": [
    "C89_any_order",
    "C89_model_order",
    "C89_capacity",
    "C89_limits",
    "C89_current",
    "C89_series_voltage",
    "C89_exact_refuted",
    "C89_order_refuted"
   ],
   "note": "Doubles, trees of any depth of any cells. The voltage is stated for one series module over any units. Findings: three cells of 0.1 Ah in parallel have more than 0.3 Ah, and the order of the additions matters."
  },
  {
   "property": "C90",
   "status": "proved",
   "theorems": [
    "C90_film",
    "C90_cathode",
    "C90_cracks",
    "C90_protects"
   ],
   "note": "Over the reals, for the mathematical exponential (exponential F) and any asinh. As in the program, the entropic coefficient of the anode is read at the concentration of the cathode (anode_potential). The state the laws are evaluated at (unaged) is the end of the same call on a cell that does not age, at the temperature reached."
  },
  {
   "property": "C91",
   "status": "proved",
   "theorems": [
    "C91_passive",
    "C91_round_trip",
    "C91_tables",
    "C91_default_passive",
    "C91_overcharge_refuted",
    "C91_pack",
    "C91_pack_round_trip"
   ],
   "note": "Over the reals; the energy bound holds for arbitrary histories with any rising open-circuit table. C91_overcharge_refuted (doubles): above a state of charge of 1 the voltage reads 0, so a step beyond full and back yields energy. C91_pack and C91_pack_round_trip lift the bound to every tree of series and parallel modules of passive cells, over any sequence of current, voltage, temperature and thermal calls (whatever their outcome) and completed time steps."
  },
  {
   "property": "C92",
   "status": "proved",
   "theorems": [
    "C92_equation",
    "C92_pairs",
    "C92_voltage",
    "C92_converges",
    "C92_anode",
    "C92_cathode",
    "C92_pack_cells",
    "C92_pack_pairs",
    "C92_pack_voltage"
   ],
   "note": "Over the reals. Steps longer than the time constant are outside the bound (C15_long_step_refuted and C22_long_step_refuted: beyond twice the time constant the scheme diverges)."
  },
  {
   "property": "C93",
   "status": "proved",
   "theorems": [
    "C93_redistribute",
    "C93_setCurrent",
    "C93_split",
    "C93_default",
    "C93_timeStep",
    "C93_oscillates_refuted",
    "C93_strings_refuted",
    "C93_strings",
    "C93_strings_setCurrent",
    "C93_contact",
    "C93_contact_setCurrent",
    "C93_contact_timeStep",
    "C93_contact_split",
    "C93_strings_contact",
    "C93_contact_refuted",
    "C93_mixed",
    "C93_mixed_setCurrent",
    "C93_mixed_timeStep",
    "C93_spm",
    "C93_spm_setCurrent",
    "C93_spm_split",
    "C93_spm_timeStep",
    "C93_spm_oscillates_refuted"
   ],
   "note": "Over the reals. C93_contact and C93_contact_setCurrent cover contact resistances (cells of one capacity, with a margin); the other theorems have none. C93_oscillates_refuted and C93_strings_refuted: with capacity times resistance equal to 2 (large cells, or strings of 100 cells of 10 Ah) no imbalance is ever removed, so redistribution and with it time steps fail. C32_total_refuted and C32_voltages_refuted show what happens with unequal capacities and outside the voltage limits. C93_contact_refuted: contact resistances of 0.1 to 2.5 milliohm between 100 branches (a family for every number of branches) make every iteration mirror the deviations although the cells alone would balance. C93_spm, C93_spm_setCurrent, C93_spm_timeStep and C93_spm_split: physics-based cells, for any functions in place of exp, asinh and pow, provided the voltage of each cell falls with its current with capacity times slope between k and 1; no contact resistances. C93_spm_oscillates_refuted: physics-based cells with capacity times resistance equal to 2 never balance. C93_mixed, C93_mixed_setCurrent and C93_mixed_timeStep: both kinds of cells side by side."
  },
  {
   "property": "C94",
   "status": "proved",
   "theorems": [
    "C94_contact",
    "C94_strings_contact",
    "C94_contact_refuted",
    "C94_mixed",
    "C94_spm",
    "C94_spm_cell",
    "C94_parallel",
    "C94_mirror_refuted",
    "C94_series",
    "C94_strings",
    "C94_strings_refuted",
    "C94_trial_refuted"
   ],
   "note": "Over the reals. C94_mirror_refuted and C94_strings_refuted: with branches of 10 milliohm (such as strings of five default cells) every correction of a parallel module mirrors the voltage at the target, so the command fails at any distance. C94_trial_refuted (binary64): when a cell refuses the trial current the slope is a division by zero and the module ends with currents and voltages that are not numbers, although the commanded voltage was within reach. C94_contact_refuted: contacts of 0.04 to 0.4 milliohm between 20 default cells do the same to voltage commands (a family for every number of branches). C94_spm: parallel physics-based cells, for any functions in place of exp, asinh and pow, provided 200 times the slope of each voltage over its current lies between k and 2 - k. C94_spm_cell: a single physics-based cell whose slope varies by a factor of at most 1 + q reaches the command to a microvolt. C94_mixed: both kinds of cells side by side."
  },
  {
   "property": "C95",
   "status": "proved",
   "theorems": [
    "C95_accepts",
    "C95_new",
    "C95_rest"
   ],
   "note": "Over the reals. The open circuit voltage lookup is assumed to succeed where a voltage is claimed; C95_inhabited shows a cell for which it does."
  }
 ]
}