{
 "claims": [
  {
   "property": "C01",
   "status": "proved",
   "theorems": [
    "C01_myrange_moves_one_index"
   ],
   "note": "Full statement, python integers for the positions."
  },
  {
   "property": "C02",
   "status": "proved",
   "theorems": [
    "C02_sequences_of_moves_keep_alignment",
    "C02_move_stor_keeps_alignment",
    "C02_move_diss_keeps_alignment",
    "C02_move_port_keeps_alignment",
    "C02_move_connector_keeps_alignment",
    "C02_move_past_end_refuted"
   ],
   "note": "Proved for every sequence of moves with positions inside the range. Refuted for a target past the end of the kind (as reduce_z uses with force_wnl): the rows and the symbols are then misaligned."
  },
  {
   "property": "C03",
   "status": "proved",
   "theorems": [
    "C03_M_is_J_minus_R",
    "C03_block_accessors"
   ],
   "note": "Full statement, every core and valuation; block accessors included."
  },
  {
   "property": "C04",
   "status": "proved",
   "theorems": [
    "C04_set_M_block",
    "C04_set_J_block",
    "C04_set_R_block",
    "C04_wrong_shape_refused",
    "C04_setter_resets_stale_matrix",
    "C04_overlapping_blocks_refuted"
   ],
   "note": "Proved for the setters of distinct and equal blocks whose matrix has the current size. Findings: a setter first erases a matrix that is older than the last added component; overlapping names (x with xl) do not write what was asked (refuted)."
  },
  {
   "property": "C05",
   "status": "proved",
   "theorems": [
    "C05_variables_stay_paired",
    "C05_failing_additions_change_nothing",
    "C05_successful_additions",
    "C05_successful_storages"
   ],
   "note": "Invariant over every sequence of public operations, failing ones included."
  },
  {
   "property": "C06",
   "status": "proved",
   "theorems": [
    "C06_indices_tile_the_structure",
    "C06_block_rows_are_the_block_symbols"
   ],
   "note": "Full statement."
  },
  {
   "property": "C07",
   "status": "proved",
   "theorems": [
    "C07_default_split",
    "C07_linear_stiffness_is_constant",
    "C07_linear_offset_is_constant_refuted",
    "C07_custom_split"
   ],
   "note": "Default and custom criteria. Finding: the affine remainder bl of a storage counted linear may depend on nonlinear states (refuted)."
  },
  {
   "property": "C08",
   "status": "proved",
   "theorems": [
    "C08_separable_states",
    "C08_separable_group"
   ],
   "note": "Exact characterisation when the Hessian is symmetric as an expression, and the group property in general."
  },
  {
   "property": "C09",
   "status": "proved",
   "theorems": [
    "C09_sum_is_the_uncoupled_union",
    "C09_every_sum_succeeds_refuted"
   ],
   "note": "Full statement when both structure matrices have been sized. Refuted otherwise: the sum raises when one operand's M was never set."
  },
  {
   "property": "C10",
   "status": "proved",
   "theorems": [
    "C10_connect_eliminates_connected_ports",
    "C10_connect_succeeds_or_reports",
    "C10_connecting_two_ports",
    "C10_sound_inverse_suffices"
   ],
   "note": "For every inverse oracle that is right on the loop matrix; failure reports the singular matrix and leaves equivalent equations."
  },
  {
   "property": "C11",
   "status": "proved",
   "theorems": [
    "C11_connect_keeps_passivity"
   ],
   "note": "Conservative and passive cases."
  },
  {
   "property": "C12",
   "status": "proved",
   "theorems": [
    "C12_documented_law_refuted",
    "C12_documented_law_with_opposite_gain"
   ],
   "note": "The statement as written is false of the code and refuted: connect imposes the documented law with the opposite gain, which is the law proved."
  },
  {
   "property": "C13",
   "status": "proved",
   "theorems": [
    "C13_reduce_eliminates_linear_dissipations",
    "C13_reduce_succeeds_or_reports",
    "C13_affine_laws_are_kept_refuted",
    "C13_coupled_laws_are_kept_refuted"
   ],
   "note": "Proved when z = Zl w for the eliminated variables. Affine and coupled laws, which the code also eliminates, are refuted."
  },
  {
   "property": "C14",
   "status": "proved",
   "theorems": [
    "C14_reduce_keeps_passivity"
   ],
   "note": "Full statement."
  },
  {
   "property": "C15",
   "status": "proved",
   "theorems": [
    "C15_stored_power_is_the_rate_of_energy",
    "C15_power_balance",
    "C15_pd_value",
    "C15_dissipated_power_not_negative",
    "C15_pd_with_connectors_raises"
   ],
   "note": "Balance for every core without connectors, stored power is the rate of H; pd() raises with connectors."
  },
  {
   "property": "C16",
   "status": "proved",
   "theorems": [
    "C16_energy_chain_rule",
    "C16_derivative_at_zero_increment",
    "C16_one_component_per_state",
    "C16_small_increments_refuted"
   ],
   "note": "Chain rule beyond the tolerance and at zero; refuted in between (the code uses the derivative there)."
  },
  {
   "property": "C17",
   "status": "proved",
   "theorems": [
    "C17_energy_chain_rule",
    "C17_gradient_at_zero_increment",
    "C17_one_component_per_state"
   ],
   "note": "Full statement, any number of variables."
  },
  {
   "property": "C18",
   "status": "proved",
   "theorems": [
    "C18_theta_gradient_on_quadratics",
    "C18_trapezoidal_gradient_on_quadratics"
   ],
   "note": "Full statement."
  },
  {
   "property": "C19",
   "status": "proved",
   "theorems": [
    "C19_step_power_balance",
    "C19_energy_over_runs",
    "C19_energy_never_increases",
    "C19_default_split_refuted"
   ],
   "note": "One step, any number of steps, monotonicity. Refuted for the default configuration (split=True) on a nonlinear storage driven by a flow."
  },
  {
   "property": "C20",
   "status": "proved",
   "theorems": [
    "C20_split_loses_no_solution",
    "C20_update_solves"
   ],
   "note": "Equivalence of the split equations, and what one whole update does."
  },
  {
   "property": "C21",
   "status": "proved",
   "theorems": [
    "C21_loop_stops",
    "C21_loop_returns",
    "C21_method_iterations"
   ],
   "note": "Full statement for the loop, and for the method built from a core."
  },
  {
   "property": "C22",
   "status": "proved",
   "theorems": [
    "C22_simulation_chains",
    "C22_simulation_balance"
   ],
   "note": "Full statement, plus the energy balance of whole simulations."
  },
  {
   "property": "C23",
   "status": "proved",
   "theorems": [
    "C23_order_respects_dependencies",
    "C23_method_order"
   ],
   "note": "Full statement, any visiting order; the order of a method's own actions."
  },
  {
   "property": "C24",
   "status": "proved",
   "theorems": [
    "C24_read",
    "C24_write"
   ],
   "note": "Full statement."
  },
  {
   "property": "C25",
   "status": "proved",
   "theorems": [
    "C25_classes_and_columns_stay_aligned",
    "C25_analysis_visits_reachable_states"
   ],
   "note": "Invariant of every reachable state of the analysis."
  },
  {
   "property": "C26",
   "status": "proved",
   "theorems": [
    "C26_structure_is_kirchhoff"
   ],
   "note": "Equivalence with Kirchhoff's laws and skew-symmetry for every graph on which the analysis succeeds."
  },
  {
   "property": "C27",
   "status": "proved",
   "theorems": [
    "C27_tellegen"
   ],
   "note": "Full statement."
  },
  {
   "property": "C28",
   "status": "proved",
   "theorems": [
    "C28_interpolates",
    "C28_integrated",
    "C28_dissipative_passive",
    "C28_storage_in_range",
    "C28_storage_unbounded_refuted",
    "C28_integrated_storage_negative_refuted"
   ],
   "note": "Interpolation, integration, passivity in range; storage energies outside the data are refuted."
  },
  {
   "property": "C29",
   "status": "proved",
   "theorems": [
    "C29_text_round_trip",
    "C29_quoted_path_refuted",
    "C29_single_element_refuted",
    "C29_numeric_name_refuted",
    "C29_indented_comment_refuted",
    "C29_missing_semicolon",
    "C29_sum",
    "C29_self_sum_refuted",
    "C29_repeated_parameter"
   ],
   "note": "Round trip for fields that avoid the separators and are printed as they are read; five texts for which it fails are refuted."
  },
  {
   "property": "C30",
   "status": "proved",
   "theorems": [
    "C30_decimate_takes_every_nd_th",
    "C30_decimate_rejects",
    "C30_remove_duplicates_first_occurrences",
    "C30_find_positions",
    "C30_interleave_alternates",
    "C30_get_strings_flattens"
   ],
   "note": "All five helpers."
  },
  {
   "property": "C31",
   "status": "proved",
   "theorems": [
    "C31_read_back",
    "C31_read_back_component",
    "C31_read_back_window",
    "C31_accepted",
    "C31_sequences",
    "C31_duplicate_name_refuted",
    "C31_last_time_refuted",
    "C31_neighbour_refuted",
    "C31_reused_dict_refuted",
    "C31_read_back_slice"
   ],
   "note": "Any sequence of writes; four cases where it fails are refuted (duplicate name, time -1, index outside the variable, dictionary given twice)."
  },
  {
   "property": "C32",
   "status": "proved",
   "theorems": [
    "C32_chunked",
    "C32_whole",
    "C32_empty_refuted",
    "C32_surplus_refuted"
   ],
   "note": "Any slices and chunk size; refuted for no rows (endless loop) and surplus rows."
  },
  {
   "property": "C33",
   "status": "proved",
   "theorems": [
    "C33_integer_window",
    "C33_start_stored",
    "C33_stop_stored",
    "C33_stop_number",
    "C33_window_refuted",
    "C33_shared_options_refuted",
    "C33_new_run_refuted"
   ],
   "note": "Proved when the numbers assigned to stop are integers (exact condition given). The statement as written is false: refuted for fractional stops, shared options and a shorter new run."
  },
  {
   "property": "C34",
   "status": "proved",
   "theorems": [
    "C34_starts_equal",
    "C34_copied_iff",
    "C34_independent",
    "C34_any_sequence",
    "C34_independent_nested",
    "C34_shared_connector_refuted",
    "C34_symbol_energy_refuted",
    "C34_assertions_refuted"
   ],
   "note": "Equality at every depth, exact condition for the copy to be made, independence in any interleaving for containers that hold no containers and, with connectors, as long as their dictionaries are not changed in place. Refuted: the connector dictionaries are shared; H a lone symbol is not copied; assertions are not copied."
  },
  {
   "property": "C35",
   "status": "proved",
   "theorems": [
    "C35_port_becomes_last_connector",
    "C35_add_connector",
    "C35_connectors_stay_consistent",
    "C35_negative_index_refuted"
   ],
   "note": "Proved for non-negative indices; refuted for negative ones."
  },
  {
   "property": "C36",
   "status": "proved",
   "theorems": [
    "C36_gradient_is_the_derivative",
    "C36_jacobian_is_the_derivative",
    "C36_hessian_is_the_second_derivative"
   ],
   "note": "Gradient, Jacobian and Hessian of every expression of the model where it is smooth."
  },
  {
   "property": "C37",
   "status": "proved",
   "theorems": [
    "C37_substitution_commutes_with_evaluation",
    "C37_gradient_commutes",
    "C37_selfall_applies_the_dictionary",
    "C37_selfall_with_chains_refuted",
    "C37_connectors_are_substituted_refuted"
   ],
   "note": "Full statement for single and selfall substitution without chains; refuted with chains and for the coefficients of connectors."
  },
  {
   "property": "C38",
   "status": "proved",
   "theorems": [
    "C38_linear",
    "C38_diode_junction",
    "C38_diode_branches",
    "C38_bipolar_transistor",
    "C38_transistor_resistances",
    "C38_potentiometer",
    "C38_potentiometer_out_of_range_refuted",
    "C38_felt_damper",
    "C38_heat_transfer",
    "C38_documented_laws",
    "C38_triode",
    "C38_triode_control",
    "C38_triode_negative_grid_refuted",
    "C38_triode_grid_current"
   ],
   "note": "Resistor, damper, diode, transistor, potentiometer (control in [0,1]), felt, heat transfer, triode (nonnegative voltages); potentiometer refuted outside [0,1], triode refuted for a negative grid voltage."
  },
  {
   "property": "C39",
   "status": "proved",
   "theorems": [
    "C39_linear",
    "C39_cubic_spring",
    "C39_saturating_spring",
    "C39_saturating_magnetic_capacitor",
    "C39_heat_capacity",
    "C39_felt",
    "C39_documented_laws"
   ],
   "note": "Linear, cubic, saturating, heat capacity, felt."
  },
  {
   "property": "C40",
   "status": "proved",
   "theorems": [
    "C40_merging_keeps_behaviours",
    "C40_shared_input_adds",
    "C40_label_clash_refuted"
   ],
   "note": "Whole merging loop on linear groups; the hypothesis on labels is necessary (refuted without it)."
  },
  {
   "property": "C41",
   "status": "proved",
   "theorems": [
    "C41_round_trip",
    "C41_saved",
    "C41_into_any_core",
    "C41_custom_refuted",
    "C41_symbol_energy_refuted"
   ],
   "note": "Every core whose custom names do not clash and whose attributes sympy can copy, after any other saves; refuted for custom expressions and H a lone symbol."
  },
  {
   "property": "C42",
   "status": "proved",
   "theorems": [
    "C42_within_one_step",
    "C42_floats",
    "C42_grid",
    "C42_written",
    "C42_normalised",
    "C42_faded"
   ],
   "note": "Exact arithmetic and binary64 rounding; resampling is not modelled."
  },
  {
   "property": "C43",
   "status": "proved",
   "theorems": [
    "C43_freesymbols_refuted",
    "C43_freesymbols_always_empty"
   ],
   "note": "The statement is false of the code: freesymbols() is always empty (proved), hence refuted."
  },
  {
   "property": "C44",
   "status": "proved",
   "theorems": [
    "C44_output_without_connectors",
    "C44_output_with_connectors_refuted",
    "C44_output_missing_term"
   ],
   "note": "Proved without connectors; refuted with connectors, the missing term being exactly Mycy cu."
  },
  {
   "property": "C45",
   "status": "proved",
   "theorems": [
    "C45_connector_law_by_control",
    "C45_connectors_are_lossless",
    "C45_documented_gyrator_refuted",
    "C45_documented_transformer_refuted"
   ],
   "note": "The law of each control and losslessness are proved; the documented laws do not hold for every control (refuted)."
  },
  {
   "property": "C46",
   "status": "proved",
   "theorems": [
    "C46_declared_controls_respected",
    "C46_inner_loops_stop",
    "C46_analysis_stops_refuted",
    "C46_reference_node_needed"
   ],
   "note": "Declared controls, inner loops; termination of the outer loop is refuted."
  },
  {
   "property": "C47",
   "status": "proved",
   "theorems": [
    "C47_parameters_reach_the_law",
    "C47_label_capture_refuted"
   ],
   "note": "Proved when no label is the name of another parameter; refuted otherwise."
  },
  {
   "property": "C48",
   "status": "proved",
   "theorems": [
    "C48_file",
    "C48_stale_stop_refuted"
   ],
   "note": "Proved when the stop left in the load options does not cut the run; the rows actually written are given otherwise, and the statement is refuted for a stale stop."
  },
  {
   "property": "C49",
   "status": "proved",
   "theorems": [
    "C49_times",
    "C49_stored_power",
    "C49_port_power",
    "C49_energy",
    "C49_dissipated_power",
    "C49_balance",
    "C49_energy_balance",
    "C49_mean_balance",
    "C49_passive",
    "C49_last_value_refuted",
    "C49_step_refuted",
    "C49_observers_refuted"
   ],
   "note": "Full statement for selections whose step divides the window and observers that need no arguments; refuted otherwise, and the mean-value form of the stored power is refuted at its last value."
  },
  {
   "property": "C50",
   "status": "proved",
   "theorems": [
    "C50_split_ends",
    "C50_split_groups",
    "C50_split_two_terminal",
    "C50_split_complete",
    "C50_assemble",
    "C50_assemble_refuted",
    "C50_split_ends_refuted",
    "C50_split_complete_refuted"
   ],
   "note": "Proved for circuits in which no node but the datum cuts a part off and no label looks like a temporary one; refuted for a loop hung on a node (endless loop), a label containing _out_ (component deleted) and a bundle between the datum and a node with no other neighbor (not grouped)."
  },
  {
   "property": "C51",
   "status": "proved",
   "theorems": [
    "C51_samples",
    "C51_bounded",
    "C51_cycles_refuted",
    "C51_rejected",
    "C51_peak_to_peak_refuted"
   ],
   "note": "Sample by sample for every accepted call; the number of cycles only selects the part of the ramp, and the documented length is refuted for every call with two cycles or more; the amplitude is documented as peak to peak and is half of it."
  },
  {
   "property": "C52",
   "status": "proved",
   "theorems": [
    "C52_same_simulation",
    "C52_rate_refuted",
    "C52_rate_example_refuted",
    "C52_several_dictionaries_refuted",
    "C52_other_order_refuted",
    "C52_rounded_refuted"
   ],
   "note": "Generator and meaning of the generated class (constructor, init, set_sampleRate, update, main loop), for one dictionary of parameters in the order of the core and initial values that single precision represents. Refuted: a new sample rate is ignored by the entries without arguments, several dictionaries, another order of the parameters, other initial values."
  },
  {
   "property": "C53",
   "status": "proved",
   "theorems": [
    "C53_built",
    "C53_fails"
   ],
   "note": "Building a numerical core: initial arguments, values of functions and operations, the only possible exception."
  },
  {
   "property": "C54",
   "status": "proved",
   "theorems": [
    "C54_integrator_effort",
    "C54_integrator_flux",
    "C54_loaded_transformer",
    "C54_derivator_effort",
    "C54_derivator_flux",
    "C54_derivator_flux_refuted"
   ],
   "note": "Networks of the four fractional components for any weights and poles, in the Laplace domain; the fit of the weights (scipy) is an argument. Both integrators and the effort-controlled derivator have gain times the fitted transfer function. The flux-controlled derivator has other poles: the documented law is refuted and the actual one proved."
  },
  {
   "property": "C55",
   "status": "proved",
   "theorems": [
    "C55_values_are_kept",
    "C55_new_symbols_have_values",
    "C55_no_inverse_is_left",
    "C55_no_inverse_is_left_in_the_core",
    "C55_name_clash_refuted",
    "C55_simplified_symbol_refuted"
   ],
   "note": "Any value-preserving simplifier; the order of the attributes (a python set) is fixed; termination depends on the simplifier and is not claimed (fuel). The theorems that no inverse is left are for a simplifier that does nothing. Overwriting of a parameter named inv... and the TypeError on an expression that simplifies to a symbol are refutations."
  },
  {
   "property": "C56",
   "status": "proved",
   "theorems": [
    "C56_taps",
    "C56_tap_values",
    "C56_unit_gain",
    "C56_wide_band",
    "C56_straight_lines_are_kept",
    "C56_linear",
    "C56_same_length_refuted"
   ],
   "note": "Real numbers instead of floats. Unit gain and the straight lines need the sum of the unnormalised taps to be nonzero; that is proved only for wide transition bands (C56_wide_band). The attenuation of high frequencies is not claimed. Equal length is refuted for signals shorter than the filter."
  },
  {
   "property": "C57",
   "status": "proved",
   "theorems": [
    "C57_length",
    "C57_length_is_the_first",
    "C57_length_exists",
    "C57_long_beams_refuted",
    "C57_wave_numbers",
    "C57_frequencies"
   ],
   "note": "Real numbers instead of floats; overflow of cosh is not modelled. The length and the wave numbers are right up to one step of the grid. That a length exists for every frequency is refuted: below a wave number of pi/20 beamLength raises IndexError; it is proved to return one from (pi+1)/10 to 999999. omega_cosine and the network of the component are not modelled."
  }
 ]
}
