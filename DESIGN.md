# Formal model of pyphs in Rocq (Coq 8.16.1)

The source is `/repo` (python package pyphs), read as text.  The model is a set
of total Gallina functions that follow the python functions branch by branch.
Python exceptions are values (`Err e`).  Mutating methods are functions from the
old object to the new one together with the exception raised, when it matters
what a *failing* call leaves behind.  Every definition cites the python lines it
models.

## 1. What is modelled

| model | python | simplifications (also stated in each file) |
|---|---|---|
| `Py.v` | python's `l[i]`, `l[a:b]`, `list.index`, `list.remove`, exceptions | — |
| `Tools.v` | `misc/tools.py` | — |
| `Expr.v` | sympy expressions: numbers, symbols, sums, products, natural powers, inverse, elementary functions, two-branch `Piecewise`; `diff`, `subs`, `free_symbols` | exact rationals instead of floats; canonicalisation limited to zeros and ones |
| `Mat.v` | sympy matrices: shape, entries, product, transpose, slices, block assignment, stacking | — |
| `Core.v` | `core/core.py`, `core/structure/*.py`, `core/maths/*.py`: symbols, additions, moves, M/J/R accessors and setters, split, `monovar_multivar`, connectors, `connect`, `reduce_z`, `__add__`, `output`, `pd`, `freesymbols` | symbols are their names; `inv` is an oracle |
| `Objects.v` | `core/core.py` `__init__`, `__copy__`, `save`, `load` on a heap of python containers | pickle stores and rebuilds whole values; sharing between two attributes inside one file is not kept; the accessor closures hold no data |
| `Subs.v` | `core/tools/_substitutions.py` | order of the dictionary as given |
| `SubsInv.v` | `core/tools/_subsinverse.py` | sympy's simplifier is an argument; fixed order of the attributes; natural negative powers; division by a zero parameter not treated apart |
| `Calculus.v` | `numerics/numerical_method/_discrete_calculus.py` | exact arithmetic |
| `Method.v` | `numerics/numerical_method/_method.py` | label and verbosity omitted |
| `Numeric.v` | update actions of `_method.py`, `numerics/tools/_operation.py`, `numerics/numerical_core/_numerical_core.py`, `numerics/simulations/simulation.py` (the loop) | reals for floats, `numpy.linalg.inv` is an oracle, lambdify is evaluation; theano and c++ omitted |
| `Graph.v` | `graphs/analysis.py`, `graphs/build.py` | nodes are strings, numpy matrices hold integers |
| `Netlist.v` | `graphs/netlists.py` (text form, sums) | ascii text; python's parser and `eval` outside the printed forms are oracles |
| `Merge.v` | `graphs/subgraph.py` (series and parallel merging) | node bookkeeping of networkx omitted; `solve`, `integrate` given for linear laws |
| `Dict.v`, `Pwl.v` | constitutive laws of `dictionary/*`, `dictionary/pwl/*` | laws as real functions of real parameters |
| `H5.v` | `numerics/simulations/h5data/*` | the dataset is a list of rows; conversions to float64 and file handling omitted; products and quotients of the time index are oracles |
| `SP.v` | `graphs/tools.py` (`serial_next`, `serial_edges`, `parallel_edges`, `getedges`), `graphs/graph.py` (`_split_serial`, `_split_parallel`, `sp_split`, `sp_assemble`, `remove_edges_from_list`) | the orders in which networkx enumerates nodes, edges and neighbors are arbitrary (a record of functions, assumed to enumerate without repetition); of the edge data only type, label and subgraph; the analysis object built for each subgraph is not modelled |
| `Data.v` | `simulations/simulation.py` (`_process_py` into the file), readers of `h5data.py` (`t`, `dtx`, `dtE`, `ps`, `pd`, `E`, `o`, `args`), `_evaluation.py` | reals for floats; vectorised lambdify is row-wise evaluation |
| `Waves.v` | `misc/signals/waves.py` | parametrised by the rounding of floats (identity or binary64 of Flocq); header and resampling omitted |
| `Signal.v` | `misc/signals/synthesis/synthesis_array.py` | reals for floats except in the numbers of samples (any rounding); random numbers from an arbitrary stream; only the linear sweep |
| `Cpp.v` | `numerics/cpp/method2cpp.py`, `arguments.py`, `functions.py`, `operations.py`, `simu2cpp.py` and the template of the main program: the generator, and the meaning of the class it writes | the text is a data structure; reals for doubles; declared types and shapes are checked where a value is assigned (what the C++ compiler or Eigen's assertions reject is an exception); `ccode(e)` evaluates as `e`; labels, includes and the reading of text files omitted |
| `Frac.v` | `dictionary/fraccalc/fractional_integrators.py`, `fractional_derivators.py` | the fit of the weights is an argument; coefficients are values instead of symbols; the laws of the edges are taken in the Laplace domain (`Spec_Frac.v`) |
| `Filter.v` | `misc/signals/processing.py` | reals instead of floats; `numpy.convolve` in mode `same` modelled from its documentation and implementation as known, not run |
| `Beam.v` | `dictionary/beams/_cantilever.py` L24-109 | reals instead of floats; the fourth root written with square roots |

Not modelled: Faust, JUCE and latex generation, plots, the theano back end,
sympy's simplification, numpy's and h5py's internals, floating-point rounding
(except in `Waves.v`/`WavesFloat.v`), the file system beyond a map from names to
contents, command line and logging.

## 2. Organisation

* `Spec_*.v`: small vocabulary of the statements, written without the helpers of
  the model where possible.
* `*Proofs.v` and the files named after an argument (`Elim.v`, `Deriv.v`,
  `Separable.v`, `GraphKirchhoff.v`, ...): proofs.
* `*Examples.v`, `Refutations.v`: concrete systems that meet the hypotheses, and
  counterexamples.
* `Props_*.v`: the property theorems only, each closed by `exact lemma`, with
  `Print Assumptions` and an `Example` beside it.

`MANIFEST.json` lists the theorems of each property and says what each covers;
The theorems of C57 were not tested against wrong programs.
`seeded/LOG.jsonl` lists the wrong programs the theorems were tested against. In an
entry, `failed` lists the theorems that depend on a proof that no longer compiles
after the edit. A proof script can stop although its statement stays true, so a
theorem in that list has not by itself been shown false for the wrong program;
entries where this was noticed say so in `claim`.

## 3. Trusted base

* Coq's kernel (8.16.1) and its virtual machine (`vm_compute`).
* Axioms of the standard library, listed per theorem in section 5; no axiom is
  added, and no other library contributes one.  Flocq is used for the
  definition of binary64 rounding, Coquelicot not at all in statements.
* The reading of the python source: the code was not run.
* Behaviour of external calls, which appear in the statements as arguments with
  hypotheses:
  * `inv` (sympy) in `connect` and `reduce_z`: returns a matrix or fails; the
    theorems assume of a returned matrix that it is an inverse where they need
    it (`Props_Connect`, `Props_Reduce`), and say what a failure leaves behind;
  * `numpy.linalg.inv` in updates (`qinv`-style oracle, exact inverse or
    singular);
  * Eigen's `inverse()`: right where numpy's returns (`cinv_for`), anything elsewhere;
  * python's parser (`valid`) and `eval` (`ev`) in netlists, arbitrary;
  * float product and quotient in the time index of stored data: arbitrary
    functions, with bounds stated where needed;
  * iteration order of python sets and dictionaries: arbitrary (`enumerates`,
    visiting orders in `Props_Numeric`);
  * sympy's `Basic.copy()` is `self.func(*self.args)` and raises TypeError on
    symbols and on numbers other than 0, 1, -1, 1/2 (`expr_copy`);
  * `numpy.random.uniform`: an arbitrary stream of numbers of [0, 1);
  * `sympy.solve` and `sympy.integrate`, on linear laws only, return the solution.

## 4. Findings

Each is a theorem named `..._refuted` (or stated in the theorem named), with a
concrete witness that follows the code.

| property | finding |
|---|---|
| C02 | moving a component past the last one of its kind (as `reduce_z` does with `force_wnl`) moves the row of another kind |
| C04 | a setter called after components were added erases the whole matrix first; overlapping block names do not write what was asked |
| C07 | the remainder `bl` of the gradient of the linear storages may depend on nonlinear states |
| C09 | `core1 + core2` raises ShapeError when the structure of one operand was never set |
| C12 | `add_connector` documents `u0 = alpha*y1`; `connect` imposes the opposite sign |
| C13 | `reduce_z` drops the constant term of an affine law, and the coupling with nonlinear dissipations |
| C15 | `pd()` raises IndexError for a core with connectors |
| C16 | between zero and the tolerance the discrete gradient is the derivative, so the chain rule fails |
| C19 | with the default `split=True`, a nonlinear storage driven by a flow is treated as quadratic and a solved step does not balance |
| C28 | a pwl storage accepted by the checks may have an energy unbounded below; an integrated one may be negative |
| C29 | quoted paths, one-element parentheses, names that look like numbers, and indented comments do not survive the round trip; a missing final semicolon keeps the line end; `net + net` never ends |
| C31 | a variable name declared twice loses data; time -1 can be written but not read; a component index outside a variable reads its neighbours; a dictionary used for two writes overwrites variables its caller never set |
| C32 | no rows: endless loop; surplus rows are ignored or refused according to the chunk size |
| C33 | `stop = start + 0.5` empties the window; load options are shared between simulations; a shorter new run keeps the old stop |
| C34 | the dictionaries of connectors are shared between a core and its copy; a core whose `H` is a lone symbol cannot be copied; `assertions` is not copied |
| C35 | `port2connector` with a negative index moves the wrong row |
| C37 | `substitute(selfall=True)` leaves symbols whose entry is gone; coefficients of connectors are never substituted |
| C38 | the potentiometer creates power when its control leaves [0, 1] |
| C38 | the triode creates power at negative grid voltages, and its grid current is bounded by 1/Rgk: the factor vgk - Va of a resistive grid is missing |
| C40 | two merged components may get the same label |
| C41 | expressions added with `setexpr` are not restored although their names are, and the loaded core can then neither be copied nor saved; a core whose `H` is a lone symbol is saved but not loaded |
| C43 | `freesymbols()` is always empty |
| C44 | `output()` omits the term `Mycy*cu` |
| C45 | the documented gyrator and transformer laws hold for one control only |
| C46 | the outer loop of the analysis may not end; a graph without reference node never gives a core |
| C47 | a label equal to the name of another parameter is captured |
| C48 | the inputs are read back only up to the load options' stop, so a stop left by an earlier use truncates the new simulation silently: the remaining rows stay zero |
| C49 | without observers `E`, `pd` and `dtE('deltaH')` raise ValueError when the step does not divide the window (`//` floors, slices round up); with observers that need arguments `o` is an array of generators and `E` raises; the last value of `dtE('deltaH')` is divided by the step |
| C50 | `sp_assemble` deletes every component whose label contains `_out_`, whether or not anything was split |
| C50 | a loop hung on a node other than the datum (for instance the secondary side of a transformer that touches the rest at one node) becomes a self-loop, which `getedges` then counts as parallel to every edge of that node: `sp_split`, hence `to_core`, never returns |
| C50 | components in parallel between the datum and a node with no other neighbor are not grouped (`degree > 1` counts distinct neighbors), so they are never merged; a bundle between two nodes other than the datum is processed twice, the first subgraph being thrown away (harmless) |
| C51 | `signalgenerator(ncycles=n)` returns the last cycle only, with `ncycles=0` it raises UnboundLocalError; `A` is documented as peak to peak and is half of it; the defaults of `which` and `A1` are not the documented ones |
| C52 | `set_sampleRate` changes neither the matrices nor the vectors whose entries depend on the rate but on no argument (in particular the Jacobian of the linear part), which are computed once in the constructor; it also resets the state |
| C52 | several dictionaries of parameters give a class that does not compile; a dictionary in another order than `method.subs` exchanges the parameters; initial values are rounded to single precision |
| C54 | the flux-controlled fractional derivator has the poles (g mu)^4 xi instead of xi: the coefficient of its transformers is the inverse of what their control requires |
| C55 | `subsinverse` overwrites a parameter that is already called `inv` + another parameter, and raises TypeError when the energy (or a dissipation function) simplifies to a symbol |
| C56 | `lowpass` returns more samples than it is given when the signal is shorter than the filter |
| C57 | `beamLength` raises IndexError for beams that would have to be longer than its grid of 10 m |

Read in the code but not formalised: resampling of waves; `wavread` ignores its
arguments; a parameter of a merged group named `Y` or `y0` is captured; the pwl
documentation names the option `integrate` where the code reads `integ`;
`inverse_alpha` changes the dictionary of the graph itself; `Netlist.__add__`
changes its first operand; `__add__` of cores drops a custom gradient; states
`x` and `dx` collide with the names of increments; `add_dissipations` and
`add_ports` on an unknown type raise UnboundLocalError; `substitute` changes
its caller's dictionary; the constant `pd` is one value short when the step
does not divide the window; `_hstack` slices rows where columns are meant; the
code after `return` in `close` never runs; observers in a simulation read the
previous `dx` and `w`.

## 5. Assumptions of each theorem (`Print Assumptions`)

`-`: closed under the global context.  F: `ClassicalDedekindReals.sig_forall_dec`,
N: `ClassicalDedekindReals.sig_not_dec`, C: `Classical_Prop.classic`,
E: `FunctionalExtensionality.functional_extensionality_dep` (all of the standard
library).

| file | theorem | assumptions |
|---|---|---|
| Props_Add | C09_every_sum_succeeds_refuted | - |
| Props_Add | C09_sum_is_the_uncoupled_union | CEFN |
| Props_Calculus | C15_stored_power_is_the_rate_of_energy | CEFN |
| Props_Calculus | C16_derivative_at_zero_increment | CEFN |
| Props_Calculus | C16_energy_chain_rule | CEFN |
| Props_Calculus | C16_one_component_per_state | - |
| Props_Calculus | C16_small_increments_refuted | CEFN |
| Props_Calculus | C17_energy_chain_rule | CEFN |
| Props_Calculus | C17_gradient_at_zero_increment | CEFN |
| Props_Calculus | C17_one_component_per_state | - |
| Props_Calculus | C18_theta_gradient_on_quadratics | CEFN |
| Props_Calculus | C18_trapezoidal_gradient_on_quadratics | CEFN |
| Props_Calculus | C36_gradient_is_the_derivative | CEFN |
| Props_Calculus | C36_hessian_is_the_second_derivative | CEFN |
| Props_Calculus | C36_jacobian_is_the_derivative | CEFN |
| Props_Connect | C10_connect_eliminates_connected_ports | CEFN |
| Props_Connect | C10_connect_succeeds_or_reports | CEFN |
| Props_Connect | C10_connecting_two_ports | CEFN |
| Props_Connect | C10_sound_inverse_suffices | CEFN |
| Props_Connect | C11_connect_keeps_passivity | CEFN |
| Props_Connect | C12_documented_law_refuted | CEFN |
| Props_Connect | C12_documented_law_with_opposite_gain | CEFN |
| Props_Connect | C35_add_connector | CEFN |
| Props_Connect | C35_connectors_stay_consistent | CEFN |
| Props_Connect | C35_negative_index_refuted | CEFN |
| Props_Connect | C35_port_becomes_last_connector | CEFN |
| Props_Copy | C34_any_sequence | - |
| Props_Copy | C34_assertions_refuted | - |
| Props_Copy | C34_copied_iff | - |
| Props_Copy | C34_independent | - |
| Props_Copy | C34_independent_nested | - |
| Props_Copy | C34_shared_connector_refuted | - |
| Props_Copy | C34_starts_equal | - |
| Props_Copy | C34_symbol_energy_refuted | - |
| Props_Copy | C41_custom_refuted | - |
| Props_Copy | C41_into_any_core | - |
| Props_Copy | C41_round_trip | - |
| Props_Copy | C41_saved | - |
| Props_Copy | C41_symbol_energy_refuted | - |
| Props_Cpp | C52_other_order_refuted | EF |
| Props_Cpp | C52_rate_example_refuted | CEFN |
| Props_Cpp | C52_rate_refuted | CEFN |
| Props_Cpp | C52_rounded_refuted | CEFN |
| Props_Cpp | C52_same_simulation | CEFN |
| Props_Cpp | C52_several_dictionaries_refuted | EF |
| Props_Cpp | C53_built | CEFN |
| Props_Cpp | C53_fails | CEFN |
| Props_Data | C48_file | CEFN |
| Props_Data | C48_stale_stop_refuted | CEFN |
| Props_Data | C49_balance | CEFN |
| Props_Data | C49_dissipated_power | CEFN |
| Props_Data | C49_energy | CEFN |
| Props_Data | C49_energy_balance | CEFN |
| Props_Data | C49_last_value_refuted | CEFN |
| Props_Data | C49_mean_balance | CEFN |
| Props_Data | C49_observers_refuted | CEFN |
| Props_Data | C49_passive | CEFN |
| Props_Data | C49_port_power | CEFN |
| Props_Data | C49_step_refuted | CEFN |
| Props_Data | C49_stored_power | CEFN |
| Props_Data | C49_times | EF |
| Props_Dict | C38_bipolar_transistor | CEFN |
| Props_Dict | C38_diode_branches | EF |
| Props_Dict | C38_diode_junction | CEFN |
| Props_Dict | C38_documented_laws | EF |
| Props_Dict | C38_felt_damper | CEFN |
| Props_Dict | C38_heat_transfer | EF |
| Props_Dict | C38_linear | EF |
| Props_Dict | C38_potentiometer | CEFN |
| Props_Dict | C38_potentiometer_out_of_range_refuted | CEFN |
| Props_Dict | C38_transistor_resistances | EF |
| Props_Dict | C38_triode | CEFN |
| Props_Dict | C38_triode_control | CEFN |
| Props_Dict | C38_triode_grid_current | EFN |
| Props_Dict | C38_triode_negative_grid_refuted | CEFN |
| Props_Dict | C39_cubic_spring | EF |
| Props_Dict | C39_documented_laws | EF |
| Props_Dict | C39_felt | CEFN |
| Props_Dict | C39_heat_capacity | EFN |
| Props_Dict | C39_linear | EF |
| Props_Dict | C39_saturating_magnetic_capacitor | CEFN |
| Props_Dict | C39_saturating_spring | CEFN |
| Props_Dict | C47_label_capture_refuted | CEFN |
| Props_Dict | C47_parameters_reach_the_law | CEFN |
| Props_Filter | C56_linear | EFN |
| Props_Filter | C56_same_length_refuted | EFN |
| Props_Filter | C56_straight_lines_are_kept | EFN |
| Props_Filter | C56_tap_values | EFN |
| Props_Filter | C56_taps | EFN |
| Props_Filter | C56_unit_gain | EFN |
| Props_Filter | C56_wide_band | EFN |
| Props_Beam | C57_frequencies | EFN |
| Props_Beam | C57_length | EFN |
| Props_Beam | C57_length_exists | CEFN |
| Props_Beam | C57_length_is_the_first | CEFN |
| Props_Beam | C57_long_beams_refuted | EFN |
| Props_Beam | C57_wave_numbers | CEFN |
| Props_Frac | C54_derivator_effort | EF |
| Props_Frac | C54_derivator_flux | EF |
| Props_Frac | C54_derivator_flux_refuted | EF |
| Props_Frac | C54_integrator_effort | EF |
| Props_Frac | C54_integrator_flux | EF |
| Props_Frac | C54_loaded_transformer | CEFN |
| Props_Graph | C25_analysis_visits_reachable_states | - |
| Props_Graph | C25_classes_and_columns_stay_aligned | - |
| Props_Graph | C26_structure_is_kirchhoff | CEFN |
| Props_Graph | C27_tellegen | EF |
| Props_Graph | C45_connector_law_by_control | CEFN |
| Props_Graph | C45_connectors_are_lossless | EF |
| Props_Graph | C45_documented_gyrator_refuted | CEFN |
| Props_Graph | C45_documented_transformer_refuted | CEFN |
| Props_Graph | C46_analysis_stops_refuted | E |
| Props_Graph | C46_declared_controls_respected | CEFN |
| Props_Graph | C46_inner_loops_stop | - |
| Props_Graph | C46_reference_node_needed | CEFN |
| Props_H5 | C31_accepted | - |
| Props_H5 | C31_duplicate_name_refuted | - |
| Props_H5 | C31_last_time_refuted | - |
| Props_H5 | C31_neighbour_refuted | - |
| Props_H5 | C31_read_back | - |
| Props_H5 | C31_read_back_component | - |
| Props_H5 | C31_read_back_slice | - |
| Props_H5 | C31_read_back_window | - |
| Props_H5 | C31_reused_dict_refuted | - |
| Props_H5 | C31_sequences | - |
| Props_H5 | C32_chunked | - |
| Props_H5 | C32_empty_refuted | - |
| Props_H5 | C32_surplus_refuted | - |
| Props_H5 | C32_whole | - |
| Props_H5 | C33_integer_window | - |
| Props_H5 | C33_new_run_refuted | - |
| Props_H5 | C33_shared_options_refuted | - |
| Props_H5 | C33_start_stored | - |
| Props_H5 | C33_stop_number | - |
| Props_H5 | C33_stop_stored | - |
| Props_H5 | C33_window_refuted | - |
| Props_Merge | C40_label_clash_refuted | CEFN |
| Props_Merge | C40_merging_keeps_behaviours | CEFN |
| Props_Merge | C40_shared_input_adds | CEFN |
| Props_Method | C19_default_split_refuted | CEFN |
| Props_Method | C19_energy_never_increases | CEFN |
| Props_Method | C19_energy_over_runs | CEFN |
| Props_Method | C19_step_power_balance | CEFN |
| Props_Netlist | C29_indented_comment_refuted | - |
| Props_Netlist | C29_missing_semicolon | - |
| Props_Netlist | C29_numeric_name_refuted | - |
| Props_Netlist | C29_quoted_path_refuted | - |
| Props_Netlist | C29_repeated_parameter | - |
| Props_Netlist | C29_self_sum_refuted | - |
| Props_Netlist | C29_single_element_refuted | - |
| Props_Netlist | C29_sum | - |
| Props_Netlist | C29_text_round_trip | - |
| Props_Numeric | C20_split_loses_no_solution | CEFN |
| Props_Numeric | C20_update_solves | CEFN |
| Props_Numeric | C21_loop_returns | EF |
| Props_Numeric | C21_loop_stops | EF |
| Props_Numeric | C21_method_iterations | CEFN |
| Props_Numeric | C22_simulation_balance | CEFN |
| Props_Numeric | C22_simulation_chains | CEFN |
| Props_Numeric | C23_method_order | - |
| Props_Numeric | C23_order_respects_dependencies | - |
| Props_Numeric | C24_read | - |
| Props_Numeric | C24_write | - |
| Props_Power | C15_dissipated_power_not_negative | CEFN |
| Props_Power | C15_pd_value | CEFN |
| Props_Power | C15_pd_with_connectors_raises | CEFN |
| Props_Power | C15_power_balance | CEFN |
| Props_Power | C43_freesymbols_always_empty | - |
| Props_Power | C43_freesymbols_refuted | - |
| Props_Power | C44_output_missing_term | CEFN |
| Props_Power | C44_output_with_connectors_refuted | CEFN |
| Props_Power | C44_output_without_connectors | CEFN |
| Props_Pwl | C28_dissipative_passive | CEFN |
| Props_Pwl | C28_integrated | CEFN |
| Props_Pwl | C28_integrated_storage_negative_refuted | CEFN |
| Props_Pwl | C28_interpolates | CEFN |
| Props_Pwl | C28_storage_in_range | CEFN |
| Props_Pwl | C28_storage_unbounded_refuted | CEFN |
| Props_Reduce | C13_affine_laws_are_kept_refuted | CEFN |
| Props_Reduce | C13_coupled_laws_are_kept_refuted | CEFN |
| Props_Reduce | C13_reduce_eliminates_linear_dissipations | CEFN |
| Props_Reduce | C13_reduce_succeeds_or_reports | CEFN |
| Props_Reduce | C14_reduce_keeps_passivity | CEFN |
| Props_SP | C50_assemble | - |
| Props_SP | C50_assemble_refuted | - |
| Props_SP | C50_split_complete | - |
| Props_SP | C50_split_complete_refuted | - |
| Props_SP | C50_split_ends | - |
| Props_SP | C50_split_ends_refuted | - |
| Props_SP | C50_split_groups | - |
| Props_SP | C50_split_two_terminal | - |
| Props_Signal | C51_bounded | EFN |
| Props_Signal | C51_cycles_refuted | EFN |
| Props_Signal | C51_peak_to_peak_refuted | EFN |
| Props_Signal | C51_rejected | EFN |
| Props_Signal | C51_samples | EFN |
| Props_Split | C02_sequences_of_moves_keep_alignment | CEFN |
| Props_Split | C07_custom_split | CEFN |
| Props_Split | C07_default_split | CEFN |
| Props_Split | C07_linear_offset_is_constant_refuted | CEFN |
| Props_Split | C07_linear_stiffness_is_constant | CEFN |
| Props_Split | C08_separable_group | CEFN |
| Props_Split | C08_separable_states | CEFN |
| Props_Struct | C02_move_connector_keeps_alignment | CEFN |
| Props_Struct | C02_move_diss_keeps_alignment | CEFN |
| Props_Struct | C02_move_past_end_refuted | CEFN |
| Props_Struct | C02_move_port_keeps_alignment | CEFN |
| Props_Struct | C02_move_stor_keeps_alignment | CEFN |
| Props_Struct | C03_M_is_J_minus_R | CEFN |
| Props_Struct | C03_block_accessors | CEFN |
| Props_Struct | C04_overlapping_blocks_refuted | CEFN |
| Props_Struct | C04_set_J_block | CEFN |
| Props_Struct | C04_set_M_block | CEFN |
| Props_Struct | C04_set_R_block | CEFN |
| Props_Struct | C04_setter_resets_stale_matrix | - |
| Props_Struct | C04_wrong_shape_refused | CEFN |
| Props_Struct | C05_failing_additions_change_nothing | - |
| Props_Struct | C05_successful_additions | - |
| Props_Struct | C05_successful_storages | CEFN |
| Props_Struct | C05_variables_stay_paired | - |
| Props_Struct | C06_block_rows_are_the_block_symbols | - |
| Props_Struct | C06_indices_tile_the_structure | - |
| Props_Subs | C37_connectors_are_substituted_refuted | - |
| Props_Subs | C37_gradient_commutes | CEFN |
| Props_Subs | C37_selfall_applies_the_dictionary | CEFN |
| Props_Subs | C37_selfall_with_chains_refuted | - |
| Props_Subs | C37_substitution_commutes_with_evaluation | CEFN |
| Props_SubsInv | C55_name_clash_refuted | - |
| Props_SubsInv | C55_new_symbols_have_values | CEFN |
| Props_SubsInv | C55_no_inverse_is_left | - |
| Props_SubsInv | C55_no_inverse_is_left_in_the_core | - |
| Props_SubsInv | C55_simplified_symbol_refuted | CEFN |
| Props_SubsInv | C55_values_are_kept | CEFN |
| Props_Tools | C01_myrange_moves_one_index | - |
| Props_Tools | C30_decimate_rejects | - |
| Props_Tools | C30_decimate_takes_every_nd_th | - |
| Props_Tools | C30_find_positions | - |
| Props_Tools | C30_get_strings_flattens | - |
| Props_Tools | C30_interleave_alternates | - |
| Props_Tools | C30_remove_duplicates_first_occurrences | - |
| Props_Waves | C42_faded | EF |
| Props_Waves | C42_floats | CEFN |
| Props_Waves | C42_grid | EF |
| Props_Waves | C42_normalised | EF |
| Props_Waves | C42_within_one_step | EF |
| Props_Waves | C42_written | EF |
