{"id": "C01", "title": "Moving one index inside a range is a permutation that touches nothing else", "statement": "For every length n and every pair of positions i,f inside the range, the reordered range returned for 'move i to f' is a permutation of 0..n-1, holds i at position f, and keeps all other indices in their original relative order; a target at or beyond the end moves the index to the last position.", "quantifier": "all n, all i < n, all f >= 0", "why_tests_cant": "The claim is about every n and every (i,f) pair; a test fixes a few.", "anchors": ["pyphs/misc/tools.py: myrange"]}
{"id": "C02", "title": "Reordering components never changes which equation belongs to which component", "statement": "After any sequence of successful moves of storages, dissipations, ports or connectors, there is one renumbering of the components such that every symbol list (x, w with z, u with y, cu with cy), any stored gradient, and every row and column of the structure matrix M are the original ones read through that renumbering; nothing else in the core changes, apart from the cached linear matrix Zl which is permuted with w or emptied. This holds for moves whose target lies inside the range of their kind; it is refuted for a target past the last component of the kind, as `reduce_z` uses with `force_wnl`: a row of another kind is then moved.", "quantifier": "all cores whose M is square of the total dimension, all sequences of moves", "why_tests_cant": "Quantifies over all cores and all histories of moves.", "anchors": ["pyphs/core/structure/moves.py: move_stor, move_diss, move_port, move_connector, moveCoreMcolnrow"]}
{"id": "C03", "title": "The structure matrix always splits into a skew-symmetric and a symmetric part", "statement": "For every core and every valuation of the symbols, core.M equals core.J() - core.R() entry by entry, core.J() is skew-symmetric and core.R() is symmetric.", "quantifier": "all cores with square M, all valuations, all index pairs", "why_tests_cant": "Must hold for every symbolic matrix and every parameter value.", "anchors": ["pyphs/core/core.py: Core.J, Core.R"]}
{"id": "C04", "title": "Setting a block of J or R changes that block only and keeps the other part", "statement": "Calling core.set_Jab(mat) (or core.set_Rab) with a matrix of the right shape on two distinct variables makes J's ab block equal mat and its ba block equal minus its transpose, leaves R unchanged everywhere, and leaves every other block of M unchanged; set_R does the dual with +transpose; set_M changes only that block. On the diagonal (a = b), set_J yields exactly mat only when mat is skew. This holds for matrices M that have the current size and for disjoint or equal block names. A setter called on an M older than the last added component erases M first, and two overlapping names (x with xl) do not give the block asked for: both are refuted.", "quantifier": "all cores whose M already has the total dimension, all pairs of variables, all matrices of the right shape", "why_tests_cant": "Universal over matrix contents, dimensions and the choice of blocks.", "anchors": ["pyphs/core/core.py: Core._build_set_mat, Core._build_get_mat", "pyphs/core/structure/indices.py: _inds_in_all"]}
{"id": "C05", "title": "Dual variables stay paired through every construction history", "statement": "After any sequence of adding storages, dissipations, ports, parameters, observers, connectors and of moves or connections, len(w)=len(z), len(u)=len(y) and len(cu)=len(cy); an add call that raises leaves the core exactly as it was.", "quantifier": "all sequences of construction calls with arbitrary arguments, including rejected ones", "why_tests_cant": "Invariant over unbounded call histories.", "anchors": ["pyphs/core/core.py: Core.add_storages, Core.add_dissipations, Core.add_ports, Core.add_connector, Core.connect"]}
{"id": "C06", "title": "Block index ranges tile the structure matrix", "statement": "For every core, the index ranges reported for x, w, y, cy are consecutive, disjoint and cover exactly 0..dims.tot(); so are the refined ranges xl, xnl, wl, wnl, y, cy whenever the linear counts do not exceed the dimensions.", "quantifier": "all dimension vectors", "why_tests_cant": "Universal over dimensions.", "anchors": ["pyphs/core/structure/indices.py: Indices", "pyphs/core/structure/dimensions.py: Dimensions"]}
{"id": "C07", "title": "Splitting into linear and nonlinear parts is a stable partition", "statement": "split of a core into linear and nonlinear parts reorders storages (and dissipations) so that the linear ones come first and the nonlinear ones last, each group in its original order; a storage is counted linear exactly when its Hessian column contains no state, increment or dissipation symbol; M stays aligned with the names. The stiffness of the storages counted linear is constant; that their affine remainder is constant too is refuted (it may depend on nonlinear states).", "quantifier": "all cores, all Hessian/Jacobian contents", "why_tests_cant": "The loop is data dependent over any number of components.", "anchors": ["pyphs/core/structure/splits.py: linear_nonlinear"]}
{"id": "C08", "title": "Separable states are exactly those decoupled from every other nonlinear state", "statement": "After monovar_multivar, the states counted as separable (single variable) are exactly the nonlinear states whose mixed second derivatives of H with all other nonlinear states vanish; they come first among the nonlinear states; M stays aligned.", "quantifier": "all cores with a symmetric Hessian", "why_tests_cant": "The loop compares each state only with the ones after it while reordering them.", "anchors": ["pyphs/core/structure/splits.py: monovar_multivar"]}
{"id": "C09", "title": "Adding two cores builds their uncoupled union", "statement": "core1 + core2 has H = H1 + H2, concatenated symbol lists, and each structure block is the diagonal stacking of the operands' blocks: every solution of the sum restricts to a solution of each operand and conversely; J of the sum is skew and R is positive whenever they are in the operands. The operands are not modified. This holds when the structure of both operands has been sized; otherwise the sum raises, so that `every sum succeeds` is refuted.", "quantifier": "all pairs of cores, all valuations", "why_tests_cant": "Universal over both operands.", "anchors": ["pyphs/core/core.py: Core.__add__"]}
{"id": "C10", "title": "Connecting ports eliminates exactly the connected variables", "statement": "When connect() succeeds, for all values of the remaining efforts and flows, the reduced system b = M' a holds exactly when some values of the connected inputs and outputs satisfy the original equations together with the connection law u_c = S y_c; connected variables disappear.", "quantifier": "all cores, all connector lists, all valuations where the loop matrix is invertible", "why_tests_cant": "Equivalence of solution sets for every size and value.", "anchors": ["pyphs/core/core.py: Core.connect"]}
{"id": "C11", "title": "Connecting ports is power preserving", "statement": "If J is skew-symmetric and R = 0 (respectively R is positive semi-definite) before connect(), then the same holds for the connected structure.", "quantifier": "all cores, all connectors, all vectors", "why_tests_cant": "Holds for all sizes, gains and vectors.", "anchors": ["pyphs/core/core.py: Core.connect"]}
{"id": "C12", "title": "The connection law used is the one documented for add_connector", "statement": "The relation imposed by add_connector(indices, alpha) followed by connect() is u[i0] = -alpha*y[i1], u[i1] = alpha*y[i0], for all cores, indices and gains. The documented law, which has the opposite gain (u[i0] = alpha*y[i1], u[i1] = -alpha*y[i0]), is refuted.", "quantifier": "all cores and gains", "why_tests_cant": "Sign conventions are only visible on a universally quantified statement.", "anchors": ["pyphs/core/core.py: Core.add_connector, Core.connect"]}
{"id": "C13", "title": "Eliminating linear dissipation keeps the input/output and state behaviour", "statement": "When reduce_z succeeds (no forced-nonlinear list, and linear dissipation laws of the form z = Zl w), for all values of the remaining variables the reduced system holds exactly when some value of the eliminated linear variables satisfies the original system. For the affine laws and the laws coupled with nonlinear dissipations that the code also eliminates, the equivalence is refuted: the constant term, respectively the coupling, is dropped.", "quantifier": "all cores, all valuations where the loop matrix is invertible", "why_tests_cant": "Equivalence of solution sets for every size and value.", "anchors": ["pyphs/core/structure/R.py: reduce_z"]}
{"id": "C14", "title": "Eliminating linear dissipation keeps passivity", "statement": "If R is positive semi-definite and the symmetric part of the linear dissipation matrix is positive semi-definite, then R of the reduced core is positive semi-definite.", "quantifier": "all cores, all vectors", "why_tests_cant": "All sizes and vectors.", "anchors": ["pyphs/core/structure/R.py: reduce_z"]}
{"id": "C15", "title": "Continuous-time power balance", "statement": "For every core without connectors and every solution of b = M a at an instant: stored power plus dissipated power core.pd() plus the product of inputs and outputs is zero. With connectors `pd()` raises IndexError.", "quantifier": "all cores, all valuations satisfying the structure equation", "why_tests_cant": "For every system and every state.", "anchors": ["pyphs/core/core.py: Core.pd, Core.a, Core.b"]}
{"id": "C16", "title": "The one-variable discrete gradient satisfies the energy chain rule", "statement": "For every energy function and every increment larger than the tolerance in absolute value, discrete gradient times increment equals the exact energy difference; at zero increment it is the derivative. For an increment between zero and the tolerance the code returns the derivative, and the chain rule is refuted there.", "quantifier": "all differentiable H, all states, all increments", "why_tests_cant": "Real-valued for-all statement.", "anchors": ["pyphs/numerics/numerical_method/_discrete_calculus.py: discrete_gradient_monovar"]}
{"id": "C17", "title": "The multi-variable discrete gradient satisfies the energy chain rule", "statement": "For every energy function of any number of variables and every increment of norm at least the tolerance, the scalar product of discrete gradient and increment is the exact energy difference; and at zero increment it is the gradient.", "quantifier": "all H, all dimensions, all increments", "why_tests_cant": "Real-valued for-all statement over all dimensions.", "anchors": ["pyphs/numerics/numerical_method/_discrete_calculus.py: discrete_gradient_multivar"]}
{"id": "C18", "title": "Midpoint and trapezoidal gradients are exact on quadratic energies", "statement": "For every quadratic energy, the theta gradient with theta = 1/2 and the trapezoidal gradient satisfy gradient . increment = exact energy difference; for other theta the error is (theta - 1/2) times the quadratic form of the increment.", "quantifier": "all quadratic forms of any dimension, all theta", "why_tests_cant": "All sizes and values.", "anchors": ["pyphs/numerics/numerical_method/_discrete_calculus.py: gradient_theta, gradient_trapez"]}
{"id": "C19", "title": "A solved time step satisfies the discrete power balance", "statement": "Whenever the implicit equation of a step is solved exactly, the energy difference times the sample rate plus dissipated power plus port power is zero; hence with R and dissipation laws passive and zero input, the stored energy never increases over any number of steps. The implicit equation is that of a method without split or with storages that the split does not mistake; with the default `split=True` and a nonlinear storage driven by a flow the balance of a solved step is refuted.", "quantifier": "all methods with an energy-consistent gradient, all runs of any length", "why_tests_cant": "All systems and all runs.", "anchors": ["pyphs/numerics/numerical_method/_method.py: Method", "pyphs/numerics/numerical_core/_numerical_core.py: Numeric"]}
{"id": "C20", "title": "Splitting the implicit equation into linear and nonlinear parts loses no solution", "statement": "A vector makes the full implicit function vanish exactly when its nonlinear part makes the reduced function vanish and its linear part equals the value computed afterwards from it.", "quantifier": "all sizes, all matrices with invertible linear block", "why_tests_cant": "Equivalence over all values.", "anchors": ["pyphs/numerics/numerical_method/_method.py: set_update_vl, set_update_vnl"]}
{"id": "C21", "title": "The Newton loop always stops and reports why", "statement": "For every residual function and starting point the iteration stops after at most maxit steps, and on exit the residual is at most eps, or the step norm is at most eps, or maxit iterations were made; the reported count is the number of updates applied.", "quantifier": "all iteration maps, all maxit", "why_tests_cant": "Termination for all inputs.", "anchors": ["pyphs/numerics/numerical_core/_numerical_core.py: Numeric._iterexecs"]}
{"id": "C22", "title": "States chain over a simulation", "statement": "In every simulation of any length, the stored state at step n+1 is the stored state at step n plus the stored increment at step n; the number of stored samples is the shorter of the input and parameter sequences; the inputs stored are the ones supplied.", "quantifier": "all input sequences, all iteration maps", "why_tests_cant": "All lengths, all inputs.", "anchors": ["pyphs/numerics/simulations/simulation.py: Simulation._process_py", "pyphs/numerics/numerical_core/_numerical_core.py: Numeric.update"]}
{"id": "C23", "title": "Evaluation order respects dependencies", "statement": "The update actions derived for a method evaluate each function after all the functions it depends on, and no function is listed twice, for every dependency graph without cycles.", "quantifier": "all acyclic dependency tables", "why_tests_cant": "All graphs.", "anchors": ["pyphs/numerics/numerical_method/_method.py: Method.update_actions_deps, Method.setfunc, Method.setoperation"]}
{"id": "C24", "title": "Arguments written are the arguments read", "statement": "For a method with distinct argument symbols, setting a named group of arguments then reading any group returns the new values for the positions shared with the written group and the old values elsewhere.", "quantifier": "all argument lists without duplicates, all values", "why_tests_cant": "All sizes and overlaps.", "anchors": ["pyphs/numerics/numerical_core/_numerical_core.py: get/set arg generators", "pyphs/misc/tools.py: find"]}
{"id": "C25", "title": "Graph analysis keeps its edge classes a contiguous partition", "statement": "At every point of the realizability analysis, the edges are partitioned into effort-controlled, indeterminate and flux-controlled edges stored contiguously in that order, and the incidence matrix columns stay aligned with the edges.", "quantifier": "all graphs, all execution prefixes", "why_tests_cant": "Invariant over the iteration history.", "anchors": ["pyphs/graphs/analysis.py: GraphAnalysis"]}
{"id": "C26", "title": "The structure built from a graph is conservative and equivalent to Kirchhoff's laws", "statement": "For every graph on which analysis succeeds, the interconnection matrix built is skew-symmetric, and the flows and efforts satisfy it exactly when Kirchhoff's current and voltage laws hold on the graph.", "quantifier": "all graphs with an invertible flux-controlled incidence block", "why_tests_cant": "All graphs.", "anchors": ["pyphs/graphs/build.py: buildCore"]}
{"id": "C27", "title": "Power is conserved by every interconnection (Tellegen)", "statement": "For every incidence matrix, flows satisfying the node law and efforts derived from node potentials have zero total power.", "quantifier": "all graphs", "why_tests_cant": "All graphs.", "anchors": ["pyphs/graphs/build.py: buildCore"]}
{"id": "C28", "title": "Piecewise-linear interpolation passes through its data", "statement": "The expression built from data points takes the given value at every data abscissa, up to the documented offset that makes the value at the origin zero, and is linear between consecutive points; the integrated version has it as derivative. A dissipation accepted by the checks is passive; an accepted storage energy is non-negative on the range of its data. That it is bounded below everywhere is refuted, and so is that an accepted integrated one is non-negative.", "quantifier": "all strictly increasing abscissae, any number of points", "why_tests_cant": "All data sets of any length.", "anchors": ["pyphs/dictionary/pwl/tools.py: pwl_func"]}
{"id": "C29", "title": "Netlist text round trip", "statement": "Writing a netlist to its text form and reading it back returns the same components, labels, nodes and arguments, for every netlist whose fields avoid the separators. Refuted outside of these: quoted paths, one-element parentheses, names that read as numbers, indented comments, a missing final semicolon; and `net + net` never ends.", "quantifier": "all netlists of any number of lines and arguments", "why_tests_cant": "Unbounded strings.", "anchors": ["pyphs/graphs/netlists.py: Netlist.read, Netlist.netlist, print_netlist_line"]}
{"id": "C30", "title": "List helpers meet their specification", "statement": "decimate returns exactly the elements at multiples of the factor; remove_duplicates keeps the first occurrence of each element in order; interleave alternates; find returns the elements of the subset in the order of the full list with their positions; get_strings flattens in order.", "quantifier": "all lists, all factors", "why_tests_cant": "All lists.", "anchors": ["pyphs/misc/tools.py: decimate, remove_duplicates, get_strings, find, interleave"]}
{"id": "C31", "title": "Simulation data are read back as written", "statement": "After writing named vectors at any time indices, reading a variable at a time returns the values last written for that variable at that time; variables do not overlap. Refuted for a variable name declared twice, for time -1 (writable but not readable), for a component index outside of its variable, and for a dictionary given to two writes.", "quantifier": "all sequences of writes, all variable tables", "why_tests_cant": "All histories.", "anchors": ["pyphs/numerics/simulations/h5data/h5data.py: h5dump_vecs, _tuple2slice, _dimsinit"]}
{"id": "C32", "title": "Chunked dataset writing equals plain writing", "statement": "Writing a sequence of rows through fixed-size chunks stores exactly the rows in order, whatever the chunk size and whether or not it divides the number of rows. The sequence is not empty and has as many rows as the dataset; refuted otherwise: no row gives an endless loop, surplus rows are ignored or refused according to the chunk size.", "quantifier": "all sequences, all positive chunk sizes", "why_tests_cant": "All lengths and chunk sizes.", "anchors": ["pyphs/numerics/simulations/h5data/tools.py: set_dataset_from_iterable"]}
{"id": "C33", "title": "Load window stays inside the data", "statement": "After any sequence of assignments to data.start and data.stop, whether accepted or rejected, 0 <= start < stop <= nt, provided the numbers assigned to stop are integers. Without that condition the claim is refuted (stop = start + 0.5 empties the window), and so it is when load options are shared between simulations or a shorter run follows.", "quantifier": "all sequences of assignments", "why_tests_cant": "All histories.", "anchors": ["pyphs/numerics/simulations/h5data/h5data.py: start, stop, tstart, tstop"]}
{"id": "C34", "title": "A copied core is independent", "statement": "Any mutation of a copy leaves the original's observable attributes unchanged and conversely, and the copy starts equal to the original. The copy is made exactly when sympy can copy every attribute (H is not a lone symbol). Independence holds as long as the dictionaries inside `connectors`, which are shared, are not changed in place (refuted otherwise); `assertions` is not copied (refuted).", "quantifier": "all cores, all mutation sequences", "why_tests_cant": "Aliasing over all histories.", "anchors": ["pyphs/core/core.py: Core.__copy__"]}
{"id": "C35", "title": "Converting a port to a connector keeps the equations", "statement": "Turning port i into a connector moves exactly that port's symbols and row/column to the end and keeps every other entry aligned with its symbol. The index is not negative; for a negative index the claim is refuted: another row is moved.", "quantifier": "all cores with distinct port symbols, all port indices in range", "why_tests_cant": "All sizes.", "anchors": ["pyphs/core/structure/connectors.py: port2connector", "pyphs/core/core.py: Core.add_connector"]}
{"id": "C36", "title": "Symbolic gradients are derivatives", "statement": "The gradient, Hessian and Jacobian of every expression evaluate to the true partial derivatives wherever the expression is smooth.", "quantifier": "all expressions, all valuations in the domain", "why_tests_cant": "All expressions.", "anchors": ["pyphs/core/maths/_calculus.py: gradient, hessian, jacobian"]}
{"id": "C37", "title": "Substituting values commutes with evaluation", "statement": "Substituting parameters by values or expressions in every expression of a core and then evaluating equals evaluating the original core with the parameters set to those values. With `selfall=True` this holds when no value of the dictionary contains a key; refuted with such chains, and for the coefficients of connectors, which are never substituted.", "quantifier": "all cores, all substitution dictionaries without self reference", "why_tests_cant": "All expressions.", "anchors": ["pyphs/core/tools/_substitutions.py: substitute_core"]}
{"id": "C38", "title": "Dissipative components never create power", "statement": "For every documented (positive) choice of parameters, the resistor, damper, diode, bipolar transistor, potentiometer and felt damper laws satisfy w . z(w) >= 0 for all w, and where both control forms are given they are inverse of one another. The control of the potentiometer lies in [0, 1]: outside of it the claim is refuted. The triode satisfies it for nonnegative voltages; its plate current vanishes without plate voltage and increases with the grid voltage. For all its parameters there is a negative grid voltage at which it creates power, and its grid current stays below 1/Rgk at all voltages.", "quantifier": "all positive parameters, all real voltages/currents", "why_tests_cant": "Real-valued for-all statement with exponentials.", "anchors": ["pyphs/dictionary/edges/dissipatives.py", "pyphs/dictionary/electronics/_diode.py", "pyphs/dictionary/electronics/_bjt.py", "pyphs/dictionary/electronics/_potentiometer.py", "pyphs/dictionary/mechanics/_felt.py", "pyphs/dictionary/electronics/_triode.py: Triode"]}
{"id": "C39", "title": "Storage components have energy bounded below and the documented force law", "statement": "Linear storages, the cubic spring, the saturating spring (inside its range) and the heat capacity have non-negative energy for positive parameters, and the derivative of the energy is the documented constitutive law.", "quantifier": "all positive parameters, all states in range", "why_tests_cant": "Real-valued for-all statement.", "anchors": ["pyphs/dictionary/edges/storages.py", "pyphs/dictionary/mechanics/_springcubic.py", "pyphs/dictionary/mechanics/_springsat.py", "pyphs/dictionary/thermics/_capacitor.py"]}
{"id": "C40", "title": "Merging series or parallel linear components is exact", "statement": "Replacing a series or parallel group of linear components by the merged component keeps the set of terminal behaviours. The labels of the merged components are distinct from the others; refuted otherwise (two merged components may take the same label).", "quantifier": "all groups of any size, all positive values", "why_tests_cant": "All sizes.", "anchors": ["pyphs/graphs/subgraph.py: merge methods"]}
{"id": "C41", "title": "Save and load round trip", "statement": "Saving a core and loading it gives a core with equal symbols, expressions, structure, substitutions and observers. This holds when sympy can copy every attribute of the core and no custom name clashes; the expressions added with `setexpr` are not restored, and a core whose H is a lone symbol is saved but not loaded (both refuted).", "quantifier": "all cores", "why_tests_cant": "All cores.", "anchors": ["pyphs/core/core.py: Core.save, Core.load"]}
{"id": "C42", "title": "Wave export quantises within one step and clips nothing in range", "statement": "Writing a signal in [-1,1] and reading it back gives each sample within one quantisation step, for every sample.", "quantifier": "all samples in range", "why_tests_cant": "All real sample values.", "anchors": ["pyphs/misc/signals/waves.py: wavwrite, wavread"]}
{"id": "C43", "title": "The free symbols of a core are all the symbols of its expressions", "statement": "core.freesymbols() returns the empty set for every core. (That it contains the symbols of H, z, the structure matrix and the other registered expressions, as its name and documentation say, is refuted.)", "quantifier": "all cores", "why_tests_cant": "All cores.", "anchors": ["pyphs/core/core.py: Core.freesymbols"]}
{"id": "C44", "title": "The symbolic output is the y row of the structure equation", "statement": "core.output() evaluates to Myx dxH + Myw z + Myy u for every core; this is y, the output row of the structure equation, when the core has no connector. With connectors the term Mycy cu is missing, so that the equality with y is refuted.", "quantifier": "all cores, all valuations", "why_tests_cant": "All cores.", "anchors": ["pyphs/core/structure/output.py: output_function"]}
{"id": "C45", "title": "A connector of a graph imposes the power-preserving law of its control", "statement": "When a graph with gyrators and transformers is turned into a core, the relation cu = alpha * [[0,-1],[1,0]] cy of each connector is, in terms of the efforts and flows of its two edges, the gyrator (or transformer) law belonging to the control chosen by the analysis, with the given ratio alpha, and exchanges power without loss. That the documented law holds whatever the control is refuted.", "quantifier": "all graphs with distinct labels and linked connector pairs, all ratios, all controls chosen by the analysis, all efforts and flows", "why_tests_cant": "The law depends on the control chosen by the analysis, and the tests only build a few graphs.", "anchors": ["pyphs/graphs/analysis.py: set_edge_ec, set_edge_fc, link_connector, inverse_alpha", "pyphs/graphs/graph.py: Graph.to_core", "pyphs/dictionary/edges/connectors.py"]}
{"id": "C46", "title": "Graph analysis terminates and honours declared controls", "statement": "When the realizability analysis gives a core, each edge declared effort-controlled (flux-controlled) is in the corresponding class; the inner loops of the analysis stop on every graph; a graph without reference node gives no core. That the whole analysis stops on every graph is refuted.", "quantifier": "all graphs, any number of passes", "why_tests_cant": "Termination of a while loop on all graphs.", "anchors": ["pyphs/graphs/analysis.py: GraphAnalysis.perform, iteration, iterate_nodes, iterate_fc, iterate_ic, unlock"]}
{"id": "C47", "title": "Component parameters reach the law", "statement": "The law of a component, after its parameter names have been replaced by the symbols that stand for them and these take the values recorded in the substitutions, is the documented law at the values given by the caller; free labels become parameters of the core. No label is the name of another parameter of the component: otherwise it is captured, and the claim is refuted.", "quantifier": "all laws, all lists of parameters of any length, all valuations", "why_tests_cant": "All combinations of names; replacement is sequential so names may capture each other.", "anchors": ["pyphs/dictionary/tools.py: form, mappars", "pyphs/dictionary/edges/dissipatives.py: DissipativeNonLinear", "pyphs/dictionary/edges/storages.py: StorageNonLinear"]}
{"id": "C48", "title": "A simulation fills its results file with the values of its run", "statement": "When `Simulation.process` has run, row t of the results file holds the values x, dx, w, dxH, z, y (and the other recorded names) that the numerical core has after its t-th update, with the t-th inputs and parameters; there is one row per step. This holds when the stop left in the load options by an earlier use does not cut the sequences; otherwise the rows written are the first ones, the others stay zero, and the claim is refuted.", "quantifier": "For all methods, initial states, input and parameter sequences, lists of recorded names, load options, lengths.", "why_tests_cant": "The file is written chunk by chunk while a generator re-reads it through the load options; a truncated run gives zeros, which look like a legitimate equilibrium.", "anchors": ["pyphs/numerics/simulations/simulation.py", "pyphs/numerics/simulations/h5data/h5data.py"]}
{"id": "C49", "title": "The power and energy signals read back from a results file obey the power balance", "statement": "For the results file of a simulation and any accepted selection of times, `t`, `dtE`, `ps`, `pd` and `E` return one value per selected time: the time, the stored power dxH.dtx, the power u.y given at the ports, the dissipated power, the energy H(x); and at every selected time stored + dissipated + port power vanish, with pd >= 0 for a passive core, and H of consecutive rows differing by the stored energy. This holds when the step divides the window and the observers need no argument; otherwise `E` raises ValueError (refuted). That the last value of `dtE('deltaH')` is a stored power of the selection is refuted too when steps are skipped.", "quantifier": "For all methods and numerical cores, all runs, selections (start, stop, step), observers and parameters.", "why_tests_cant": "The identity must hold between five separately coded readers, each with its own slices, for every selection and core.", "anchors": ["pyphs/numerics/simulations/h5data/h5data.py", "pyphs/numerics/simulations/h5data/_evaluation.py", "pyphs/numerics/simulations/simulation.py"]}
{"id": "C50", "title": "Series/parallel splitting of a graph loses nothing", "statement": "`Graph.sp_split` ends; every group it forms is a chain or a bundle of edges between the two terminals of the edge that replaces it, and shares no other node with the rest of the circuit; when it ends no series or parallel connection is left; and `sp_assemble` gives back exactly the edges of the circuit. This holds for circuits in which no node but the datum cuts a part off and no label contains `_out_`. Refuted otherwise: a loop hung on a node gives an endless loop, a component whose label contains `_out_` is deleted, and a bundle between the datum and a node with no other neighbor is not grouped.", "quantifier": "For all circuits of any size, all orders in which networkx enumerates nodes, edges and neighbors.", "why_tests_cant": "Chains, forks, loops and nested groups combine without bound, and the enumeration order depends on the history of the dictionaries.", "anchors": ["pyphs/graphs/tools.py: serial_next, serial_edges, parallel_edges, getedges", "pyphs/graphs/graph.py: _split_serial, _split_parallel, sp_split, sp_assemble, remove_edges_from_list"]}
{"id": "C51", "title": "Generated signals are the documented ones", "statement": "For every accepted set of keywords, `signalgenerator` returns ndeb samples of background noise, then one cycle (carrier under attack, decay and ramp plus offset, then the offset alone for the off part), then nend samples of background noise: ndeb + nsig + nend samples in all, none above the amplitude of the carrier plus offset plus noise. The carrier is the one named by `which`. An unknown name, or no cycle, raises. (The documentation promises ncycles cycles and a peak-to-peak amplitude: both are refuted.)", "quantifier": "For all keywords, durations and sample rates (any rounding of the numbers of samples), all streams of random numbers.", "why_tests_cant": "The signal depends on a dozen real parameters and on random numbers; lengths depend on the truncation of float products.", "anchors": ["pyphs/misc/signals/synthesis/synthesis_array.py: signalgenerator, build_parameters, sine, cosine, sweep_cosine, constant, randomuniform"]}
{"id": "C52", "title": "The generated C++ class computes what the numerical core in python computes", "statement": "For a numerical core that could be built, `method2cpp` succeeds; the constructor of the class gives, whatever the memory contains, an instance whose arguments and accessors have the values of the python object; and for every sequence of inputs and parameters the main loop of the generated program writes the rows that the python simulation records, and leaves the same values. `set_sampleRate` with the rate in force resets the instance to its initial values. This holds for one dictionary of parameters in the order of `method.subs`, and initial values representable in single precision; it is refuted for another order, for several dictionaries, for other initial values (rounded), and for a change of the sample rate, which the entries that depend on no argument ignore.", "quantifier": "For all methods (linear, nonlinear or both), cores, parameters, initial values, sequences of inputs, contents of uninitialised memory; numpy.linalg.inv and Eigen's inverse are arbitrary but right.", "why_tests_cant": "The class is code written by code: agreement must hold for every core, and bit-identical runs on examples say nothing of other structures, shapes (empty blocks, columns) or update orders.", "anchors": ["pyphs/numerics/cpp/method2cpp.py: method2cpp", "pyphs/numerics/cpp/arguments.py", "pyphs/numerics/cpp/functions.py", "pyphs/numerics/cpp/operations.py", "pyphs/numerics/cpp/simu2cpp.py", "pyphs/templates/cpp/simu_main.template"]}
{"id": "C53", "title": "A numerical core just built is consistent", "statement": "Building a numerical core from initial values of the right sizes gives an object whose arguments are these values (zero where none is given) and whose every function and operation holds its value at these arguments, or raises because a matrix of the update, at these arguments, is singular; it raises nothing else.", "quantifier": "For all methods, dictionaries of initial values, iteration orders of the dependency sets.", "why_tests_cant": "Depends on the order in which values are evaluated for every structure of the method.", "anchors": ["pyphs/numerics/numerical_core/_numerical_core.py: Numeric.build, _build_arg, _build_func, _build_op, _build_eval", "pyphs/numerics/numerical_method/_method.py: update_actions_deps"]}
{"id": "C54", "title": "Fractional integrators and derivators have the fitted transfer function", "statement": "Between its two terminals, at every complex frequency s that is not a pole, a fractional integrator of gain g whose optimizer returned the weights mu_n for the poles xi_n has flux = g sum_n mu_n/(s+xi_n) effort (`Fracintec`) or effort = g sum_n mu_n/(s+xi_n) flux (`Fracintfc`, when some weight is positive), and what enters at one terminal leaves at the other one; the effort-controlled derivator `Fracderec` has flux = g s sum_n mu_n/(s+xi_n) effort. The first edge of each of their transformers has, in every core built, the control declared by the storage that loads it. For `Fracderfc` the corresponding law is refuted: its impedance is sum_n g mu_n s/(s + (g mu_n)^4 xi_n).", "quantifier": "For all labels, terminals, gains, numbers of poles, poles and nonnegative weights, complex frequencies, potentials and flows of the network.", "why_tests_cant": "The network has as many branches as the optimizer keeps poles; agreement must hold at all frequencies and for all weights, and the component is only observable through a whole simulation.", "anchors": ["pyphs/dictionary/fraccalc/fractional_integrators.py: Fracintec, Fracintfc, fractionalIntegratorWeights", "pyphs/dictionary/fraccalc/fractional_derivators.py: Fracderec, Fracderfc, fractionalDifferenciatorWeights", "pyphs/dictionary/edges/connectors.py: Connector"]}
{"id": "C55", "title": "Replacing inverses of parameters keeps the values", "statement": "`core.subsinverse()` replaces negative powers of the parameters in `core.subs` by symbols `inv...`: the entries of `core.subs` are kept, the new ones are inverses of entries, every valuation of the old symbols extends to the new ones, and all expressions of the core keep their values, also when the call raises. When the simplifier does nothing and nothing is raised, no expression of the core has a negative power of a parameter left. It presupposes that a key `inv...` is the inverse of another entry: otherwise the value of such a parameter is overwritten (refuted). An energy that simplifies to a symbol raises TypeError (refuted).", "quantifier": "For all cores, dictionaries, valuations and value-preserving simplifiers.", "why_tests_cant": "The replacement walks expressions of any depth and updates the dictionary while it does; equality of values is a for-all statement over reals.", "anchors": ["pyphs/core/tools/_subsinverse.py: subsinverse_scalar, subsinverse_vector, subsinverse_matrix, subsinverse_dict, subsinverse_core", "pyphs/core/core.py: Core.subsinverse"]}
{"id": "C56", "title": "The lowpass filter is linear, has no delay and unit gain", "statement": "`lowpass(s, fc, tbw)` convolves with an odd number (at least 4/(tbw fc)) of taps that are the same read backwards and, when the sum that it divides by is not zero, add up to one; up to a gain they are the response of the ideal filter with the cutoff lowered by the transition band, in a Blackman window; where the signal is a straight line over the length of the filter, the output equals the signal at the same index; filtering is linear in the signal. The sum is positive when no tap lies beyond the first zero of the sinc. A signal shorter than the filter gives an output longer than the signal (equal length refuted).", "quantifier": "For all signals, cutoff frequencies in (0, 1/2] and relative transition bands in (0, 1].", "why_tests_cant": "For-all statement over real signals and parameters; the number of taps depends on the parameters.", "anchors": ["pyphs/misc/signals/processing.py: lowpass"]}
{"id": "C57", "title": "The grid searches of the cantilever beam find its length and its wave numbers", "statement": "`beamLength(f0, Kb, Mb)` returns a length within one grid step (10/9999999 m) below an exact length for which f0 is an eigen frequency; the characteristic function is positive on the grid up to it; it returns one when the wave number of f0 is between (pi+1)/10 and 999999, and raises IndexError below pi/20. `waveNumbers(N, Lb, Kb, Mb)` returns exactly N increasing wave numbers, each within one grid step below an exact solution of cosh(k L) cos(k L) + 1 = 0, and the frequencies with (2 pi f)^2 Mb = Kb k^4.", "quantifier": "For all positive frequencies, rigidities, masses and lengths and all numbers of modes N >= 1.", "why_tests_cant": "For-all statement over real parameters and the number of modes; that there are enough changes of sign for every N is an analytic fact.", "anchors": ["pyphs/dictionary/beams/_cantilever.py: beamLength, waveNumbers"]}
