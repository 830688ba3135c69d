{"id": "C01", "title": "Trimming keeps exactly the requested species", "statement": "reduce_model.trim(model, exclusion_list, ...) returns a model whose species are the original species whose names are not in the exclusion list, in the original order and otherwise unchanged; names in the list that the model does not contain have no effect; if no species is left the call raises instead of returning a model.", "quantifier": "for every mechanism and every exclusion list (any length, duplicates and unknown names included)", "why_tests_cant": "tests exclude a handful of species from one or two mechanisms; the claim ranges over all mechanisms and all subsets", "anchors": ["src/pymars/reduce_model.py: trim"]}
{"id": "C02", "title": "Trimming keeps exactly the self-contained reactions and leaves no dangling reference", "statement": "After trim, a reaction is present iff all its reactants and products are kept and it is not an explicit-third-body reaction whose collider was removed. Kept reactions stay in order and change only in their third-body efficiencies, which are restricted to kept species. Hence no reactant, product or collider of the result names a removed species.", "quantifier": "for every mechanism and every exclusion list", "why_tests_cant": "the set of reactions affected depends on the interaction of arbitrary stoichiometries with arbitrary exclusion sets", "anchors": ["src/pymars/reduce_model.py: trim"]}
{"id": "C03", "title": "Trimming in steps versus trimming at once", "statement": "Trimming a set A and then a set B should give the same model as trimming A and B together (sensitivity analysis trims one by one, the graph methods trim at once). The code satisfies this only when no reaction has a third body with zero default efficiency and several named colliders; otherwise the two results differ.", "quantifier": "for every mechanism and every pair of exclusion lists; the exception is exhibited", "why_tests_cant": "an algebraic law over all inputs; the failing case needs a rare kind of third body", "anchors": ["src/pymars/reduce_model.py: trim"]}
{"id": "C04", "title": "Duplicate-marked reactions survive or vanish together", "statement": "If two reactions have the same reactants, products and third body (so that they are a valid duplicate pair), trim keeps both or removes both; a reduced model therefore never contains one half of a duplicate pair.", "quantifier": "for every mechanism, pair of reactions and exclusion list", "why_tests_cant": "would need every mechanism with duplicates and every exclusion list", "anchors": ["src/pymars/reduce_model.py: trim"]}
{"id": "C05", "title": "DRG interaction coefficients match their definition", "statement": "create_drg_matrix returns, for A != B, sum_i |nu_Ai w_i d_Bi| / sum_i |nu_Ai w_i| over ALL reactions (0 when the denominator is 0) and 0 on the diagonal; every entry lies in [0,1]; skipping reactions with zero net rate changes nothing; scaling every rate by the same nonzero factor changes nothing.", "quantifier": "for every stoichiometry and every vector of net rates of progress, in exact arithmetic", "why_tests_cant": "tests compare a few matrices; bounds and scale invariance concern all rates", "anchors": ["src/pymars/drg.py: create_drg_matrix", "docs/theory.rst"]}
{"id": "C06", "title": "DRGEP interaction coefficients match their definition", "statement": "create_drgep_matrix returns, for A != B, |sum_i nu_Ai w_i d_Bi| / max(P_A, C_A), and 0 on the diagonal or when the denominator is 0; every entry lies in [0,1]; reversing the sign of all rates or scaling them changes nothing.", "quantifier": "for every stoichiometry and every vector of net rates of progress, in exact arithmetic", "why_tests_cant": "the bound by 1 is what the path search relies on and concerns every rate vector", "anchors": ["src/pymars/drgep.py: create_drgep_matrix", "docs/theory.rst"]}
{"id": "C07", "title": "PFA interaction coefficients match their definition despite in-place updates", "statement": "create_pfa_matrix returns, for A != B, the first-generation production and consumption coefficients plus the second-generation sums over intermediates M different from A and B, and 0 on the diagonal. The in-place zeroing of array views during the loop never corrupts an entry that is still to be read.", "quantifier": "for every stoichiometry, rate vector and number of species", "why_tests_cant": "an aliasing argument over an arbitrary number of loop iterations", "anchors": ["src/pymars/pfa.py: create_pfa_matrix", "docs/theory.rst"]}
{"id": "C08", "title": "Graph search returns exactly the reachable species", "statement": "trim_drg and trim_pfa return, without repetition, exactly the species reachable from some target along edges whose coefficient is nonzero and at least the threshold; the targets themselves are always included; a target that is not a species of the model raises an error.", "quantifier": "for every matrix, set of names, targets and threshold", "why_tests_cant": "reachability over arbitrary graphs, including cycles and disconnected parts", "anchors": ["src/pymars/drg.py: trim_drg, graph_search", "src/pymars/pfa.py: trim_pfa, graph_search"]}
{"id": "C09", "title": "Raising the threshold never adds species", "statement": "For DRG, PFA and DRGEP alike, the species kept at a higher threshold are a subset of those kept at a lower threshold.", "quantifier": "for every set of matrices, targets, safe list and pair of thresholds", "why_tests_cant": "a monotonicity law over all inputs", "anchors": ["src/pymars/drg.py: trim_drg, reduce_drg", "src/pymars/pfa.py: trim_pfa, reduce_pfa", "src/pymars/drgep.py: reduce_drgep"]}
{"id": "C10", "title": "The modified Dijkstra search finds the maximum path product", "statement": "If every edge weight is in [0,1], ss_dijkstra_path_length_modified terminates, its keys are exactly the nodes reachable from the source, the source has value 1, and every other value is the maximum over all paths of the product of weights.", "quantifier": "for every finite directed graph with weights in [0,1] and every source", "why_tests_cant": "the search uses a min-heap with relabelling, so correctness and termination need an invariant over arbitrary graphs", "anchors": ["src/pymars/drgep.py: mod_dijkstra, ss_dijkstra_path_length_modified"]}
{"id": "C11", "title": "The modified Dijkstra search need not terminate when a weight exceeds 1", "statement": "On a graph with a cycle that avoids the source and whose weights multiply to more than 1, the search never finishes. Rounding can make a DRGEP coefficient exceed 1 when the numerator and the denominator are summed in different orders.", "quantifier": "for every amount of execution steps on the exhibited graphs", "why_tests_cant": "no finite test shows that a loop never ends", "anchors": ["src/pymars/drgep.py: mod_dijkstra, create_drgep_matrix"]}
{"id": "C12", "title": "A cutoff suppresses the whole search", "statement": "ss_dijkstra_path_length_modified documents that paths within the cutoff are returned; in fact with any cutoff that is not None the result contains only the source.", "quantifier": "for every graph, source and cutoff", "why_tests_cant": "quantifies over all graphs and cutoffs", "anchors": ["src/pymars/drgep.py: mod_dijkstra, ss_dijkstra_path_length_modified"]}
{"id": "C13", "title": "DRGEP overall importance is the best path over targets and states", "statement": "get_importance_coeffs gives each species the maximum, over all sampled states and all targets, of the maximal path product from the target; targets get 1, unreachable species get 0, and all values are in [0,1].", "quantifier": "for every list of matrices with entries in [0,1], every list of names and targets", "why_tests_cant": "combines an optimal-path search with two maximisations over arbitrary lists", "anchors": ["src/pymars/drgep.py: graph_search_drgep, get_importance_coeffs"]}
{"id": "C14", "title": "Species always kept by a reduction step", "statement": "reduce_drg and reduce_pfa with at least one sampled state keep every target and every safe species; reduce_drgep keeps every safe species, and every target as long as the threshold does not exceed 1. Above 1 DRGEP removes targets, and without any sampled state DRG and PFA remove targets too.", "quantifier": "for every model, matrices, thresholds, targets and safe list", "why_tests_cant": "ranges over all inputs, including thresholds the driver loop can reach only after many iterations", "anchors": ["src/pymars/drg.py: reduce_drg", "src/pymars/pfa.py: reduce_pfa", "src/pymars/drgep.py: reduce_drgep"]}
{"id": "C15", "title": "Reusing the previous model is invisible", "statement": "While a driver raises its threshold, the shortcut that returns the previous model instead of trimming again returns the same species and reactions that trimming at the new threshold would give.", "quantifier": "for every model, matrices, targets, safe list and increasing sequence of thresholds", "why_tests_cant": "the shortcut compares only counts; that equal counts imply equal sets is an invariant over the whole history of thresholds", "anchors": ["src/pymars/drg.py: reduce_drg, run_drg", "src/pymars/pfa.py: reduce_pfa, run_pfa", "src/pymars/drgep.py: reduce_drgep, run_drgep"]}
{"id": "C16", "title": "The returned reduced model meets the error limit", "statement": "When run_drg, run_drgep or run_pfa returns normally for a non-negative limit, the error of the returned model does not exceed the limit, provided simulations are deterministic, the detailed model itself evaluates within the limit, and threshold arithmetic is exact.", "quantifier": "for every model, conditions, limit and behaviour of the simulator", "why_tests_cant": "the final model is recomputed at a threshold stepped back from the failing one and never re-checked; correctness is a loop invariant", "anchors": ["src/pymars/drg.py: run_drg", "src/pymars/drgep.py: run_drgep", "src/pymars/pfa.py: run_pfa"]}
{"id": "C17", "title": "Stepping the threshold back in floating point does not restore the accepted threshold", "statement": "In binary64 the step back (t + inc) - 2*inc can differ from the threshold accepted one iteration earlier, so the returned model can differ from the accepted one and exceed the limit.", "quantifier": "exhibited for the driver's own constants; thresholds themselves never decrease while the loop runs, for every number of iterations", "why_tests_cant": "needs a coefficient exactly at a rounding boundary", "anchors": ["src/pymars/drg.py: run_drg", "src/pymars/drgep.py: run_drgep", "src/pymars/pfa.py: run_pfa"]}
{"id": "C18", "title": "The driver gives up only after every starting threshold failed", "statement": "run_drg and run_pfa raise SystemExit exactly when the models at the starting thresholds 0.01, 0.001 and 0.0001 all exceed the limit; run_drgep additionally tries 0.00001 (and, in binary64, 1.0000000000000002e-06).", "quantifier": "for every model, conditions and simulator behaviour", "why_tests_cant": "control flow over all error sequences", "anchors": ["src/pymars/drg.py: run_drg", "src/pymars/drgep.py: run_drgep", "src/pymars/pfa.py: run_pfa"]}
{"id": "C19", "title": "Termination of the threshold loop", "statement": "The threshold loop terminates if the model left at the highest thresholds (targets and safe species; for DRGEP the safe species) exceeds the error limit, or if nothing is left there. If every model along the way is within the limit, the driver never returns.", "quantifier": "for every model and simulator; the non-termination claim covers every number of iterations", "why_tests_cant": "tests cannot observe non-termination, and termination needs a bound on all coefficients", "anchors": ["src/pymars/drg.py: run_drg", "src/pymars/drgep.py: run_drgep", "src/pymars/pfa.py: run_pfa"]}
{"id": "C20", "title": "The returned file holds the returned model", "statement": "After a normal return of run_drg, run_drgep or run_pfa, the returned filename exists and its content is the returned model; every file other than <path>/reduced_<k>.yaml is untouched, apart from the sampled-data files.", "quantifier": "for every run, whatever files existed before", "why_tests_cant": "files are created and deleted along the whole history of iterations", "anchors": ["src/pymars/drg.py: run_drg", "src/pymars/drgep.py: run_drgep", "src/pymars/pfa.py: run_pfa", "src/pymars/soln2yaml.py: write"]}
{"id": "C21", "title": "Intermediate files: left-overs and loss of the input", "statement": "A rejected first attempt leaves its reduced_<k>.yaml behind, and an input model whose own name is reduced_<k>.yaml is overwritten and deleted when an intermediate model has k species.", "quantifier": "exhibited runs", "why_tests_cant": "depends on a particular history of errors and names", "anchors": ["src/pymars/drg.py: run_drg"]}
{"id": "C22", "title": "Limbo species of DRG and PFA", "statement": "Limbo species should be those between the two thresholds. reduce_drg instead reports all species reachable at the upper threshold, which always includes the targets; reduce_pfa always reports none.", "quantifier": "for every model, matrices, targets and thresholds", "why_tests_cant": "a statement about all inputs; the existing test pins the wrong set for one input", "anchors": ["src/pymars/drg.py: reduce_drg", "src/pymars/pfa.py: reduce_pfa", "docs/theory.rst"]}
{"id": "C23", "title": "DRGEP limbo species depend on the history of the process", "statement": "In a fresh process run_drgep reports as limbo exactly the non-safe species of the returned model whose importance is below the upper threshold; because the default list of the result type is shared, a later call in the same process also reports the species of earlier calls.", "quantifier": "for every sequence of calls", "why_tests_cant": "a property of call histories; a single call in a test process may or may not show it", "anchors": ["src/pymars/drgep.py: run_drgep", "src/pymars/reduce_model.py: ReducedModel"]}
{"id": "C24", "title": "Sensitivity analysis never exceeds the limit and removes only candidates", "statement": "run_sa returns a model whose error is at most the limit, or is the unchanged starting model with the starting error; it removes only species from the candidate list, never a safe species when the list is the default one; it ends after at most as many rounds as there are candidates.", "quantifier": "for every model, candidate list, algorithm type, limit and simulator behaviour without NaN errors", "why_tests_cant": "a loop invariant over arbitrary error sequences", "anchors": ["src/pymars/sensitivity_analysis.py: run_sa, evaluate_species_errors"]}
{"id": "C25", "title": "Greedy sensitivity analysis crashes when it succeeds on every candidate", "statement": "With algorithm 'greedy', if every candidate can be removed within the limit, run_sa raises ValueError instead of returning the model.", "quantifier": "for every model and candidate list whose removals all stay within the limit", "why_tests_cant": "needs the whole candidate list to be exhausted", "anchors": ["src/pymars/sensitivity_analysis.py: run_sa"]}
{"id": "C26", "title": "The file name reported by sensitivity analysis", "statement": "run_sa returns a filename that exists only if path is empty: it writes to <path>/<name> but reports <name>.", "quantifier": "for every run and path", "why_tests_cant": "concerns all paths and file-system states", "anchors": ["src/pymars/sensitivity_analysis.py: run_sa", "src/pymars/soln2yaml.py: write"]}
{"id": "C27", "title": "Standalone sensitivity analysis uses zero reference metrics", "statement": "sample_metrics(reuse_saved=True) without a saved file returns zeros for ignition delays and flame speeds instead of computing them, so standalone run_sa with such conditions removes nothing unless the limit is 100 or more.", "quantifier": "for every model, non-empty list of conditions and simulator behaviour", "why_tests_cant": "depends on the state of the working directory", "anchors": ["src/pymars/sampling.py: sample_metrics, read_metrics", "src/pymars/sensitivity_analysis.py: run_sa"]}
{"id": "C28", "title": "What the error number guarantees", "statement": "calculate_error <= limit < 100 implies that every test metric is nonzero and within limit percent of its reference; the error is 0 iff all metrics agree; it does not depend on the order of the cases; any zero test metric gives exactly 100, even when another metric is off by more.", "quantifier": "for all vectors of positive reference metrics and all test metrics", "why_tests_cant": "ranges over all vectors", "anchors": ["src/pymars/sampling.py: calculate_error"]}
{"id": "C29", "title": "A NaN metric defeats the error check", "statement": "If a metric of a candidate is NaN, run_sa accepts the candidate, and the graph drivers leave their loop and crash while writing.", "quantifier": "for every candidate whose error is NaN", "why_tests_cant": "needs a failing numerical simulation", "anchors": ["src/pymars/sampling.py: calculate_error", "src/pymars/sensitivity_analysis.py: run_sa", "src/pymars/drg.py: run_drg"]}
{"id": "C30", "title": "A failing candidate is scored, not fatal", "statement": "When simulating a candidate, a solver failure or lack of ignition, burning flame or extinction yields zero metrics; hence the candidate's error is 100 and it is rejected for every limit below 100. The exceptions are cases that cannot be set up (a species of the mixture is not in the candidate) and a negative step limit: there the exception escapes.", "quantifier": "for every candidate model, condition and simulator trajectory", "why_tests_cant": "ranges over all solver behaviours", "anchors": ["src/pymars/simulation.py: IgnitionSimulation.calculate, FlameSimulation.calculate, PSRSimulation.calculate", "src/pymars/sampling.py: calculate_error"]}
{"id": "C31", "title": "Baseline and candidate ignition delays are measured alike", "statement": "Whenever sampling a model yields an ignition delay, evaluating the same model as a candidate yields the same delay, so a model never has an error against itself.", "quantifier": "for every reactor trajectory and every setting of end time and step limit", "why_tests_cant": "the two code paths stop at different points of the trajectory", "anchors": ["src/pymars/simulation.py: IgnitionSimulation.run_case, calculate, process_results"]}
{"id": "C32", "title": "Sampled profile states are real states", "statement": "Each non-zero row sampled from a profile is a state of that profile, rows appear in profile order, and row k is the first later point that has completed (k+1)*5 percent of the temperature rise. A profile that is too coarse leaves trailing all-zero rows; a rising profile whose steps are all below 5 percent of the rise fills every row.", "quantifier": "for every profile", "why_tests_cant": "ranges over all profiles; coarse ones are rare in tests", "anchors": ["src/pymars/simulation.py: BaseSimulation._sample_profile"]}
{"id": "C33", "title": "Results do not depend on the schedule", "statement": "The metrics and sampled data are the same for any number of worker processes and any completion order, and appear in case order: ignition, PSR (three per case), flame.", "quantifier": "for every permutation of worker completions and every number of workers", "why_tests_cant": "all schedules", "anchors": ["src/pymars/sampling.py: _run_workers, _run_metric_jobs, _run_sampling_jobs, sample, sample_metrics"]}
{"id": "C34", "title": "Concurrent ignition workers do not disturb each other's files", "statement": "Each sampling worker writes, reads back and deletes its own <idx>.h5; under every interleaving of the workers' file operations each worker reads exactly what it wrote and no intermediate file is left.", "quantifier": "for every number of workers and every interleaving", "why_tests_cant": "all interleavings", "anchors": ["src/pymars/simulation.py: IgnitionSimulation.setup_case, run_case, process_results, clean", "src/pymars/sampling.py: ignition_sample_worker"]}
{"id": "C35", "title": "Saved samples are reused faithfully", "statement": "Calling sample twice with the same model and conditions gives the same metrics and data, and the second call runs no simulation. Samples that do not fit in number of metrics, lines or columns, or of which a file is missing, are replaced by what a directory without samples would give. Reuse checks only these counts, so samples of other conditions or of another model with as many species are accepted.", "quantifier": "for every model, conditions and prior directory content", "why_tests_cant": "a property of call histories", "anchors": ["src/pymars/sampling.py: sample"]}
{"id": "C36", "title": "Crash between the two sample files", "statement": "If the process dies at any point of a sample call in a directory without earlier samples, the next call returns what the interrupted one would have, except when the last metric of a file was cut within its digits: the cut number is then accepted. If earlier samples of another model are present, a crash between the two writes makes the next call combine new data with old metrics. An emptied data file beside a metrics file, which two crashes in a row can produce, makes every later call raise IndexError.", "quantifier": "for every crash point, within files too, and every prior content as described", "why_tests_cant": "crash points", "anchors": ["src/pymars/sampling.py: sample"]}
{"id": "C37", "title": "Input validation accepts exactly the documented cases", "statement": "parse_ignition_inputs, parse_psr_inputs and parse_flame_inputs accept a case iff temperature and pressure are positive, exactly one way of giving the composition is used and complete, all its species are in the model and all amounts are positive, and the composition type is allowed; accepted cases are passed on unchanged.", "quantifier": "for every list of input cases", "why_tests_cant": "an equivalence over all inputs", "anchors": ["src/pymars/sampling.py: parse_ignition_inputs, parse_psr_inputs, parse_flame_inputs"]}
{"id": "C38", "title": "Every species used by a condition is protected", "statement": "After parse_inputs, each fuel, oxidizer and reactant species of every case is a target or in the safe list; given safe species keep their position, nothing is added twice, and every added species comes from some case.", "quantifier": "for every input dictionary", "why_tests_cant": "ranges over all combinations of cases and lists", "anchors": ["src/pymars/pymars.py: parse_inputs"]}
{"id": "C39", "title": "Reduced models can still run the cases", "statement": "Combining validation, automatic retention and reduction, every species named by a condition is in every model that DRG, PFA, or DRGEP up to threshold 1, tries, so setting up a candidate never fails for lack of a species.", "quantifier": "for every input accepted by parse_inputs and every threshold", "why_tests_cant": "end-to-end over all inputs", "anchors": ["src/pymars/pymars.py: parse_inputs, main", "src/pymars/simulation.py: _setup_gas"]}
{"id": "C40", "title": "Targets and safe species through the whole pipeline", "statement": "main with DRGEP and sensitivity analysis in a fresh process keeps targets and safe species; main with DRG and sensitivity analysis can remove both.", "quantifier": "for every simulator behaviour; the failing case is exhibited", "why_tests_cant": "interaction of two stages", "anchors": ["src/pymars/pymars.py: main", "src/pymars/drg.py: reduce_drg", "src/pymars/sensitivity_analysis.py: run_sa"]}
{"id": "C41", "title": "The command line cannot reduce a Chemkin model", "statement": "A reduction started from the command line whose model is not a .yaml/.yml file never reaches the reduction: it always ends in an error.", "quantifier": "for every input file naming such a model", "why_tests_cant": "all inputs", "anchors": ["src/pymars/pymars.py: pymars, parse_inputs"]}
{"id": "C42", "title": "compare_models as an equivalence test", "statement": "compare_models(m, m) is True; the answer does not depend on the order of species, nor of reactions when their equations are distinct. It is not symmetric, and it can reject two models that differ only in the order of duplicate reactions.", "quantifier": "for all models; exceptions exhibited", "why_tests_cant": "laws over all models", "anchors": ["src/pymars/tools.py: compare_models"]}
{"id": "C43", "title": "The exported Chemkin file describes the model, in Chemkin units", "statement": "Reading the exported model file gives the elements, the species and, for every reaction, the equation, the rate numbers and the auxiliary data (efficiencies of the species present, limits, broadening, PLOG and Chebyshev tables, duplicate mark): each pre-exponential factor is multiplied by 1000 to the power (molecularity of that rate expression minus one), counting the third body for three-body and low-pressure expressions, activation energies are in cal/mol, pressures in atm.", "quantifier": "for every reaction, whatever its orders", "why_tests_cant": "all reactions", "anchors": ["src/pymars/soln2ck.py: build_arrhenius, build_falloff_arrhenius, write"]}
{"id": "C44", "title": "Chemkin thermo cards have the fixed column layout", "statement": "Each species entry consists of four 80-column lines ending in 1, 2, 3, 4, and reading the fixed columns back gives the name and the 14 coefficients in order, provided names, element counts and exponents fit their fields.", "quantifier": "for every species within the stated field widths", "why_tests_cant": "all species", "anchors": ["src/pymars/soln2ck.py: write_thermo_data"]}
{"id": "C45", "title": "Line wrapping keeps the species list", "statement": "Splitting the wrapped text of the SPECIES section at white space gives back the names in order, and no line is longer than 60 characters unless it holds a single name.", "quantifier": "for every list of names", "why_tests_cant": "all lists", "anchors": ["src/pymars/soln2ck.py: write"]}
{"id": "C46", "title": "PSR extinction point", "statement": "On normal return trace_extinction_curve reports an extinction residence time that is the minimum over the computed branch, and all sampled points lie at or before it; every accepted point solves the steady equations within tolerance; the number of steps is bounded; without a turning point it raises.", "quantifier": "for every behaviour of the nonlinear solver", "why_tests_cant": "all solver behaviours", "anchors": ["src/pymars/psr_solver.py: trace_extinction_curve, _damped_newton, _core_residual"]}
{"id": "C47", "title": "The analytic PSR Jacobian is the derivative of the residual", "statement": "The matrix returned by the analytic Jacobian is the derivative of the residual vector with respect to mass fractions, scaled temperature and log residence time.", "quantifier": "for every state with positive density and temperature and all differentiable rate laws", "why_tests_cant": "a statement about derivatives at every point", "anchors": ["src/pymars/psr_solver.py: _core_jacobian, _core_residual"]}
{"id": "C48", "title": "Damped Newton reports convergence only at small residuals", "statement": "_damped_newton returns converged only if the residual norm is below 100 times the tolerance; the residual norm never increases from one accepted iterate to the next; it performs a bounded number of iterations.", "quantifier": "for every residual function and linear solver", "why_tests_cant": "all functions", "anchors": ["src/pymars/psr_solver.py: _damped_newton"]}
{"id": "C49", "title": "A negative error limit is accepted", "statement": "A negative error limit passes input checks; run_drg then returns a model exceeding the limit, and run_drgep and run_pfa fail with an unbound variable.", "quantifier": "for every negative limit", "why_tests_cant": "all limits and models", "anchors": ["src/pymars/pymars.py: parse_inputs", "src/pymars/drg.py: run_drg", "src/pymars/drgep.py: run_drgep", "src/pymars/pfa.py: run_pfa"]}
{"id": "C50", "title": "Ignition simulation step limit", "statement": "A steady-state ignition run that converges exactly on the last allowed step is reported as a failure; otherwise the run succeeds iff ignition happened and, in steady-state mode, convergence came before the last allowed step.", "quantifier": "for every trajectory, step limit and end time", "why_tests_cant": "all trajectories", "anchors": ["src/pymars/simulation.py: IgnitionSimulation.run_case"]}
{"id": "C51", "title": "Sensitivity analysis may stop although a candidate could still be removed", "statement": "run_sa stops when no candidate is left, when the candidate it tried last is over the limit, or (greedy) when no remaining candidate is within it. The candidate tried is the one whose error is closest to the present error, so with either algorithm it can stop although another candidate could be removed with error 0.", "quantifier": "for every run; the non-maximal run is exhibited", "why_tests_cant": "which candidates remain removable at the end depends on the whole run", "anchors": ["src/pymars/sensitivity_analysis.py: run_sa, evaluate_species_errors"]}
{"id": "C52", "title": "Sensitivity analysis changes exactly one file", "statement": "Whatever happens, the only file run_sa changes is <path>/reduced_<n>.yaml: models written while testing candidates are gone at the end, and if run_sa raises no file has changed.", "quantifier": "for every run, including those that end in an exception at any simulation", "why_tests_cant": "needs every place where a simulation can fail", "anchors": ["src/pymars/sensitivity_analysis.py: run_sa, evaluate_species_errors"]}
{"id": "C53", "title": "Sensitivity analysis consumes the candidate list it is given", "statement": "run_sa removes from the list object it receives every candidate it removes or rejects. If that object is the process-wide default list of ReducedModel, later reductions in the same process see the rest of it; otherwise that list is left alone.", "quantifier": "for every run and candidate list", "why_tests_cant": "aliasing between calls is not visible in a test of one call", "anchors": ["src/pymars/sensitivity_analysis.py: run_sa", "src/pymars/reduce_model.py: ReducedModel"]}
{"id": "C54", "title": "The program as a whole: reported error and written model", "statement": "If main returns, starting in a directory without saved samples, then <path>/reduced_<n>.yaml holds the returned model; simulating the detailed model and the returned one and comparing their metrics gives the reported error, which is within the limit (NaN only after sensitivity analysis); so with a limit below 100 every metric is within that many percent. Files other than results, samples and scratch files are unchanged. From the command line, targets, retained species and all species used by the cases are in the written model, except possibly after DRG with sensitivity analysis.", "quantifier": "for every model, set of cases, simulators, method, error limit and run that returns", "why_tests_cant": "combines input checking, sampling with saved files, threshold search and sensitivity analysis over all models and simulators", "anchors": ["src/pymars/pymars.py: main, pymars", "src/pymars/sampling.py: sample, sample_metrics", "src/pymars/drg.py: run_drg", "src/pymars/drgep.py: run_drgep", "src/pymars/pfa.py: run_pfa", "src/pymars/sensitivity_analysis.py: run_sa"]}
{"id": "C55", "title": "DRG with sensitivity analysis fails if a case contains a target", "statement": "main with DRG, a nonzero upper threshold and sensitivity analysis never returns if the mixture of some case contains a target species: every target is among the species whose removal is tried, and the case cannot be set up without it. From the command line there always is such a threshold.", "quantifier": "for every model, cases and simulators; every such input", "why_tests_cant": "a statement about all runs that could succeed", "anchors": ["src/pymars/drg.py: reduce_drg", "src/pymars/sensitivity_analysis.py: run_sa, evaluate_species_errors", "src/pymars/pymars.py: main, parse_inputs"]}
{"id": "C56", "title": "Model comparison accepts models that differ", "statement": "compare_models returns True for two models of which one has a reaction as reversible and the other as irreversible, and for pre-exponential factors that differ by a factor of five if both are below 1e-8.", "quantifier": "refutes: for all pairs of models, True implies equal kinetics", "why_tests_cant": "the accepted pairs have to be characterised, not sampled", "anchors": ["src/pymars/tools.py: compare_models"]}
{"id": "C57", "title": "Model comparison raises on falloff data of different lengths", "statement": "Comparing a falloff reaction with three Troe parameters with one that has four, all else being equal, raises ValueError instead of returning False.", "quantifier": "refutes: for all pairs of models compare_models returns a bool", "why_tests_cant": "needs every combination of optional data", "anchors": ["src/pymars/tools.py: compare_models"]}
{"id": "C58", "title": "Chemkin transport file", "statement": "If every species has transport data, the exported transport file has one line per species in order: name, number of the geometry, well depth in Kelvin, diameter in Angstrom, dipole moment in Debye, polarizability in cubic Angstrom and rotational relaxation, each to three decimals and separated by blanks as long as the numbers fit ten columns.", "quantifier": "for every model whose numbers fit the columns", "why_tests_cant": "all numbers and their roundings", "anchors": ["src/pymars/soln2ck.py: write_transport_data, write"]}
{"id": "C59", "title": "When the Chemkin export succeeds, and which files it leaves", "statement": "soln2ck.write returns if and only if every reaction has a supported type with the data of that type (at least four Troe or five SRI numbers, or none), every species has thermodynamic coefficients, and, if all species have transport data, these are complete; it then returns exactly the names of the files it wrote: <name>.inp, <name>_thermo.dat unless skipped, <name>_transport.dat unless skipped or some species has no transport data.", "quantifier": "for every model, file name, directory and flags", "why_tests_cant": "an equivalence over all models", "anchors": ["src/pymars/soln2ck.py: write, build_arrhenius, build_falloff_arrhenius, build_falloff, write_thermo_data, write_transport_data"]}
{"id": "C60", "title": "A failed Chemkin export leaves a truncated file", "statement": "If a reaction cannot be written, write raises (NotImplementedError for an unknown type, IndexError for Troe or SRI data that are too short) and leaves exactly one file: the model with only the reactions before it, without the final END.", "quantifier": "for every model, and every position of the first reaction that cannot be written", "why_tests_cant": "state of the file system after a failure at any point", "anchors": ["src/pymars/soln2ck.py: write, build_falloff"]}
{"id": "C61", "title": "convert chooses the direction by the extension", "statement": "A .yaml, .yml or .cti file is exported to Chemkin files that are named after the model, are written to the directory given, and are named in the result; any other file is handed to ck2yaml with exactly the input, thermo, transport and output arguments that were given, and the name of the output file is returned.", "quantifier": "for every file name, directory and optional files; for every behaviour of Cantera and ck2yaml", "why_tests_cant": "all names and all models", "anchors": ["src/pymars/tools.py: convert"]}
{"id": "C62", "title": "The Chemkin export loses the default efficiency", "statement": "Two models that differ only in the efficiency of colliders that are not listed are exported to identical files.", "quantifier": "for every model and efficiency; refutes: the export determines the kinetics", "why_tests_cant": "a statement about all pairs of models", "anchors": ["src/pymars/soln2ck.py: write"]}
{"id": "C63", "title": "A long equation makes the Chemkin file unreadable", "statement": "An equation of 51 characters or more is written without a blank before the pre-exponential factor; the export succeeds and the file cannot be read.", "quantifier": "refutes: for all models of supported reactions the exported file can be read", "why_tests_cant": "needs a reader for the file format", "anchors": ["src/pymars/soln2ck.py: write"]}
{"id": "C64", "title": "Chebyshev coefficients are exported in the wrong units", "statement": "For a bimolecular reaction with a Chebyshev rate the exported coefficients are those of the model, in kmol and m, while Chemkin expects mol and cm: the rate is off by a factor of 1000.", "quantifier": "refutes: for all reactions the exported rate equals that of the model", "why_tests_cant": "needs the units of both formats", "anchors": ["src/pymars/soln2ck.py: write"]}
{"id": "C65", "title": "The Chemkin export is less precise than the model comparison", "statement": "A model and the one read from its own export are different for compare_models, because pre-exponential factors are written with five digits; activation energies of falloff reactions are off by up to 0.05 per cent.", "quantifier": "refutes: for all models, exporting and reading gives a model that compare_models accepts", "why_tests_cant": "needs both the export and the comparison", "anchors": ["src/pymars/soln2ck.py: build_arrhenius, build_falloff_arrhenius", "src/pymars/tools.py: compare_models"]}
{"id": "C66", "title": "Thermodynamic data that do not fit a Chemkin card are written all the same", "statement": "A species with five elements, with a fraction of an atom, or with thermodynamic data other than two NASA polynomials is exported without an error to a card that cannot be read or that says something else.", "quantifier": "refutes: for all species the export either fails or writes a card of that species", "why_tests_cant": "needs a reader for the card format", "anchors": ["src/pymars/soln2ck.py: write_thermo_data"]}
{"id": "C67", "title": "The whole S-curve march agrees with the march that stops", "statement": "With stop_at_extinction=False the residence times go down, turn once, go up, and at most one point follows a second turning point; the three reported points are those of the march that stops, and the branch of the latter is the first part of the longer branch.", "quantifier": "for every gas, every behaviour of the nonlinear solver, all sensible arguments", "why_tests_cant": "all solver behaviours", "anchors": ["src/pymars/psr_solver.py: trace_extinction_curve"]}
{"id": "C68", "title": "The returned branch ends behind the turning point", "statement": "With stop_at_extinction=True the last point of branch has a larger residence time than the extinction point, so branch does not end at the extinction turning point as documented.", "quantifier": "for every gas, every behaviour of the nonlinear solver, all sensible arguments; contradicts the docstring", "why_tests_cant": "all solver behaviours", "anchors": ["src/pymars/psr_solver.py: trace_extinction_curve"]}
{"id": "C69", "title": "Seeds in ascending order give a false extinction point", "statement": "If tau_second exceeds tau_start the result has just the two seeds, and the first is reported as the extinction point.", "quantifier": "for every gas and every behaviour of the nonlinear solver", "why_tests_cant": "all solver behaviours", "anchors": ["src/pymars/psr_solver.py: trace_extinction_curve"]}
{"id": "C70", "title": "Late extinction collapses the sampled points", "statement": "If the extinction residence time is 0.1 s or more, the points near_0.1s and log_mid are the extinction point itself.", "quantifier": "for every gas, every behaviour of the nonlinear solver, all sensible arguments", "why_tests_cant": "all solver behaviours", "anchors": ["src/pymars/psr_solver.py: trace_extinction_curve"]}
{"id": "C71", "title": "Exceptions of the PSR solver", "statement": "An exception other than RuntimeError comes from equilibrate or from scipy.optimize.root (which includes the unguarded analytic Jacobian).", "quantifier": "for every gas, every solver, all arguments", "why_tests_cant": "all failures of the external calls", "anchors": ["src/pymars/psr_solver.py: trace_extinction_curve, _core_residual, _core_jacobian"]}
{"id": "C72", "title": "Steps below the corrector tolerance give a false extinction point", "statement": "With positive, ordered step sizes below the tolerance of the corrector, trace_extinction_curve can return an extinction point although the residence time never rose along the branch.", "quantifier": "refutes: for all positive ordered step sizes a returned extinction point is a turning point of the computed branch", "why_tests_cant": "needs a solver that returns its starting point", "anchors": ["src/pymars/psr_solver.py: trace_extinction_curve"]}
{"id": "C73", "title": "Coefficients computed with doubles lie in [0,1]", "statement": "create_drg_matrix and create_drgep_matrix return doubles between 0 and 1 with a zero diagonal, whatever the rounding of sums and quotients.", "quantifier": "for all stoichiometric coefficients up to 2^100, all rates of progress up to 2^700, all numbers of species, up to 2^40 reactions", "why_tests_cant": "all rounding patterns of all inputs", "anchors": ["src/pymars/drg.py: create_drg_matrix", "src/pymars/drgep.py: create_drgep_matrix"]}
{"id": "C74", "title": "Coefficients computed with doubles are accurate", "statement": "Every coefficient of DRG and DRGEP is within (9 n + 20) 2^-53 of the formula of the method, n the number of reactions, also where production and consumption cancel.", "quantifier": "for all inputs as in the previous property whose denominator is 0 or at least 2^-900", "why_tests_cant": "all rounding patterns of all inputs", "anchors": ["src/pymars/drg.py: create_drg_matrix", "src/pymars/drgep.py: create_drgep_matrix"]}
{"id": "C75", "title": "The path search with doubles ends and finds the largest rounded product", "statement": "With weights in [0,1] ss_dijkstra_path_length_modified returns, for exactly the nodes that can be reached, the largest product of weights rounded step by step from the source.", "quantifier": "for all graphs with doubles in [0,1] as weights", "why_tests_cant": "all graphs; rounded products are not associative", "anchors": ["src/pymars/drgep.py: ss_dijkstra_path_length_modified"]}
{"id": "C76", "title": "Rounding changes decisions only next to the threshold", "statement": "With doubles the importance coefficients are in [0,1], 1 for targets, and within (species - 1) (9 reactions + 21) 2^-53 of the exact ones; DRGEP removes or keeps a species against its exact importance only if that is within this distance of the threshold. DRG with doubles keeps everything the exact coefficients keep at a threshold higher by the error of a coefficient and nothing that they drop at a threshold lower by it.", "quantifier": "for all models, targets, sampled states as above, and thresholds", "why_tests_cant": "all rounding patterns of all inputs", "anchors": ["src/pymars/drgep.py: get_importance_coeffs, reduce_drgep", "src/pymars/drg.py: trim_drg"]}
{"id": "C77", "title": "Rounding can decide whether a species stays", "statement": "A species whose exact importance is below the threshold is kept, because small rates are lost in a sum.", "quantifier": "refutes: for all models and thresholds DRGEP removes exactly the species whose importance is below the threshold", "why_tests_cant": "needs exact arithmetic next to doubles", "anchors": ["src/pymars/drgep.py: create_drgep_matrix, reduce_drgep"]}
{"id": "C78", "title": "Sampling a profile with doubles", "statement": "process_results samples, for row k of 20, the first state after the one of row k-1 that completes (k+1)/20 of the temperature rise, up to 2^-50 (T0+T1) in temperature; rows without such a state are zero. A rising profile whose steps do not exceed a 21st of its rise fills all rows unless T0 + (T1 - T0), rounded twice, exceeds T1; then the last row is zero. That cannot happen if T1 <= 2 T0 or T0 is a whole number, and does for a flame from 298.15 K to 1900.2 K (refutes: fine profiles fill all rows).", "quantifier": "for all profiles of any length with temperatures between 1 K and 2^20 K", "why_tests_cant": "depends on the last bits of two temperatures; a test with round temperatures cannot meet it", "anchors": ["src/pymars/simulation.py: BaseSimulation._sample_profile, IgnitionSimulation.process_results, FlameSimulation.process_results"]}
{"id": "C79", "title": "The error of metrics with doubles", "statement": "calculate_error is within 2^-51 (relative) of the largest relative deviation in percent, so it is 0 for equal metrics, and an error that passes a limit means an exact error within limit (1 + 2^-50). It is exactly 100 if any tested metric is zero.", "quantifier": "for all lists of metrics of equal length, between 2^-400 and 2^400 (zero included for the last sentence)", "why_tests_cant": "all rounding patterns of all inputs", "anchors": ["src/pymars/sampling.py: calculate_error"]}
{"id": "C80", "title": "Points of the extinction curve lie the chosen step apart", "statement": "From the third point on, each point found by trace_extinction_curve lies, along the direction from the one before the last to the last, within 1e-7 of a step ahead of the last, in mass fractions, T/1000 and ln tau. The first step is at most ds0, each later one at most 1.2 times the one before; none is below ds_min nor above both ds0 and ds_max, and once the residence time has risen none exceeds 0.05. The three reported points are points of the curve with their mass fractions.", "quantifier": "for all reactors, arguments and behaviours of the outside solvers as in C46", "why_tests_cant": "all curves and all patterns of rejected steps", "anchors": ["src/pymars/psr_solver.py: trace_extinction_curve"]}
{"id": "C81", "title": "PFA coefficients computed with doubles are in range and accurate", "statement": "Every PFA coefficient is finite, between 0 and 2 s + 2, and 0 for a species and itself; it is within (4 s + 2) (9 n + 20) 2^-53 + (4 s^2 + 5 s + 6) 2^-53 of the formula of the method, s the number of species and n the number of reactions, also where production and consumption cancel.", "quantifier": "for all models with at most 2^40 species and reactions, stoichiometric coefficients up to 2^100 and rates up to 2^700; the accuracy where every species' larger one of production and consumption is 0 or at least 2^-900", "why_tests_cant": "all rounding patterns of all inputs", "anchors": ["src/pymars/pfa.py: create_pfa_matrix"]}
{"id": "C82", "title": "Rounding changes what PFA keeps only next to the threshold", "statement": "PFA with doubles keeps everything the exact coefficients keep at a threshold higher by the error of a coefficient and nothing that they drop at a threshold lower by it. It keeps exactly what can be reached from the targets along coefficients that reach the threshold.", "quantifier": "for all models, targets, states as in the previous property, and thresholds above the error", "why_tests_cant": "all rounding patterns of all inputs", "anchors": ["src/pymars/pfa.py: create_pfa_matrix, trim_pfa, graph_search"]}
{"id": "C83", "title": "Saved samples are read back bit for bit", "statement": "Every double written to a sample or metric file is read back as the same double, subnormal numbers, both zeros, infinities and NaN included; a saved table is read back with the same rows. A field is read as the nearest double to the number it spells.", "quantifier": "for all doubles, all tables of doubles without empty rows and all lists of metrics", "why_tests_cant": "2^64 numbers and all tables of them", "anchors": ["src/pymars/sampling.py: sample, read_metrics"]}
{"id": "C84", "title": "What a sample file that was cut reads as", "statement": "If only the beginning of a sample file was written, every row whose line break is there is read unchanged, and of the next row some numbers unchanged and one more that the beginning of its text spells; nothing else is read. So each beginning of the file is one of the states for which restarts are analysed in C36. The last number may read as another finite number.", "quantifier": "for all tables and metrics as in the previous property, and all beginnings of the text", "why_tests_cant": "a stop after any character of any file", "anchors": ["src/pymars/sampling.py: sample"]}
{"id": "C85", "title": "The drivers with doubles throughout return what they wrote and keep what they must", "statement": "With stoichiometry, rates, coefficients, path products and thresholds all computed in doubles, a model returned by run_drg, run_drgep or run_pfa is the one in the file reduced_N.yaml with N its number of species, the reported error is its error, it contains all targets and all species marked to be kept, and the limbo species are those the rounded coefficients give at the upper threshold. Whatever the outcome, no other file changes after sampling.", "quantifier": "for all methods, models with at most 2^28 species, targets, rates up to 2^700, stoichiometric coefficients up to 2^100, simulation outcomes and error limits at least 0; keeping targets for at least one sampled state", "why_tests_cant": "all rounding patterns on the way to the accepted threshold, in particular a threshold that steps back above the importance 1 of the targets", "anchors": ["src/pymars/drg.py: run_drg, reduce_drg", "src/pymars/drgep.py: run_drgep, reduce_drgep", "src/pymars/pfa.py: run_pfa, reduce_pfa"]}
{"id": "C86", "title": "With doubles throughout the result is within the limit unless a coefficient meets the threshold", "statement": "A driver that returns has found a start and a number of increments such that every threshold up to the accepted one meets the error limit and the next does not. If no rounded coefficient agrees with the accepted threshold to one part in 2^49, the returned model is the one of the accepted threshold and within the limit. If one does, the model may exceed the limit by far.", "quantifier": "for all inputs as in the previous property", "why_tests_cant": "the loop and the coefficients round; the failing inputs are isolated", "anchors": ["src/pymars/drg.py: run_drg", "src/pymars/drgep.py: run_drgep", "src/pymars/pfa.py: run_pfa"]}
{"id": "C87", "title": "With doubles throughout a driver gives up, ends or runs on in the stated cases", "statement": "A driver gives up exactly when each starting threshold (3 for DRG and PFA, 5 for DRGEP) gives a model beyond the limit. It ends when keeping only the species marked to be kept, and for DRG and PFA the targets, is beyond the limit or leaves nothing. It never returns when every threshold stays within the limit.", "quantifier": "for all inputs as in the previous property with at least one sampled state", "why_tests_cant": "non-termination, and all numbers of iterations", "anchors": ["src/pymars/drg.py: run_drg", "src/pymars/drgep.py: run_drgep", "src/pymars/pfa.py: run_pfa"]}
{"id": "C88", "title": "Rounding changes the result of a driver only next to the accepted threshold", "statement": "Let t be the accepted threshold and d the error bound of a coefficient plus 2^-49 t. The returned model has every species that the exact coefficients of the same rates keep at t + d and none that they drop at t - d. If no exact coefficient lies within d of t, the returned model is exactly the one that exact coefficients give at t.", "quantifier": "for all inputs as in the previous property whose species have a total turnover of 0 or at least 2^-900, and d < t", "why_tests_cant": "all rounding patterns of all inputs", "anchors": ["src/pymars/drg.py: run_drg, create_drg_matrix", "src/pymars/drgep.py: run_drgep, create_drgep_matrix", "src/pymars/pfa.py: run_pfa, create_pfa_matrix"]}
{"id": "C89", "title": "The rounding of the error of a reduced model", "statement": "For metrics that are doubles between 2^-400 and 2^400, or 0 for a failed case, the error computed with doubles is the exact one up to one part in 2^51. A NaN metric makes both errors NaN; without NaN an infinite metric makes both infinite; a failed case makes both 100. If no candidate has an exact error that close to the limit, a driver computing errors with doubles has the outcome of one with exact errors: same model, file, undecided species, exception and files. Otherwise rounding can decide which model is returned. With doubles throughout, every metric of the returned model is within the limit times 1 + 2^-50 of the metric of the detailed model, unless a coefficient meets the accepted threshold.", "quantifier": "for all numbers of metrics, all mechanisms, rates, simulation outcomes and error limits (up to 99 percent for the last part)", "why_tests_cant": "all rounding patterns of all metrics; a test with one limit does not meet the isolated cases in which the rounding decides", "anchors": ["src/pymars/sampling.py: calculate_error", "src/pymars/drg.py: run_drg", "src/pymars/drgep.py: run_drgep", "src/pymars/pfa.py: run_pfa"]}
{"id": "C90", "title": "Saved metrics read back as sampled, or are reported missing", "statement": "After sampling succeeds, whatever files there were before, reading the saved metrics for as many conditions of each kind returns the metrics that sampling returned and changes no file; evaluating metrics with reuse of saved files returns the same for any model. Reading puts the files of the kinds in use together in the order ignition, PSR, flame, and reports a kind in use without file by SystemError and only then. It does not compare the number of metrics with the number of conditions; with the right number it is what evaluation with reuse does.", "quantifier": "for all conditions, models, simulation outcomes and previous contents of the directory", "why_tests_cant": "all previous contents of the directory and all combinations of kinds of conditions", "anchors": ["src/pymars/sampling.py: read_metrics, sample, sample_metrics"]}
{"id": "C91", "title": "Cases of stirred reactors: repeated calls, the meaning of the metrics, and what a reduction keeps", "statement": "After setup_case the methods run_case, calculate and process_results of a PSR case can be called in any order and any number of times: each answers by the extinction curve traced from the inlet state, because the gas is reset before each trace. Only calculate returns zeros, and a zero among the metrics says exactly that no curve was found; otherwise the metrics are a positive extinction time of at most 0.5 s and two positive temperatures of points that solve the steady equations to 1e-7, and the sampled rows are those points at the inlet pressure. A run of the program with an error limit below 100 percent returns a model that has an extinction curve for every PSR case, with the extinction time and both temperatures within the limit.", "quantifier": "for all PSR cases, models, sequences of calls, states in which a trace leaves the gas, and all numerics with the stated properties; for the run all inputs as in C54", "why_tests_cant": "all sequences of calls and all gases; the link between the solver, the case object and the program as a whole", "anchors": ["src/pymars/simulation.py: PSRSimulation.setup_case, PSRSimulation._detect, PSRSimulation.run_case, PSRSimulation.calculate, PSRSimulation.process_results", "src/pymars/psr_solver.py: trace_extinction_curve", "src/pymars/pymars.py: main"]}
{"id": "C92", "title": "Ignition cases: any sequence of calls, stopping at ignition, restarting, and what steady means", "statement": "After setup_case and without a data file of the case, every delay that run_case, calculate or process_results returns, in any order of calls, is zero or the time of a state that the network of this case was in (for run_case 400 K above the start), and every sampled row is zero or such a state. With stop_at_ignition a new case returns the delay exactly if the mixture ignites before the end time, or before the last allowed step and before steady state; it is the delay of the whole run, and the data up to ignition are in the file. A run to steady state ends when every variable changed in the last step by less than ten times the relative tolerance, times the root of the number of variables, relative to a value it had. process_results can be repeated. After a call that returns a delay the attribute ignition_delay is that delay, and sampled_data holds the samples returned last. A restart with a data file runs nothing and returns no delay. calculate and run_case can not be repeated on one object: a second calculate returns the time of the next step, and a second run_case fails and replaces the data by a single point.", "quantifier": "for all cases, models, reactor networks that are a function of the steps made so far, sequences of calls and contents of the directory", "why_tests_cant": "all sequences of calls on all reactors", "anchors": ["src/pymars/simulation.py: IgnitionSimulation.setup_case, IgnitionSimulation._step, IgnitionSimulation.run_case, IgnitionSimulation.calculate, IgnitionSimulation.process_results, IgnitionSimulation.clean"]}
{"id": "C93", "title": "A reduction keeps every mixture igniting and every flame burning", "statement": "A run of the program with an error limit below 100 percent that returns a model has, in that model, an ignition for every ignition case and a flame faster than the floor for every flame case, with each delay and each speed within the limit of that of the detailed model.", "quantifier": "for all inputs as in C54 and all simulation outcomes", "why_tests_cant": "all mechanisms and all outcomes of the simulations; the link between the simulation classes, the error and the drivers", "anchors": ["src/pymars/pymars.py: main", "src/pymars/simulation.py: IgnitionSimulation.calculate, FlameSimulation.calculate", "src/pymars/sampling.py: calculate_error"]}
{"id": "C94", "title": "Flame cases: any sequence of calls", "statement": "After setup_case each call of run_case, calculate or process_results of a flame case solves the flame once more and answers by that solution: its speed if above the floor (0.05 m/s or the given one), with samples of the same solution; otherwise, or if the solver fails, calculate returns 0 and the other two raise RuntimeError. Other exceptions pass. The attribute flame_speed is then the returned speed; after a failure because of a slow flame it is the rejected speed, and after a failure of the solver the speed of the call before. The attribute sampled_data holds the samples returned last.", "quantifier": "for all flame cases, models, floors, sequences of calls and outcomes of each solution", "why_tests_cant": "all sequences of calls and all outcomes of the solver", "anchors": ["src/pymars/simulation.py: FlameSimulation.__init__, FlameSimulation.setup_case, FlameSimulation._solve_flame, FlameSimulation._flame_detected, FlameSimulation.run_case, FlameSimulation.calculate, FlameSimulation.process_results"]}
{"id": "C95", "title": "The command line: which arguments are accepted and what they do", "statement": "The program reduces or converts exactly if its arguments spell settings that ask for it: options by name, by a beginning that no other option shares, or by letter, with a value that follows (and does not look like an option) or is attached; the last value of an option counts; an input file, or a model with --convert, is named and not empty; --version is absent. Otherwise it leaves: with 1 without arguments, with 0 only if the version or help is asked for, else with 2. --version wins over all other settings; help wins over whatever follows unless that begins like several options. Every integer can be given to --num_threads, also a negative one, written as Python reads it (a sign, single underscores between digits, white space around), and the option alone stands for 0. What is parsed is what the rest of the program works with. The argument of pymars(argv) is only tested for being empty: the command line of the process is parsed; main(args) of the module does nothing if it is given arguments.", "quantifier": "for all lists of arguments (strings of bytes)", "why_tests_cant": "unbounded input: all argument lists in all spellings", "anchors": ["src/pymars/pymars.py: pymars", "src/pymars/__main__.py: main"]}
{"id": "C96", "title": "The number of processes does not matter", "statement": "With any num_threads of at least 0, sample either gives the metrics and data that it gives with one process and leaves the same files, or raises; it can succeed if one process succeeds, and fails only if one process does not succeed. The same holds for the metrics of a candidate. 0 means the number of processors less one, but at least one; with one process the cases are run one after another, failures included. A negative number is refused with ValueError when something is to be simulated, and no file changes. If several cases fail, several processes may raise another exception than one process.", "quantifier": "for all conditions, previous contents of the directory, interleavings of the file accesses of the processes, orders of the results and simulation outcomes", "why_tests_cant": "all interleavings and all numbers of processes", "anchors": ["src/pymars/sampling.py: sample, sample_metrics, _run_workers, _run_sampling_jobs, _run_metric_jobs"]}
{"id": "C97", "title": "The order in which sensitivity analysis removes species", "statement": "From the model it has and the error of that model, sensitivity analysis tries next the candidate whose error (of the model without it) is nearest to the present error, the first one in the order of the model among equals; an error that is not a number comes first. It stops when that candidate would exceed the limit, even if others would not. With the algorithm 'initial' the errors are those of the given model all along; with 'greedy' they are computed anew after every removal, and the run also ends when all of them are over the limit. The run ends with a model and an error exactly if this course leads to them. With doubles the candidate is the nearest one up to a factor 1 + 2^-51, and need not be the nearest: rounding can lead to another reduced model. An infinite error comes after all finite ones.", "quantifier": "for all models, candidates, simulation outcomes, limits and both algorithms", "why_tests_cant": "all numbers of candidates and all scores, ties and values that are not numbers included; the effect of rounding", "anchors": ["src/pymars/sensitivity_analysis.py: run_sa, evaluate_species_errors"]}
{"id": "C98", "title": "The whole program with floating-point numbers", "statement": "A run of the program on a directory without saved samples, with coefficients, thresholds, errors and distances computed in doubles, that returns a model has written this model; the reported error is the computed error of this model against the detailed one and a finite number; all files other than samples, scratch files and reduced models are as before; targets and safe species are kept as in C40. The error is within the limit, and each metric within the limit stretched by one part in 2^50, unless a coefficient of a sampled state agrees with the accepted threshold to about 15 digits; then the error can be above the limit.", "quantifier": "for all inputs as in C54 whose metrics, rates and upper threshold are doubles far from overflow, all methods, with and without sensitivity analysis", "why_tests_cant": "all mechanisms, all samples and all roundings; the link between sampling, coefficients, thresholds, errors and sensitivity analysis", "anchors": ["src/pymars/pymars.py: main", "src/pymars/drg.py: run_drg", "src/pymars/drgep.py: run_drgep", "src/pymars/pfa.py: run_pfa", "src/pymars/sensitivity_analysis.py: run_sa", "src/pymars/sampling.py: sample, calculate_error"]}
{"id": "C99", "title": "The number of processes does not matter for the whole program", "statement": "With any num_threads of at least 0, a run of the program can return a model and leave files exactly if the run with one process returns the same model and leaves the same files; so the guarantees for the whole program hold for every num_threads. It raises only if the run with one process does not return a model; which exception is raised may differ. With one process (num_threads 1, or 0 on a machine with at most two processors) the runs agree, failures included. A negative num_threads is refused with ValueError before any file changes, if a graph method and a condition are given and no samples are saved.", "quantifier": "for all inputs, methods, algorithms, contents of the directory, interleavings of the processes of all samplings and evaluations, and simulation outcomes", "why_tests_cant": "all interleavings over all rounds of a reduction and all numbers of processes", "anchors": ["src/pymars/pymars.py: main", "src/pymars/drg.py: run_drg, reduce_drg", "src/pymars/drgep.py: run_drgep, reduce_drgep", "src/pymars/pfa.py: run_pfa, reduce_pfa", "src/pymars/sensitivity_analysis.py: run_sa, evaluate_species_errors", "src/pymars/sampling.py: sample, sample_metrics, _run_workers"]}
{"id": "C100", "title": "From the arguments of the process to the reduced model", "statement": "Arguments that spell a reduction with an input file, an output path and any number of processes from 0 on, in any of the accepted spellings, and a file with the documented contents: if the process ends without error, the output path holds a reduced model named after its number of species; its error against the detailed model, in doubles, is a finite number, and within the limit of the file unless a coefficient of a sampled state agrees with the accepted threshold to about 15 digits; files other than samples, scratch files and reduced models are as before; the targets, the retained species and all species that the conditions use are in the model, unless sensitivity analysis may remove them (C40). Arguments that differ only in the number of processes give the same. Arguments that ask for nothing that can be done end the process without changing a file; a negative number of processes ends with ValueError and no file changes.", "quantifier": "for all arguments, input files, detailed models, simulation outcomes whose metrics and rates are doubles far from overflow, methods, roundings and interleavings", "why_tests_cant": "all argument lists, files, mechanisms, roundings and interleavings at once", "anchors": ["src/pymars/__main__.py: main", "src/pymars/pymars.py: pymars, parse_inputs, main", "src/pymars/sampling.py: sample, sample_metrics"]}
{"id": "C101", "title": "Comparing models in floating point", "statement": "With doubles, two models that compare_models accepts agree up to its tolerances (1e-5 of the second number plus 1e-8) times 1 + 2^-50, and models that agree up to the tolerances times 1 - 2^-50 are accepted. A model matches itself unless a compared number is NaN, and the order of species and of reactions with distinct equations does not matter. Next to the tolerance rounding decides: 0 and the double 1e-8 match although they differ by more than 10^-8.", "quantifier": "for all models whose compared numbers are doubles up to 2^900, infinities or NaN", "why_tests_cant": "the numbers next to the tolerance are a vanishing part of all pairs of doubles; only an error analysis covers them", "anchors": ["src/pymars/tools.py: compare_models"]}
{"id": "C102", "title": "The Chemkin export in floating point", "statement": "With the unit conversions computed in doubles, the exported model file lists the elements and species, and every reaction with numbers that are, to the printed digits, those of the model converted to Chemkin units up to a relative error of 2^-51; the transport data file likewise. Rounding can change the last printed digit: the pre-exponential factor 1.00705 (a double just above that number) of a bimolecular reaction is written 1.0070e+03, although 1007.05... rounds to 1.0071e+03.", "quantifier": "for all models as in C43 and C58 whose numbers are doubles between 2^-800 and 2^800 or 0, with reaction orders up to 15, and any power function of the C library that is right to one unit in the last place", "why_tests_cant": "all rates and all roundings; the numbers where rounding shows are rare", "anchors": ["src/pymars/soln2ck.py: build_arrhenius, build_falloff_arrhenius, build_falloff, write_transport_data, write"]}
{"id": "C103", "title": "Ignition and samples in floating point", "statement": "With 400 K added to a temperature and the shares of a temperature rise computed in doubles, the delay of a candidate is 0 or the time of a step in reach of the case that is 400 K above the start up to one part in 2^53, and no step before is, up to the same. If the start temperatures are multiples of 2^-32 K (whole numbers, for example), all metrics are those of exact arithmetic, whatever the simulators report. Otherwise a delay can differ: from the first double above 1000 K, 1400 K counts as ignited. The 20 rows of a sample are the states that complete the shares of the rise, up to one part in 2^50 of the temperatures, and zeros. The guarantees for sampling, ignition, flame and reactor cases and for the whole program hold with this arithmetic.", "quantifier": "for all start temperatures that are doubles between 1 K and 2^20 K, all trajectories, profiles, models and limits on steps and times", "why_tests_cant": "the temperatures next to a threshold are a vanishing part of all trajectories; only an error analysis over all of them shows when rounding can change a delay or a row", "anchors": ["src/pymars/simulation.py: IgnitionSimulation.calculate, IgnitionSimulation.run_case, IgnitionSimulation.process_results, BaseSimulation._sample_profile, PSRSimulation.process_results", "src/pymars/sampling.py: sample, sample_metrics"]}
{"id": "C104", "title": "Models written and read back", "statement": "soln2yaml.write returns the name of the one file it replaces: path and file name, or path and the name of the model with .yaml if no file name is given; every other file is as before. The file is read back as the same model without a phase name or under the name of the model, and under no other name. trim calls its result by the phase name asked for, or by the new file name without extension, and keeps transport model, temperature and pressure. Trimming the written file is the same as trimming the original at once (for third bodies as in C03). Reduced without a phase name, the file cannot be read under the phase name of the original.", "quantifier": "for all models, exclusion lists, file names, directories and file contents", "why_tests_cant": "all models, names and states of the directory, and all pairs of exclusion lists", "anchors": ["src/pymars/soln2yaml.py: write", "src/pymars/reduce_model.py: trim"]}
{"id": "C105", "title": "The documented result in floating point", "statement": "With all numbers of a reduction in doubles, the run returns the model that exact arithmetic documents: if trying the first start, 2, 3, ... times it with the exact coefficients first goes beyond the limit after k multiples, and no exact coefficient is within a small explicit margin (k + 11 roundings of the threshold plus the rounding of the coefficients) of a threshold tried, then the driver returns the model of the k-th multiple, with an error within the limit; if all starts fail it ends with SystemExit. The k-th threshold itself is within k + 1 roundings of k times the start. Without the margin the result can differ: the hundredth threshold in steps of 0.01 is a double above 1, so a species that others depend on with coefficient 1 is lost at it, the run stops at 0.99, and a species with coefficient 0.995 stays in the model.", "quantifier": "for the three methods, all models, conditions, limits and sampled rates that are doubles far from overflow, and up to 2^31 thresholds", "why_tests_cant": "all rates and models, and all roundings along scans of any length", "anchors": ["src/pymars/drg.py: run_drg, reduce_drg, create_drg_matrix, trim_drg", "src/pymars/drgep.py: run_drgep, reduce_drgep, get_importance_coeffs", "src/pymars/pfa.py: run_pfa, reduce_pfa, create_pfa_matrix"]}
{"id": "C106", "title": "Whole runs in floating point give the documented model", "statement": "A run of the program in doubles, started from a fresh directory with any number of processes, writes the model that the documented search with exact coefficients and exact multiples of the starting threshold gives, within the error limit, provided that no exact coefficient of a sampled state is next to a threshold on the way (the margin is that of C105). Every run that ends gives that model and the same files. Sensitivity analysis after it removes species of that model only and stays within the limit. When every starting threshold fails, no model is returned, and with one process the program exits.", "quantifier": "for all arguments, input files, detailed models, sampled states, rates, methods, numbers of processes and interleavings, off the margin", "why_tests_cant": "all inputs and all roundings over whole runs; which runs round the wrong way cannot be seen from the inputs", "anchors": ["src/pymars/pymars.py: pymars, main", "src/pymars/drg.py: run_drg", "src/pymars/pfa.py: run_pfa", "src/pymars/drgep.py: run_drgep", "src/pymars/sensitivity_analysis.py: run_sa", "src/pymars/sampling.py: sample"]}
{"id": "C107", "title": "Running again in the same directory", "statement": "A second run with the same arguments, in a new process, in the directory that a successful run left behind, reuses the saved samples and returns the same model, error, file name and species left to check, and leaves every file as it was. A run with another method, other targets, safe species, thresholds, limit or analysis, but with the same model, phase, output directory and cases, gives exactly what it would have given before the first run: the samples and the reduced models left there do not influence it. Each file it would have changed is as it would have been, and each other file is as the first run left it.", "quantifier": "for all models, cases, arguments of both runs, contents of the directory before the first run, simulators and sampled rates in doubles far from overflow", "why_tests_cant": "all pairs of runs; a single stale file that is read again could change the result of a later run", "anchors": ["src/pymars/sampling.py: sample, sample_metrics", "src/pymars/pymars.py: main", "src/pymars/drg.py: run_drg", "src/pymars/pfa.py: run_pfa", "src/pymars/drgep.py: run_drgep", "src/pymars/sensitivity_analysis.py: run_sa"]}
{"id": "C108", "title": "The drivers compare the documented coefficients", "statement": "The coefficients that run_drg, run_pfa and run_drgep compare with their thresholds are, at each sampled state, those of the documentation for the model that was given: the stoichiometric coefficients are the ones the reactions list for each species as product and as reactant (0 if a species is not listed), species and reactions in the order of the model, with the rates of that state. The same holds for the exact coefficients to which the runs in doubles are compared.", "quantifier": "for the three methods, all models, all numbers of sampled states and all rates; for doubles, all models whose stoichiometric coefficients are doubles", "why_tests_cant": "all models and rates; swapped sides or a shifted index can go unnoticed on symmetric examples", "anchors": ["src/pymars/drg.py: create_drg_matrix, run_drg", "src/pymars/pfa.py: create_pfa_matrix, run_pfa", "src/pymars/drgep.py: create_drgep_matrix, run_drgep"]}
