# Design of the pyMARS model and proofs

Target: `/repo` (Niemeyer-Research-Group/pyMARS, pinned commit), Python.
Tool: Rocq/Coq 8.16.1. Sources in `rocq/theories`, logical prefix `Verif`.

## 1. Approach

The Python functions are transcribed into total, executable Gallina functions.
Exceptions are values, loops are structural recursions, folds, or recursions on
fuel whose exhaustion is a separate outcome.  Everything done by other packages
(Cantera, numpy linear algebra, the operating system) enters as an argument, so
that the theorems quantify over *every* behaviour of those packages.

Layout of `rocq/theories`:

| directory | content |
|---|---|
| `Base/`  | Python values: exceptions, dicts, extended numbers, binary64, paths |
| `Model/` | the transcription, definitions only, each citing its source lines |
| `Spec/`  | independent definitions used to state properties (paths, reachability, formulas), and the sample mechanisms and cases of the concrete examples |
| `Proofs/`| lemmas |
| `Props/` | property theorems only, each `exact lemma`, with `Print Assumptions` and a concrete case |

A theorem named `…_refuted` gives a concrete run on which an expected property
fails; the finding is repeated in section 5.  There is no theorem named
`…_partial` at present: where a property is proved for less than the whole
statement, the `note` in `MANIFEST.json` and the table below say so.

## 2. Modelling decisions

* **Numbers.** Coefficients, rates and thresholds are exact rationals (`Q`).
  Errors and metrics are `xnum` = finite rational, +inf, -inf or NaN with the
  IEEE rules for comparison, `max` and division, because NaN and inf decide
  branches.  Rounding is not modelled except where a property is about it: the
  threshold loop is generic in its arithmetic (record `arith`) and is
  instantiated with `Q` and with binary64, and summation order is examined in
  binary64 (C11), and the coefficients, searches and decisions of DRG, DRGEP
  and PFA are modelled in binary64 next to the exact ones (C73-C77, C81, C82), and so are the
  sampling of a profile and the error of metrics (C78, C79), and the three
  drivers from the rates to the returned model (C85-C89).  The arithmetic of
  the error of a reduced model is a field of the conditions: the theorems
  about drivers and sensitivity analysis hold for any, or name the exact one
  (`exact_errors`) or the one with doubles (`double_error`).  There a sum along
  the reactions adds from left to right: numpy lays `array[:, indices]` out
  column by column, and sums over columns of such an array one column after the
  other.  The second generation of PFA needs no matrix product: `np.outer` rounds
  every product and `+=` adds one intermediate species after the other.
  binary64 is the executable `SpecFloat` of the standard library
  (`Base/B64.v`); Flocq is used only inside `Proofs/Float*.v` to relate it
  to the reals.
* **Names** are `string`s.  A mechanism is a record of species, reactions and
  optional third bodies.  Species names of a loaded mechanism are distinct
  (Cantera refuses duplicates); theorems that need it say so.
* **Drivers** run in a state and exception monad `M` over `world`: a file map
  (path to content) and the one mutable default list that Python shares between
  calls of `run_drgep`.
* **Files** are a map from path to content.  `write_yaml` followed by
  `Solution(...)` is taken as exact.  So is `savetxt` followed by `genfromtxt`,
  except that a crash may leave any prefix of the values and the last value
  torn into an arbitrary list of values; `Model/SaveText.v` models the text of
  these files and proves both (C83, C84).  Trusted there: numpy's default
  format is `%.18e`, Python prints and reads doubles correctly rounded,
  `genfromtxt` skips empty lines and gives NaN for a field that is no number.
* **Arithmetic of simulations.**  Sums, differences, products and the shares
  of `np.arange` in `simulation.py` go through a record `calc`; the theorems
  about simulations, sampling and the whole program hold for any such record.
  `exact_calc` is the default, `double_calc` rounds to binary64.
* **Simulators** are oracles collected in the record `physics`: a reactor is an
  arbitrary sequence of (time, temperature, state) steps that may end in a
  Cantera error, a flame an arbitrary profile, speed or error, a stirred
  reactor an arbitrary extinction curve or error.  An oracle is a function of
  case and mechanism, so the same case on the same mechanism repeats.
* **Conditions by effect.**  The reduction drivers see a case only through
  `cond := mech -> res (list xnum)`, the metrics it gives on a mechanism.
  `Model/Simulation.v` and `Model/Main.v` close the gap to concrete cases.
* **Processes.** Sampling is written as a program of file reads and writes
  (`prog`), so that a run is a sequence of atomic steps.  A worker pool is an
  arbitrary interleaving of the workers' steps; a crash is an arbitrary prefix.
* **Temporary directories** have arbitrary names, taken as parameters.
* **Configuration.** A YAML document is a `yval` (null, bool, number, string,
  list, mapping with any keys).

## 3. Properties

See `properties.jsonl` for the full statements and `MANIFEST.json` for the theorems.

| id | modelled | proof |
|---|---|---|
| C01-C04 | `trim` on mechanisms (`Model/Mech.v`) | list lemmas; C03 also a counterexample |
| C05-C07 | the three matrix builders over arbitrary stoichiometry and rates; PFA with explicit in-place array updates (`Model/Matrices.v`) | sums over lists; loop invariant for PFA |
| C08-C09 | thresholding, digraph construction, depth-first search (`Model/Graph.v`) | DFS invariant = reachability; monotonicity |
| C10-C13 | the heap loop, with fuel (`Model/Graph.v`) | invariants on labels and heap entries; simple-path measure for termination |
| C14-C16, C18-C23, C49 | `reduce_*`, `run_*` with files and the shared default list (`Model/Drivers.v`, `Model/World.v`) | loop invariants; counterexamples by computation |
| C17 | the same loop in binary64 (`Model/FloatDrivers.v`) | error bound through Flocq; a counterexample by computation |
| C73-C77 | the coefficients of DRG and DRGEP, the path search, importance, `trim_drg` and the removal test in binary64 (`Model/FloatMatrix.v`) | rounding-error bounds for left-to-right sums through Flocq; subset sums are monotone under rounding; the search as in C10 with rounded products; simple chains for the distance of importances; a counterexample |
| C81-C82 | the coefficients of PFA and `trim_pfa` in binary64 (`Model/FloatPfa.v`) | loop invariant of C07 with rounded sums; sums of k doubles in [0,1] stay below k because whole numbers are doubles; error bounds as in C74 |
| C85-C88 | the three drivers with doubles throughout (`Model/FloatRun.v`): stoichiometry, rates, coefficients, products, thresholds; errors of reduced models in any arithmetic | the doubles decide as their values do, so the loop is the one of C14-C19 over the values of the rounded coefficients; the climb to the threshold 1 is computed binade by binade, since inside a binade each addition adds the same number of units; bounds of C74, C76, C81 for the distance to exact coefficients; a counterexample |
| C89 | the same drivers with errors computed by `double_error` (`Model/DoubleError.v`) | accuracy from C79 on the doubles nearest to the metrics; the two runs step by step related: equal states, errors that agree up to one part in 2^51 and hence compare alike with a limit that no error is next to; a counterexample |
| C90 | `read_metrics` over the files that `sample` writes | the state of the files after a successful `sample` (C35), case by case over the kinds of conditions |
| C91 | the class `PSRSimulation` as an object with a gas that the solver leaves in any state (`Model/PsrCase.v`), on top of `Model/Psr.v` | every call starts from the inlet, so answers depend on the traced curve only; positivity from the invariant of the march (C46); C54 for the run |
| C92 | the class `IgnitionSimulation` as an object with a reactor network that remembers what was done to it (`Model/IgnCase.v`): `_step`, the loops of `run_case` and `calculate`, the residual of the steadiness test, the data file | invariant over calls: whatever is in the file or the sample was a point of the network; the loops related to those of C26-C29 through the number of steps; bounds of the norm for the residual; counterexamples |
| C93 | C54 together with the simulation models | a metric within less than 100 percent of a positive one is positive, and positive delays and speeds are those of cases that burn |
| C94 | the class `FlameSimulation` as an object whose flame is solved anew by each call (`Model/FlameCase.v`) | cases over the outcome of a solution, induction over the calls |
| C95 | the parser of `pymars`, with the rules of argparse for options: classification of arguments, abbreviations, letters, attached values; `__main__.main` (`Model/Cli.v`) | equivalence with an inductive grammar (`Spec/CliSpec.v`): mutual induction over spellings, and strong induction over the arguments for the converse |
| C96 | `_run_workers` with its choice between a loop and a pool, and `sample` and `_run_metric_jobs` with `num_threads` (`Model/Pool.v`) | a simulation between the possible ends of the pool and the serial program, composed along the program; its core is the separation argument of C33, extended to runs in which some worker has failed |
| C97 | the choice of the next candidate in `run_sa` with its `argmin`, distances exact or in binary64 (`Model/Sensitivity.v`, `double_distance` in `Model/DoubleError.v`) | equivalence of the loop with an inductive course (`Spec/SaOrderSpec.v`); rounding of a difference through Flocq; a counterexample |
| C98 | `main` with the drivers, errors and distances in binary64 (`Model/FloatMain.v`; `main_with` in `Model/Main.v` is shared with the exact program) | the invariants of sampling (C54), of the drivers with doubles (C85, C86) and of sensitivity analysis (C24) composed; the accuracy of the error (C89); a counterexample at a coefficient next to a threshold |
| C99 | `num_threads` through `main`, the drivers and `run_sa` to `sample` and `sample_metrics` (`Model/PoolMain.v`: every function that starts processes, directly or not, as a relation between a state of the files and its possible ends; numbers are doubles as in C98) | a relation between possible ends and the program with one process — the same successes, no failure where the other succeeds, the same ends with one process — that is kept by sequencing, loops and temporary directories; C96 for the pools; worlds with the same files and the same shared list are equal by functional extensionality. Which failure is reported is refuted. |
| C100 | `pymars` as a process runs it (`Model/Program.v`): the parser of `Model/Cli.v`, the YAML reader as an oracle, `parse_inputs`, and `main` with doubles and processes (`Model/PoolMain.v`); the result is a relation as in C99 | the grammar theorem of C95 turns the spelling of the arguments into settings; `parse_inputs` gives the arguments of `main` and the species in use (C37, C38); C99 then replaces any number of processes by one, and C98 gives the rest. The default upper threshold is rounded to the double 0.1 |
| C101 | `compare_models` with `np.isclose` in binary64 (`Model/CompareDouble.v`); the comparison is generic in the test of closeness | error analysis of one test with Flocq; a weaker test accepts more models, by cases over the rates |
| C102 | the export generic in its multiplication, division and powers of 1000 (`arith` in `Model/Chemkin.v`), with binary64 operations (`Model/ChemkinDouble.v`) | the proofs of C43 and C58 over any conversion relation; error analysis of two to three operations with Flocq; a counterexample for the last digit |
| C103 | the simulations generic in their arithmetic (`calc` in `Model/Simulation.v`), with binary64 operations (`Model/FloatSimulation.v`) | the proofs of C30-C32, C50, C54 and C91-C94 over any arithmetic; one rounded sum, and the loop of C78 over points; a counterexample for a delay |
| C104 | `soln2yaml.write`, `trim` with the loading of the file, `ct.Solution(file, phase)` (`Model/World.v`) | the file map before and after; C03 through a file |
| C105 | as C85-C88 (`Model/FloatRun.v`) | an error bound on the sum of the thresholds by induction on the additions; kept species agree off the margin by C88's two inclusions; the forward run of C16 with the double thresholds; a counterexample on the margin |
| C106 | as C98-C100 (`Model/FloatMain.v`, `Model/PoolMain.v`, `Model/Program.v`) | sampling succeeds by C33 and gives the rates at the documented states; C105 for the driver; C24 for the analysis; C99 and C100 carry the result over to processes and arguments |
| C107 | as C98 (`Model/FloatMain.v`) | the second sampling reads the files the first wrote (as C33); two runs of a driver side by side: each step keeps every file equal in both or untouched in both; the analysis depends on the saved metrics, the model and the species to check only |
| C108 | `kin_of`, `fkin_of` (`Model/Matrices.v`, `Model/FloatRun.v`) | entry by entry from the lists of species and reactions (`Spec/KineticsSpec.v`), then C05-C07 |
| C78-C79 | `_sample_profile` and `calculate_error` in binary64 (`Model/FloatSampling.v`) | rounding-error bounds through Flocq; the loop invariant of C30 with rounded thresholds; Sterbenz' lemma and a grid argument for the last threshold; a counterexample |
| C24-C27, C51-C53 | `run_sa`, `evaluate_species_errors`, `sample_metrics` (`Model/Sensitivity.v`, `Model/Metrics.v`) | loop invariants; counterexamples |
| C28-C29 | `calculate_error` on `xnum` (`Model/Metrics.v`) | case analysis and list induction |
| C30-C32, C50 | simulation classes over oracle trajectories (`Model/Simulation.v`) | induction on trajectories |
| C83-C84 | the text of saved samples: `np.savetxt` and `np.genfromtxt` (`Model/SaveText.v`) | 19 digits determine a double: two doubles that agree to 2^-56 are equal, correct rounding through Flocq; induction on lines and fields for every beginning of the text; refinement of the file states of `Model/Sampling.v` |
| C33-C36 | workers, worker pool, sample cache as programs of file steps (`Model/Sampling.v`) | interleavings commute for disjoint files; crash prefixes |
| C37-C38 | input checking and `parse_inputs` on YAML values (`Model/Inputs.v`) | case analysis; an independent specification of well-formed documents |
| C39 | candidates of the drivers on concrete cases | composition of C14, C30 and C38; C39 also a counterexample |
| C40-C41, C54-C55 | `main` and the command line (`Model/Main.v`) | composition of all of the above; counterexample by computation |
| C42, C56, C57 | `compare_models` (Model/Compare.v) against a relational spec without sorting (Spec/CompareSpec.v) | sorting is unique for distinct keys; case analysis of rates; witnesses by computation |
| C43-C45, C58-C66 | `soln2ck` and `convert` (Model/Chemkin.v) against readers for the three Chemkin formats (Spec/ChemkinSpec.v, CardSpec.v, ExportSpec.v) | printing then reading numbers and words by induction on digits and strings; the wrapped lines by induction on chunks; witnesses by computation |
| C46, C67-C72, C80 | `trace_extinction_curve` with its seeds, corrector, turning-point check and sampling (Model/Psr.v); numpy, scipy and Cantera as functions with stated properties (Spec/PsrSpec.v) | invariant of the march in three phases; the tangent's last component has the sign of the change of tau; a second invariant for the steps; a sample reactor by computation |
| C47 | `_core_residual`, `_core_jacobian`, the scaled and augmented Jacobians over the reals (Model/PsrJac.v); ideal gas as spec (Spec/PsrJacSpec.v) | chain rule along arbitrary differentiable paths (Coquelicot), exchange of finite sums |
| C48 | `_damped_newton` (Model/Psr.v) against a relation of Newton steps | induction on the iterations |

## 4. Modelled and not modelled, file by file

All under `/repo/src/pymars`.

| file | modelled | not modelled |
|---|---|---|
| `reduce_model.py` | `ReducedModel`, `trim` (all) | the Cantera objects behind species and reactions: only names, stoichiometry, third-body efficiencies, the duplicate mark and an opaque rest; reaction orders that name non-reactants |
| `drg.py`, `drgep.py`, `pfa.py` | all functions; `num_threads` in `Model/PoolMain.v` | logging |
| `sensitivity_analysis.py` | all functions | logging; `tempfile` names are parameters |
| `sampling.py` | all functions | the pool's process start-up; a worker that dies without an exception; of `genfromtxt`, spellings of numbers that `savetxt` does not produce |
| `simulation.py` | `_setup_gas`, `_sample_profile`, `clean`, the three classes, as functions of a new case (`Model/Simulation.v`, in any arithmetic; `Model/FloatSimulation.v` for doubles) and as objects (`Model/IgnCase.v`, `Model/PsrCase.v`, `Model/FlameCase.v`) | Cantera integration itself (oracle), PyTables layout (an h5 file is its list of rows), logging, `fraction_of_domain` of flames beyond the sampled points |
| `psr_solver.py` | `_damped_newton`, `_core_residual`, `trace_extinction_curve` whole (Model/Psr.v); `_core_jacobian`, `core_jac`, `augmented_jac` over the reals (Model/PsrJac.v) | the insides of `np.linalg.norm`, `exp`, `log`, `sqrt`, `np.linalg.solve`, `scipy.optimize.root` and Cantera: they are arbitrary functions with the properties in Spec/PsrSpec.v (`numerics`, `consistent`). Of these `exp_and_log` is met by exact functions; in binary64 `exp(log(t))` can be off by a rounding, so the order of two residence times that differ by a rounding is not covered. `root` is not given the Jacobian as an argument. The Jacobian theorem assumes that Cantera's `net_production_rates_ddCi` and `_ddT` are exact partial derivatives, which Cantera does not promise for falloff reactions. The reduction sees the result as an oracle |
| `__main__.py` | `main` (Model/Cli.v) | |
| `pymars.py` | `parse_inputs`, `main`, `pymars`, with argparse's rules for its options (Model/Cli.v, compared with Python 3.11 on 5000 random command lines) | usage and help messages, reading YAML text, aliases in YAML documents, `convert`'s internals inside `pymars` (an arbitrary effect) |
| `tools.py` | 14-166 (`compare_models`), 169-228 (`convert`) | `ck2yaml` is an arbitrary function |
| `soln2yaml.py` | `write` as an exact write of the mechanism | the YAML text |
| `soln2ck.py` | 18-59 (`build_arrhenius`), 62-111 (`build_falloff_arrhenius`), 114-144 (`build_falloff`), 147-202 (`write_thermo_data`), 205-233 (`write_transport_data`), 236-425 (`write`); `textwrap.fill` and the formats `e`, `f`, `<`, `>` of the standard library | rounding in the sum of stoichiometric coefficients (exact for integers and halves); `str` of a float, a parameter that reads back to 15 digits; `1e3**x` for fractional orders, a parameter; reaction orders and other data that the export never reads |

## 5. Findings

Behaviour of the code, each backed by a theorem unless marked (model comment).

Reduction
* Trimming in two steps and at once can differ: at once a reaction is kept although no collider is left and its rate is identically zero, in steps it is removed (`trim_in_steps_refuted`).
* With a weight above 1 on a cycle the modified Dijkstra search runs forever, and binary64 rounding of two differently ordered sums can give such a weight (`dijkstra_diverges_on_growing_cycle`, `rounded_ratio_exceeds_one`).  With the left-to-right sums of the code it cannot: coefficients never exceed 1 (`binary64_coefficients_in_unit_interval`), so the search ends (`binary64_importance`).
* With doubles, ignition 400 K above the start can be found one step early or late when the start temperature has more binary digits than its sum with 400; from the first double above 1000 K, 1400 K counts as ignited (`double_metrics_exact_refuted`).  Whole-number start temperatures are not affected (`double_metrics_exact`).
* Rounding can keep a species whose exact importance is below the threshold, but only next to the threshold (`rounding_decides_removal_refuted`, `binary64_removal`).
* Summing 0.01 a hundred times gives a double above 1. At this threshold coefficients equal to 1 no longer count, so a scan that should end at 1.00 ends at 0.99 and can leave species in the model (`double_driver_returns_documented_refuted`).
* A model reduced without a phase name is called after the file (`reduced_gri30`, or `reduced_mechs/gri30` for a model in a directory), so the file written for it cannot be read under the phase name of the original (`reduced_file_loses_phase_name`).
* A positive cutoff suppresses the whole search (`dijkstra_cutoff_suppresses_search`).
* Reuse of the previous model compares only the number of species; with a falling threshold it returns a wrong model (`reuse_with_falling_threshold_refuted`).  The drivers raise the threshold between calls, where reuse is invisible.
* Stepping the threshold back in binary64 does not restore the accepted threshold, so the returned model can exceed the limit (`returned_model_within_limit_binary64_refuted`, and with rounded coefficients too `double_driver_within_limit_refuted`).  The targets of DRGEP survive the step back, because no threshold comes within one part in 2^49 of 1 from below (`thresholds_stay_off_one`).
* An input file named like an output (`reduced_<n>.yaml`) is overwritten or deleted (`input_named_like_output_lost`); a rejected first attempt stays on disk (`rejected_first_attempt_left_behind`).
* A NaN metric makes the error NaN; the driver then deletes its file and crashes with AttributeError (`nan_error_crashes_driver`), and sensitivity analysis removes the candidate (`nan_candidate_removed`).
* A negative limit is accepted: PFA and DRGEP then fail with UnboundLocalError, DRG returns the model of threshold -0.01 with whatever error it has (`negative_limit`).
* DRGEP collects limbo species in a default argument shared between calls (`second_drgep_call_reports_first`).
* DRG reports targets as limbo (`drg_reports_targets_as_limbo`).
* With a lax limit the DRGEP threshold passes 1, a target needed by a case is dropped, and the run aborts with CanteraError (`lax_drgep_run_aborts_refuted`).

Sensitivity analysis
* Greedy analysis crashes exactly when it succeeds on every candidate (`greedy_crashes_on_success`).
* It picks the candidate whose error is nearest to the current error, and stops at the first rejected pick although others might pass (`sa_maximal_refuted`).
* It pops from the caller's list (`sa_consumes_shared_list`) and reports a file name without its directory (`sa_reported_file`).
* Without saved metrics the standalone analysis compares against zeros and removes nothing (`standalone_sa_removes_nothing`).
* After DRG it removes targets and safe species (`drg_analysis_removes_target_and_safe_refuted`), or always aborts if a target is part of a mixture (`drg_analysis_with_target_in_mixture_fails`).
* The rounding of the error can decide which model is returned: 0.63 against 0.5 is an error above 26 percent, computed as 26.0 and accepted by a limit of 26 (`double_errors_same_run_refuted`).

Simulation and sampling
* A coarse profile leaves zero rows in the samples (`coarse_profile_leaves_zero_rows`).
* So does a fine one, by rounding: the last threshold T0 + 1.0 (T1 - T0) can exceed T1, and then the last sampled row is all zeros, a state at 0 K that Cantera refuses.  It happens for a flame from 298.15 K to 1900.2 K, but never from a whole number of kelvins nor when T1 <= 2 T0 (`binary64_all_rows_filled_refuted`, `binary64_last_row_lost`, `binary64_rise_adds_up`).
* A negative step limit gives UnboundLocalError (`negative_step_limit_crashes`).
* A case that reaches steady state on the last permitted step fails (`steady_on_last_step_fails`).
* Saved samples are accepted if only their counts fit (`saved_samples_taken_on_trust`).
* A crash can mix old metrics with new data, leave a torn number that is accepted, or leave a state from which every later call fails (`crash_mixes_old_metrics_with_new_data`, `torn_metric_is_accepted_refuted`, `emptied_data_file_blocks`, `two_crashes_block`).
* A number whose text was cut in the exponent reads as another number, 10^5 times as large for an ignition delay of 2.5e-5 s (`cut_number_is_noticed_refuted`).
* `process_results` measures 400 K above the first stored temperature, while candidates measure above the initial temperature of the case; the two agree because the first stored row is the initial state (`delays_measured_alike`).
* When several workers fail, the pool and the serial run may report different exceptions (`failures_reported_alike_refuted`, `main_failures_reported_alike_refuted`).
* A negative `--num_threads` is accepted by the command line and refused with ValueError when the first pool is made, after the input was read (`negative_processes_are_refused`, `main_refuses_negative_processes`).
* `read_metrics` returns saved metrics without regard to the number of conditions (`saved_metrics_are_read`).
* A second `calculate` of an ignition case goes on from where the first one stopped and returns the time of the next step instead of the delay (`second_calculate_returns_next_time`, `calculate_repeats_refuted`).  The program makes a new object for each evaluation, so its own runs are not affected.
* A second `run_case` of an ignition case to an end time raises RuntimeError and leaves a data file with one point, from which `process_results` reads a delay of 0 (`second_run_destroys_results`).
* `run_case(restart=True)` returns None when the data file exists, whatever is in it; the docstring promises the delay (`restart_returns_no_delay`).
* `stop_at_ignition` does save data, up to ignition, against its docstring; and ignition on the last allowed step raises RuntimeError, while `calculate` returns the delay (`stop_at_ignition_returns_delay` and the example beside it).
* A flame speed that is not a number counts as a detected flame, and a rejected speed stays in the attribute `flame_speed` (`flame_calls_answer`, `flame_speed_attribute`).

Inputs and the command line
* `true` and `.inf` pass as positive numbers; text numbers give TypeError (`text_amounts_fail_by_type`); a null fuel beside `reactants` passes the case check and fails later (`empty_fuel_accepted_then_fails`).
* Targets given as one string are searched for substrings, so fuel can stay unprotected (`text_targets_leave_fuel_unprotected_refuted`).
* A model that is not `.yaml`/`.yml` is never reduced: after conversion the program fails by assigning to a NamedTuple (`converted_model_gives_attribute_error`, `other_models_are_never_reduced`).
* `pymars(argv)` tests its argument only for being empty and parses the command line of the process instead; `main(args)` in `__main__.py` does nothing when it is given arguments (`argument_not_parsed`, `argument_is_parsed_refuted`, `main_runs_its_arguments_refuted`).
* `--num_threads -3` is accepted and passed on (`processes_as_written`).
- `compare_models` ignores reversibility, treats numbers below 1e-8 as equal, is not symmetric, depends on the order of duplicate reactions, and raises ValueError when Troe data have different lengths (C42, C56, C57).
- Rounding decides whether `compare_models` accepts numbers next to its tolerance: 0 and 1e-8 match although the double 1e-8 is more than 10^-8 (`double_comparison_exact_refuted`).
- The Chemkin export leaves a truncated file when it meets a reaction it cannot write (C60). Falloff reactions with three Troe numbers, which Cantera returns when the fourth is absent, are among those: IndexError.
- Rounding of the unit conversion can change the last of the five digits that the Chemkin export prints (C102, `double_export_digits_refuted`).
- The Chemkin export glues an equation of 51 or more characters to the number after it (C63), writes Chebyshev coefficients in SI units (C64), drops the default efficiency (C62), keeps five digits of pre-exponential factors and four of falloff activation energies (C65), and writes wrong cards for five elements, fractions of atoms and thermodynamic data other than NASA polynomials (C66).
- `trace_extinction_curve` returns a branch that ends one point behind the turning point, not at it (C68).
- It takes `tau_start` for the extinction point when the seeds ascend (C69).
- It samples one point three times when extinction is at 0.1 s or later, so the error of such a model is measured at one point only (C70).
- It lets exceptions other than the documented RuntimeError through, because `_core_jacobian` is not guarded like `_core_residual` (C71).
- It reports a false extinction point for step sizes below the tolerance of the corrector (C72).
- Sensitivity analysis stops at the first refused candidate although others may still be within the limit, and rounding of the distance between errors can make it try a candidate that is not the nearest (C97).
- A turning point reached with the last of `max_steps` is not seen and raises RuntimeError (example beside `psr_exceptions`).

## 6. Trusted base

* Coq's kernel, checked again with `coqchk`.
* The axioms listed per theorem below.  No axiom is added by this development.
* The fidelity of the transcription in `Model/` to the cited lines, with the
  simplifications stated in each comment and in sections 2 and 4.
* The oracles' contracts stated in section 2.

### Print Assumptions per theorem

`closed` means "Closed under the global context".  R stands for the axioms of
the standard library's reals together with classical logic:
* `ClassicalDedekindReals.sig_forall_dec`
* `ClassicalDedekindReals.sig_not_dec`
* `Classical_Prop.classic`
* `FunctionalExtensionality.functional_extensionality_dep`

| theorem | property | assumptions |
|---|---|---|
| `run_again_same` | C107 | R |
| `run_after_other_run` | C107 | R |
| `double_export_reads_back` | C102 | R |
| `double_transport_reads_back` | C102 | R |
| `double_export_digits_refuted` | C102 | closed |
| `exported_model_reads_back` | C43 | closed |
| `exported_thermo_reads_back` | C44 | closed |
| `species_list_survives_wrapping` | C45 | closed |
| `exported_transport_reads_back` | C58 | closed |
| `export_succeeds_iff` | C59 | closed |
| `export_returns_the_files` | C59 | closed |
| `export_stops_at_unsupported_reaction` | C60 | closed |
| `convert_writes_chemkin` | C61 | closed |
| `convert_returns_the_files` | C61 | closed |
| `convert_calls_ck2yaml` | C61 | closed |
| `default_efficiency_is_lost_refuted` | C62 | closed |
| `long_equation_refuted` | C63 | closed |
| `chebyshev_units_refuted` | C64 | closed |
| `exported_model_matches_refuted` | C65 | closed |
| `falloff_energy_refuted` | C65 | closed |
| `five_elements_refuted` | C66 | closed |
| `fraction_of_atom_refuted` | C66 | closed |
| `other_thermo_refuted` | C66 | closed |
| `command_line_grammar` | C95 | closed |
| `command_line_exit_codes` | C95 | closed |
| `version_wins` | C95 | closed |
| `help_wins` | C95 | closed |
| `processes_as_written` | C95 | closed |
| `command_line_starts_program` | C95 | closed |
| `argument_not_parsed` | C95 | closed |
| `argument_is_parsed_refuted` | C95 | closed |
| `main_runs_its_arguments_refuted` | C95 | closed |
| `double_comparison_accepts` | C101 | R |
| `double_model_matches_itself` | C101 | R |
| `double_order_does_not_matter` | C101 | closed |
| `double_comparison_exact_refuted` | C101 | closed |
| `models_accepted_iff` | C42 | closed |
| `model_matches_itself` | C42 | closed |
| `order_does_not_matter` | C42 | closed |
| `order_of_duplicates_matters_refuted` | C42 | closed |
| `symmetric_refuted` | C42 | closed |
| `different_models_match_refuted` | C56 | closed |
| `troe_lengths_raise_refuted` | C57 | closed |
| `double_error_near_exact` | C89 | R |
| `double_error_special_values` | C89 | R |
| `double_error_failed_case` | C89 | R |
| `double_errors_same_run` | C89 | R |
| `double_errors_same_run_refuted` | C89 | closed |
| `double_driver_metrics_close` | C89 | R |
| `returned_model_within_limit` | C16 | closed |
| `returned_model_is_last_acceptable` | C16 | closed |
| `driver_returns_last_acceptable` | C16 | closed |
| `returned_model_metrics_close` | C16 | closed |
| `gives_up_iff_all_starts_fail` | C18 | closed |
| `driver_ends` | C19 | closed |
| `driver_never_returns` | C19 | closed |
| `returned_file_holds_model` | C20 | closed |
| `only_reduced_files_change` | C20 | closed |
| `rejected_first_attempt_left_behind` | C21 | closed |
| `input_named_like_output_lost` | C21 | closed |
| `limbo_of_driver` | C22 | closed |
| `drgep_limbo_extends_shared_list` | C23 | closed |
| `second_drgep_call_reports_first` | C23 | closed |
| `nan_error_crashes_driver` | C29 | closed |
| `returned_model_has_targets_and_safe` | C40 | closed |
| `negative_limit` | C49 | closed |
| `flame_calls_answer` | C94 | closed |
| `flame_speed_attribute` | C94 | closed |
| `flame_samples_attribute` | C94 | closed |
| `flame_objects_are_conditions` | C94 | closed |
| `threshold_is_near_its_multiple` | C105 | R |
| `double_driver_returns_documented` | C105 | R |
| `double_driver_exits_as_documented` | C105 | R |
| `double_driver_returns_documented_refuted` | C105 | closed |
| `double_main_end_to_end` | C98 | R |
| `double_main_metrics_close` | C98 | R |
| `double_main_within_limit_refuted` | C98 | R |
| `binary64_coefficients_in_unit_interval` | C73 | R |
| `binary64_diagonal_is_zero` | C73 | closed |
| `binary64_drgep_accuracy` | C74 | R |
| `binary64_drg_accuracy` | C74 | R |
| `binary64_dijkstra_finds_max_product` | C75 | R |
| `binary64_importance` | C76 | R |
| `binary64_importance_is_best_chain` | C76 | R |
| `binary64_removal` | C76 | R |
| `binary64_drg_keeps` | C76 | R |
| `rounding_decides_removal_refuted` | C77 | closed |
| `binary64_pfa_range` | C81 | R |
| `binary64_pfa_accuracy` | C81 | R |
| `binary64_pfa_keeps` | C82 | R |
| `returned_model_within_limit_binary64` | C16, C17 | R |
| `returned_model_within_limit_binary64_refuted` | C17 | closed |
| `step_back_error` | C17 | R |
| `gives_up_iff_all_starts_fail_binary64` | C18 | closed |
| `driver_ends_binary64` | C19 | R |
| `driver_never_returns_binary64` | C19 | closed |
| `double_driver_result` | C85 | R |
| `double_driver_only_writes_outputs` | C85 | R |
| `double_driver_keeps` | C85 | R |
| `thresholds_stay_off_one` | C85 | R |
| `double_driver_within_limit` | C86 | R |
| `double_driver_within_limit_refuted` | C86 | closed |
| `double_driver_gives_up` | C87 | R |
| `double_driver_ends` | C87 | R |
| `double_driver_never_returns` | C87 | R |
| `double_driver_near_exact` | C88 | R |
| `binary64_sampled_rows` | C78 | R |
| `binary64_gentle_profile_fills` | C78 | R |
| `binary64_last_row_lost` | C78 | R |
| `binary64_rise_adds_up` | C78 | R |
| `binary64_all_rows_filled_refuted` | C78 | R |
| `binary64_error_accuracy` | C79 | R |
| `binary64_error_against_limit` | C79 | R |
| `binary64_failed_case_error` | C79 | R |
| `double_delay_near` | C103 | R |
| `double_metrics_exact` | C103 | R |
| `double_metrics_exact_refuted` | C103 | closed |
| `double_reactors_start` | C103 | R |
| `double_samples_near` | C103 | R |
| `main_writes_documented` | C106 | R |
| `main_analyses_documented` | C106 | R |
| `main_gives_up_as_documented` | C106 | R |
| `program_writes_documented` | C106 | R |
| `drg_keeps_exactly_reachable` | C08 | closed |
| `pfa_keeps_exactly_reachable` | C08 | closed |
| `graph_search_keeps_targets` | C08 | closed |
| `graph_search_unknown_target` | C08 | closed |
| `graph_search_antitone` | C09 | closed |
| `dijkstra_finds_max_product` | C10 | closed |
| `dijkstra_diverges_on_growing_cycle` | C11 | closed |
| `rounded_ratio_exceeds_one` | C11 | closed |
| `dijkstra_cutoff_suppresses_search` | C12 | closed |
| `importance_is_best_chain` | C13 | closed |
| `importance_range` | C13 | closed |
| `drgep_search_terminates` | C13 | closed |
| `ignition_answers_are_visited` | C92 | closed |
| `new_ignition_objects_are_cases` | C92 | closed |
| `steady_runs_end_nearly_unchanged` | C92 | closed |
| `stop_at_ignition_returns_delay` | C92 | closed |
| `stop_at_ignition_same_delay` | C92 | closed |
| `restart_returns_no_delay` | C92 | closed |
| `process_results_repeats` | C92 | closed |
| `second_run_destroys_results` | C92 | closed |
| `second_calculate_returns_next_time` | C92 | closed |
| `calculate_repeats_refuted` | C92 | closed |
| `ignition_delay_attribute` | C92 | closed |
| `ignition_samples_attribute` | C92 | closed |
| `main_keeps_ignition_and_flames` | C93 | closed |
| `ignition_cases_accepted_iff` | C37 | closed |
| `psr_cases_accepted_iff` | C37 | closed |
| `flame_cases_accepted_iff` | C37 | closed |
| `input_accepted_iff` | C37 | closed |
| `typed_cases_fail_by_assertion` | C37 | closed |
| `text_amounts_fail_by_type` | C37 | closed |
| `empty_fuel_accepted_then_fails` | C37 | closed |
| `used_species_are_protected` | C38 | closed |
| `parsing_again_gives_the_same` | C38 | closed |
| `text_targets_leave_fuel_unprotected_refuted` | C38 | closed |
| `candidates_can_be_set_up` | C39 | closed |
| `returned_model_can_be_set_up` | C39 | closed |
| `lax_drgep_run_aborts_refuted` | C39 | closed |
| `psr_jacobian_entries` | C47 | R |
| `psr_augmented_jacobian_entries` | C47 | R |
| `psr_augmented_jacobian_paths` | C47 | R |
| `searched_coefficients_documented` | C108 | closed |
| `reference_coefficients_documented` | C108 | R |
| `main_keeps_targets_and_safe` | C40 | closed |
| `standalone_analysis_keeps_targets_and_safe` | C40 | closed |
| `drg_analysis_removes_target_and_safe_refuted` | C40 | closed |
| `other_models_are_never_reduced` | C41 | closed |
| `converted_model_gives_attribute_error` | C41 | closed |
| `main_end_to_end` | C54 | closed |
| `main_metrics_close` | C54 | closed |
| `cli_end_to_end` | C54 | closed |
| `drg_analysis_with_target_in_mixture_fails` | C55 | closed |
| `cli_drg_analysis_with_target_in_mixture_fails` | C55 | closed |
| `drg_matrix_matches_definition` | C05 | closed |
| `drg_matrix_bounds` | C05 | closed |
| `drg_matrix_scale_invariant` | C05 | closed |
| `drgep_matrix_matches_definition` | C06 | closed |
| `drgep_matrix_bounds` | C06 | closed |
| `drgep_matrix_scale_invariant` | C06 | closed |
| `pfa_matrix_matches_definition` | C07 | closed |
| `pfa_matrix_bounds` | C07 | closed |
| `small_error_bounds_every_metric` | C28 | closed |
| `close_metrics_give_small_error` | C28 | closed |
| `error_is_largest_deviation` | C28 | closed |
| `error_zero_iff_metrics_agree` | C28 | closed |
| `error_ignores_order` | C28 | closed |
| `zero_metric_gives_hundred` | C28 | closed |
| `nan_metric_gives_nan` | C29 | closed |
| `main_with_any_processes` | C99 | `FunctionalExtensionality.functional_extensionality_dep` |
| `main_fails_only_if_serial_does` | C99 | `FunctionalExtensionality.functional_extensionality_dep` |
| `main_end_to_end_any_processes` | C99 | R |
| `main_with_one_process_is_serial` | C99 | `FunctionalExtensionality.functional_extensionality_dep` |
| `main_refuses_negative_processes` | C99 | closed |
| `main_failures_reported_alike_refuted` | C99 | closed |
| `sampling_with_any_processes` | C96 | closed |
| `sampling_can_use_any_processes` | C96 | closed |
| `sampling_fails_only_if_serial_does` | C96 | closed |
| `zero_processes_are_all_but_one` | C96 | closed |
| `one_process_is_serial` | C96 | closed |
| `negative_processes_are_refused` | C96 | closed |
| `failures_reported_alike_refuted` | C96 | closed |
| `metrics_with_any_processes` | C96 | closed |
| `metrics_negative_processes` | C96 | closed |
| `program_end_to_end` | C100 | R |
| `program_with_any_processes` | C100 | `FunctionalExtensionality.functional_extensionality_dep` |
| `program_unasked_changes_nothing` | C100 | closed |
| `program_refuses_negative_processes` | C100 | closed |
| `psr_calls_repeat` | C91 | closed |
| `psr_attributes` | C91 | closed |
| `psr_metrics_mean` | C91 | closed |
| `psr_zero_means_no_curve` | C91 | closed |
| `psr_objects_are_conditions` | C91 | closed |
| `main_keeps_extinction_curves` | C91 | closed |
| `psr_extinction_is_smallest` | C46 | closed |
| `psr_sampled_points` | C46 | closed |
| `psr_points_are_steady` | C46 | closed |
| `psr_branch_is_bounded` | C46 | closed |
| `newton_reports_honestly` | C48 | closed |
| `psr_full_march_shape` | C67 | closed |
| `psr_full_march_same_points` | C67 | closed |
| `psr_branch_ends_past_extinction` | C68 | closed |
| `psr_ascending_seeds` | C69 | closed |
| `psr_late_extinction_one_point` | C70 | closed |
| `psr_exceptions` | C71 | closed |
| `psr_tiny_steps_refuted` | C72 | closed |
| `psr_points_are_spaced` | C80 | closed |
| `saved_metrics_after_sample` | C90 | closed |
| `saved_metrics_are_read` | C90 | closed |
| `missing_metrics_are_an_error` | C90 | closed |
| `reading_is_reuse` | C90 | closed |
| `reduce_antitone_in_threshold` | C09 | closed |
| `reduce_keeps_exactly` | C14 | closed |
| `reduce_never_drops_targets` | C14 | closed |
| `reduce_never_drops_safe` | C14 | closed |
| `reduce_drops_unsafe_targets` | C14 | closed |
| `reuse_of_previous_model_invisible` | C15 | closed |
| `reuse_with_falling_threshold_refuted` | C15 | closed |
| `limbo_of_step` | C22 | closed |
| `drg_reports_targets_as_limbo` | C22 | closed |
| `sa_follows_course` | C97 | closed |
| `sa_course_is_followed` | C97 | closed |
| `sa_tries_nearest` | C97 | closed |
| `sa_tries_nearest_double` | C97 | R |
| `sa_tries_special_values_double` | C97 | R |
| `double_nearest_refuted` | C97 | closed |
| `sampled_model_has_no_error` | C31 | closed |
| `ignition_pool_is_serial` | C33 | closed |
| `psr_pool_is_serial` | C33 | closed |
| `flame_pool_is_serial` | C33 | closed |
| `metric_pool_is_serial` | C33 | closed |
| `ignition_pool_can_finish` | C33 | closed |
| `first_sample_measures` | C33, C35 | closed |
| `first_sample_succeeds` | C33 | closed |
| `ignition_workers_do_not_interfere` | C34 | closed |
| `second_sample_reuses` | C35 | closed |
| `saved_samples_taken_on_trust` | C35 | closed |
| `next_sample_recovers` | C36 | closed |
| `torn_metric_is_accepted_refuted` | C36 | closed |
| `crash_mixes_old_metrics_with_new_data` | C36 | closed |
| `emptied_data_file_blocks` | C36 | closed |
| `two_crashes_block` | C36 | closed |
| `saved_number_reads_back` | C83 | R |
| `field_reads_as_nearest` | C83 | R |
| `saved_table_reads_back` | C83 | R |
| `saved_metrics_read_back` | C83 | R |
| `cut_table_reads` | C84 | R |
| `cut_table_is_a_state` | C84 | R |
| `cut_metrics_are_a_state` | C84 | R |
| `cut_number_is_noticed_refuted` | C84 | closed |
| `sa_within_limit` | C24 | closed |
| `sa_removes_only_candidates` | C24 | closed |
| `sa_default_keeps_safe` | C24 | closed |
| `sa_given_safe_removed` | C24 | closed |
| `sa_ends` | C24 | closed |
| `greedy_crashes_on_success` | C25 | closed |
| `greedy_never_removes_all` | C25 | closed |
| `initial_removes_all` | C25 | closed |
| `sa_reported_file` | C26 | closed |
| `reuse_without_file_gives_zeros` | C27 | closed |
| `standalone_sa_removes_nothing` | C27 | closed |
| `nan_candidate_removed` | C29 | closed |
| `sa_stops_because` | C51 | closed |
| `sa_maximal_refuted` | C51 | closed |
| `sa_changes_one_file` | C52 | closed |
| `sa_consumes_shared_list` | C53 | closed |
| `candidate_delay` | C30 | closed |
| `failing_candidate_scores_hundred` | C30 | closed |
| `candidate_without_mixture_species_aborts` | C30 | closed |
| `negative_step_limit_crashes` | C30, C50 | closed |
| `delays_measured_alike` | C31 | closed |
| `flame_speeds_measured_alike` | C31 | closed |
| `psr_metrics_measured_alike` | C31 | closed |
| `flame_speed_reported` | C31 | closed |
| `stirred_reactor_reported` | C31 | closed |
| `sampled_rows_are_states` | C32 | closed |
| `sampled_rows_are_determined` | C32 | closed |
| `coarse_profile_leaves_zero_rows` | C32 | closed |
| `fine_profile_fills_all_rows` | C32 | closed |
| `all_rows_filled_refuted` | C32 | closed |
| `ignition_run_succeeds_iff` | C50 | closed |
| `steady_on_last_step_fails` | C50 | closed |
| `run_without_ignition_leaves_file` | C50 | closed |
| `misfit_samples_replaced` | C35 | closed |
| `trim_keeps_exactly_requested_species` | C01 | closed |
| `trim_fails_iff_nothing_left` | C01 | closed |
| `trim_depends_on_known_names_only` | C01 | closed |
| `trim_keeps_exactly_surviving_reactions` | C02 | closed |
| `trim_leaves_no_dangling_reference` | C02 | closed |
| `trim_antitone` | C02 | closed |
| `trim_in_steps` | C03 | closed |
| `trim_in_steps_refuted` | C03 | closed |
| `trim_keeps_duplicates_together` | C04 | closed |
| `write_replaces_one_file` | C104 | closed |
| `written_model_reads_back` | C104 | closed |
| `trim_names_model` | C104 | closed |
| `trim_in_steps_through_files` | C104 | closed |
| `reduced_file_loses_phase_name` | C104 | closed |

## 7. Mutation testing

`seeded/LOG.jsonl` records, per attempt, the definition edited, the edit, the
claim it breaks, the theorems whose proof then failed, and the theorems that
were tightened.  The edits were made in a scratch copy; each failing proof was
replaced there by `Admitted`, so that all theorems depending on the edit are
found, not only the first.
