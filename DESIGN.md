# Formal model of sBayes in Rocq/Coq 8.16.1

Source: `/repo` (derpetermann/sBayes at the pinned commit). The code is only read, never run.
The development lives in `rocq/theories` (logical name `Verif`).

## Layout

* `M_*.v`  model files: Gallina functions mirroring the Python functions branch by branch.
  Every definition has a comment with file and lines in `/repo` and the simplifications made.
* `S_*.v`  specifications: small definitions that do not use model helpers.
* `L_*.v`  lemmas and proofs.
* `P_*.v`  property files: only `Theorem ... exact lemma. Qed.`, `Print Assumptions` and the `Example`
  that shows a concrete non-trivial case of the hypotheses.

## Modelling conventions

* numpy arrays are lists (of lists ...) of fixed shape; boolean masks are `list bool`.
* Python exceptions are values (`result`/`option`), never totalised away silently.
* Randomness is an explicit argument (the drawn index, the drawn uniform number, the drawn vector);
  theorems quantify over all draws that the generator can return. Where a property is about
  probabilities, the operator is additionally given as a finite distribution (`list (Q * outcome)`)
  and the sampled version is linked to it.
* Floating point numbers are modelled by exact numbers (`Q`, or stdlib `R` where log/exp are needed),
  or by an arbitrary type where only equality matters (caching).  Rounding, overflow and NaN
  propagation are out of scope, except that -inf / +inf / NaN are modelled explicitly in the
  accept/reject rule, 0/0 is an explicit undefined result, and C102-C107 model the drawing of
  sources and operators, the random walk of weights, the log-likelihood and the acceptance of proposals with IEEE binary64
  numbers (the definitions of the Flocq library; its lemmas add no axioms). Functions of the C library
  (`math.log`, `np.log`) are arguments whose accuracy is a hypothesis.
* Object identity and aliasing matter in `sampling/state.py`; there the model has an explicit heap
  of arrays and parameter objects hold references.
* Loops are structural recursion or folds; the only unbounded `while True` (initial clusters) is
  recursion on the number of attempts left.

## Trusted base

1. Coq's kernel (8.16.1) and its standard library.
2. `Print Assumptions` is printed below every property theorem. Theorems over lists, nat, Z and Q
   are closed under the global context. Theorems over stdlib `R` list the axioms of the stdlib reals
   (`ClassicalDedekindReals.sig_forall_dec`, `ClassicalDedekindReals.sig_not_dec`,
   `FunctionalExtensionality.functional_extensionality_dep`) and, where limits/trigonometric
   theory is pulled in, `Classical_Prop.classic`. No other axioms.
3. The reading of the Python source recorded in the comments of the `M_*.v` files.
4. Behaviour of numpy/pandas/scipy/pydantic/python primitives as recorded there (fancy indexing,
   broadcasting, `argmax`, `np.random.*` returning values in the support, file open modes, ...).

Not modelled at all: drawing (of `plot.py` only the computations before it: C79-C86, C93, C96, C97), the set-up messages and configuration parsing of `model_slow.py` (its likelihood and prior: C87), GIS/projection code, Delaunay triangulation
(the adjacency matrix is an arbitrary boolean matrix), scipy's MST (an arbitrary function of the clusters in C06/C07; Kruskal's algorithm with any argsort in C65),
number formatting of floats, log/screen messages, wall-clock time, PyTables.

## Properties: what is modelled and how it is proved

(See `MANIFEST.json` for theorem names and status. "Refuted" means: the faithful model violates the
statement; a theorem named `..._refuted` gives the witness and a second theorem gives the part that holds.)

| id | model | method |
|----|-------|--------|
| C01 | `state.py` parameters on an explicit heap, many samples | refinement: heap semantics = deep-copy semantics, induction over op lists |
| C02 | same heap, group-version arrays | refinement for edit/edit_group/set_items; refuted with `set_value` |
| C03 | sample + `ModelCache` + `Likelihood` (arbitrary value type) | invariant "cache entries with matching versions are fresh", induction over histories |
| C04 | same | refuted for `edit`/`set_value`, proved for `edit_group`/`set_group`/`set_items` |
| C05 | edit context with an abort point | refuted with witness; characterisation of what survives |
| C06 | all prior nodes incl. nested source prior | same invariant as C03 |
| C07 | geo prior node without inputs | refuted with witness; characterisation (value frozen until clear) |
| C08 | `normalize_weights` over Q with explicit 0/0 | algebra |
| C09 | sums over all assignments | induction (product of sums = sum of products) |
| C10, C11 | all cluster operators as nondeterministic steps | invariant by induction over step lists |
| C12 | same | proved for `AlterCluster`, `AlterClusterGibbsish2`; refuted for `AlterClusterGibbsish` |
| C13 | operator as finite distribution over Q | computation of the mass of each outcome, forward and backward |
| C14 | same, membership weights computed from data | invariance of the posterior under cluster edits |
| C15 | abstract MH kernel on finite state spaces over R | detailed balance, stationarity; instantiated with C13 |
| C16 | accept rule over extended reals with NaN | case analysis |
| C17, C18, C19, C20, C21 | the sampling loop as a state machine | induction over steps; C19 and n_steps=1 of C20 refuted |
| C22, C23 | `generate_initial_clusters` with oracle draws | induction; leak refuted |
| C24, C25, C26, C56 | effects/weights/source operators over Q/R | simplex invariants |
| C27 | Dirichlet kernels over R | conjugacy identity |
| C28 | cdf inversion | interval characterisation |
| C29, C31, C32, C33, C34, C43 | loggers and results reader on strings | round trips, invariants over sample lists |
| C30 | permutations | maximality over all permutations |
| C35 | `log_multinom` over R, enumeration of clusterings | counting by induction |
| C36, C37, C38, C39 | tables as lists of optional strings | functional correctness; gap/duplicate cases refuted |
| C40, C41 | nested dictionaries | tree induction; dropped custom settings refuted |
| C42 | run list and file paths, interleaved writers | injectivity of names, commutation of writes |
| C44 ... C55 | pure functions of `util.py`, `postprocessing.py`, `preprocessing.py`, `prior.py` | algebra; violations refuted with witnesses |
| C57, C58 | warm-up chains and initial samples | functional correctness; violations refuted |
| C59 | schedule of maximal sizes through object construction | refuted with witness |
| C60 | dictionaries on a heap with references | refuted with witness; proved for copies |
| C61 | `GibbsSampleWeights` over Q (weights) and R (densities) | detailed balance of any move, algebra of the restricted product |
| C62 | loggers, both files as text, `Results.from_csv_files` | composition of C29, C32, C33, C34; columns found by name |
| C63 | cluster operators of C13/C14 inside the kernel of C15 | NaN reports are symmetric, masses non-negative, states finite and closed; composition with C13-C15 |
| C64 | `gibbs_source` (M_source) with the likelihood and weights of M_model, in the kernel of C15 together with the operators of C63; weights and effects fixed | product of the categorical probabilities = joint / mixture (C09); detailed balance of a Gibbs step, mixture of invariant kernels; concrete log-likelihood and log-prior in S_gsource |
| C65 | cost matrix of a cluster over Q with infinite entries, scipy's Kruskal with component labels and an arbitrary argsort, aggregators | labels represent connectivity; number of kept edges above any cost is minimal (counting components), hence sum, maximum and tie-independence; additivity over clusters by induction; the mean with zero costs is refuted |
| C66 | `GeoPrior.__call__` by type with exceptions as values | refuted with witnesses; characterisation |
| C67 | tables of M_data, the extraction tool, JSON as a dictionary, `parse_concentration_dict` | refuted with witness (one is added twice); exact value proved |
| C68 | the same with the family confounder | sums over groups exchanged, every object with a family lies in one group |
| C69 | dictionaries as association lists with overwriting, the CSV table as rows of optional numbers | characterisation of success and values by lookup |
| C70 | the sampling loop of M_mcmc with the statistics file as text that is rewritten at each logged sample; a reader of the table as specification | round trip of the table, tallies of C18; the steps after the last logged sample and ambiguous names are refuted |
| C71 | `observation_lhs` as an attribute carried along the chain of M_mcmc, the file as rows | invariant: the attribute belongs to the current sample of each chain; likelihoods of M_cache/S_model |
| C72 | `generate_initial_sample` composed of M_init, M_source and M_params parts (M_sampler) | C22 for clusters, normalisation lemmas for weights and effects, C25-type lemma for sources, their law from C64; a pair of samples refutes that sources are kept |
| C73 | complete samples, operator list, runs of M_mcmc whose draws are results of the modelled operators (S_sampler) | each operator preserves validity; induction over both loops; handover by C72 |
| C74 | exceptions of the operators as outcomes (`Fail`, `sample_two`, `n_groups`, `get_operators`; M_progress); not included: parameters of `np.random.dirichlet`, evaluation of the model | cluster posteriors lie strictly between 0 and 1 because every object has a confounding component of positive probability, hence no NaN and no empty choice; positivity is preserved by every operator and holds initially; witnesses show that the conditions are needed |
| C75 | the sampler of C64 (`sampler_matrix`, S_gsource) iterated (`nstep`, S_ergodic); weights, effects and schedule fixed | supports of the operators with positive forward and backward probabilities (L_reach1, L_reach2), clusterings as labels of objects connected by single moves (L_labels: shrink to minimal sizes, then transpositions through a free object), positivity of the kernel (L_reach3, L_reach4); necessity by invariants of all proposals (L_reach5) |
| C76 | as C75; `stationary_distribution` in S_ergodic | Doeblin's argument for finite chains with a state that has a loop and is reached from everywhere (L_doeblin), rows of the matrix sum to 1 because all proposal distributions have mass 1 (`run_move_unit`, L_reach3), stationarity from C64 |
| C77 | runs of the chain of C76 as iterated expectations over the transition matrix, any set of logged steps, burn-in as `skipn` (S_averages) | the expected sum is bounded uniformly by the geometric rate of C76, the second moment by induction on the steps; Chebyshev |
| C78 | the chain of C64 on states without sources (`e_resample = false`), mixture likelihood of `M_model.mixture_lhs` (S_collapsed) | sum over all source arrays (C09); label moves of C75 with proposals that leave the sources out; a direct rejection gives an aperiodic state; C76 and C77 for both chains |
| C79 | `clusters_to_graph`, `gabriel_graph_from_delaunay` (squared distances, exact numbers; the triangulation is an arbitrary matrix), the reading of results and the loop over clusters (M_plot) | specification by counting (S_plot); the list of edges by induction over the list of matrix entries; refuted: the burn-in is dropped twice; at the default threshold 1/2 an object can be in two clusters |
| C80 | `plot_pies`: grid, slices, numbers, labels; `None` for the exceptions of matplotlib (M_plot) | partition of the samples by disjointness (count_partition); refuted: up to n_columns objects (4 by default) the plot fails, and the burn-in is dropped twice |
| C81 | composition of the cluster logger, `read_clusters`, `drop_burnin` and the plots of C79/C80 (M_charts) over the runs of the chains of C78 | every relabelling is a permutation, so label-free counts survive it (L_charts); C80/C79 for the counts; C78_averages for the limit, with the burn-ins determined by the number of samples |
| C82 | M_plot2 `path_cmp` (order of pathlib paths), `sort_paths`, `stem`, `model_name`, `models` (the zip), `results_dict`; `clusters_of`/`stats_of` from M_config `file_path` | insertion into a sorted list commutes, so sorting depends on the multiset only; clusters_x and stats_x compare alike unless a subdirectory lies between 'c' and 's'; witnesses: nested directory, missing file, equal names |
| C83 | M_plot2 `table_sites`, `correspondence` (loop over rows), `map_labels`, `labels_of`, `map_table` | invariant of the loop: row r holds entries r, r+n_row, ...; disjointness from C79; witnesses: threshold 1/2, density map |
| C84 | M_plot2 `legend_values` (with `argsort` of M_post) | sortedness of argsort, argsort of sorted keys is the identity; witness with two clusters |
| C85 | M_plot2 `plot_types`, `default_keys`, `should_be_plotted` over M_config `set_defaults` | characterisation of keys after set_defaults; witness |
| C86 | M_plot `break_label`, M_plot2 `break_label_keep` | first minimum of the distance to the middle; splitting at the line break; witness with both characters |
| C87 | `M_slow.v`: `slow_component`, `slow_components`, `slow_weights`, `slow_likelihood` (with its assertion), `slow_confounding_prior`, `slow_prior`, `slow_model`; `uniform_model` instantiates the cached model of `M_cache.v` with the priors both implementations support | Refinement: the loop from zeros over all groups equals the specification of C03 for disjoint groups; priors by C06; floating point sums with infinities and NaN form a commutative monoid, so the split between likelihood and prior does not matter and the constant cancels in the acceptance ratio. Refuted for geo-priors that depend on the clusters (C07: stale cache), and for the likelihood alone when sources are sampled |
| C88 | M_contrib.v on top of M_cache (copy, dropped source, raw assignments, new cache with arbitrary content, uncached evaluation in a loop) and M_state (RawAssign added to the operations on parameter objects, so C01/C02 cover it) | direct evaluation of the uncached path; obs_ext compares observations under different cluster arrays; sums in the commutative monoid of floats; isolation from the refinement theorems C01/C02 and a renumbering simulation; refuted for one cluster because of the stale geo-prior (C07) |
| C89 | M_simdata: text of the files; csv.writer with QUOTE_MINIMAL, tokenizer of pandas as an automaton over characters, header and index columns, load_canvas from rows, Objects.from_dataframe, read_features_from_csv, write_to_csv (order of sets, str of floats, float and missing cells are arguments) | automaton invariant: unquoted fields and records are recovered, then columns, then C36/C38 lemmas for the encoding and the groups; refuted twice with names containing commas (quote character of the writer unknown to the reader): two sites get the same name, or reading fails |
| C90 | M_extract: text of the files through the tokenizer and writer of M_simdata (quote character and line end as arguments), the tool on tables from M_data | automaton invariant for quoted and unquoted fields gives the round trip of records, tables and columns; the table of states of tidy files satisfies its conditions; then C36/C37 lemmas; success of the tool by induction over the files; refuted for a header that is taken for a blank line |
| C91 | M_simrun: configuration with defaults, numbers of states, padded probabilities, the run from canvas to features (steps of M_sim, M_simdata) | counting lemmas with floors and permutations; draws of positive probability and zero padding give the range for arbitrary draws; composition with C53, C28 and C89; refuted: defaults merged into the fractions of the user, few features with the default fractions, states that were not drawn |
| C92 | `M_settings` models the pydantic classes of the configuration field by field on nested dictionaries (conversions of pydantic, existence of files, creation of directories are arguments; exceptions are `None`), `from_config_file`, `update` with `.dict()` (hidden attributes), paths, and what creating and evaluating the priors needs. `S_settings` states consistency, the default values as a dictionary, the settings of a run, the attributes that apply, and what is usable, without the parsing functions. | Inversion of each parser; invariance of each field under `set_defaults` (lemmas on `get`); parsing of what was dumped, section by section; splitting of joined paths. Refuted by cases: leaving out `confounders`, `sample_source`, or `operators` (sources not sampled) is a KeyError although there are defaults; a file named from_data replaces the default of the costs; `sample_source: "no"` keeps the source operator, which an update removes; Dirichlet priors on weights, empty parameters and priors of unused confounders are accepted but cannot be used; minimal sizes above the maximum and negative numbers of clusters are accepted. |
| C93 | `M_simplex` models the corner points with their cache (in-place scaling included), the projection, the mean, the lower and upper line of `fill_outside`, the panels (simplex, density, blank), the grids and files of `plot_weights`, `plot_preferences` and `plot_weights_and_prefs` over real coordinates; drawing, colours, kernel density and fonts are not modelled. `S_simplex` states mixtures, the convex hull by separating lines, regular polygons, what is covered and what a panel shows. | Trigonometry for corners of regular polygons (monotone walks along both sides, convexity), induction over walks, over sequences of drawings (power of 1.2) and over grids; results of C79/C85 for what was read from files. Refuted: panels with labelled states scale the cached corners for all later panels by 1.2 (after 3894 panels beyond the largest float); with four or more shares different samples have the same place; no weight plot with fewer than two confounders; the default labels C, U, I do not follow the order of the confounders; the plot of a feature raises an error with more clusters than the largest number of groups, and a confounder called cluster loses its panels. |
| C94 | `M_experiment` models the disk as a map from paths to directories and files with their text, with `makedirs`, `mkdir`, writing, appending and `shutil.copy` (also onto itself and into a directory), names from the clock, `Experiment`, `runner` and `main` of cli.py over the settings of C92; a run is any function of random numbers, settings, the content of the input files and its number. Parallel runs, permissions, links, the parser of YAML/JSON (a function of name and text) and warnings are not modelled. `S_experiment` states paths below others, times in the same minute, the names of the files of a run and what may be written. | Invariant over the runs (results of earlier runs, copy, log, directories, everything else unchanged), from which every run reads the same settings again (C92 with monotone files) and the same inputs; file names are injective in kind, number of clusters and run. Refuted: the copy cannot be used if paths are relative, or under the same name; analyses of the same minute overwrite each other; files of earlier runs stay; the setting log_file is not used; settings given to main are not used by the runs and split the results over two directories. |
| C95 | the operators of C10-C16, C25-C28, C56, C61 on the samples of the whole-sampler model (`M_sampler`, C72-C74): random walks with `propose_params`, Gibbs draws with their Dirichlet and beta densities, cluster and source operators as finite distributions; joint density, moves, reverse moves in `S_joint` | one theorem by cases of the move: discrete operators by C63/C64/C78 lifted to the parameters of the sample (`L_joint2`), random walks by reversal of the proposal and of the acceptance (`L_joint5`), weights by C61 (`L_joint3`), effects by conjugacy C27 (`L_joint4`); closure by C73/C74; the density respects equality of rational numbers by congruence of every function of the model (`L_joint`) |
| C96 | M_plotrun.v: `plot_dic` (places of names on a categorical axis, labels by position, python's negative indices, limits and ticks), on results of M_results.v and `compute_dic` of M_post.v; S_plotrun.v: the value of a list of samples, the shown positions, floor and ceiling | selection without repetition gives distinct names, hence distinct places; value by C47's definition; samples: C34 for the first removal (rounded down), ceiling for the second; refuted: burn-in of this plot alone (the share of the map is removed before), number 0 refused (it is the last model), number 2 = two clusters (order of paths, K10 before K2), labels after a repeated number |
| C97 | M_plotrun.v: `main` as a sequence of actions on the files of the plots, the corners in memory and the results read so far, each of which can end with an exception; per-plot functions from M_plot.v, M_plot2.v, M_simplex.v; S_plotfiles.v: names of files, requested plots, what a picture shows | L_plotrun.v: every action writes only its own names and pictures and, if it ends, all of them; the corners stay regular polygons; shape of the results from the reader; file names are injective in run and plot; L_plotrun2.v: whether an action ends does not depend on earlier ones; refuted: several frequencies, a slash in the name of a group, two experiments with runs of the same name |
| C98 | M_tracked.v: operators, initial sample, evaluation with assertions and the loop on the sample objects of M_cache.v (versions, groups, caches, copies); S_tracked.v: contents of an object, the same sampler on contents with everything from scratch, histories of objects, runs seen through a function | L_tracked.v: every operator on objects simulates the one on contents (distributions related outcome by outcome, from the cache theorems C03/C06); L_tracked2.v: all kinds of proposals and the evaluation; L_tracked3.v: generic simulation of the loop; L_tracked4.v: initial samples, link to M_mcmc.v and to the whole runs of C73; L_tracked5.v: failed assertions |
| C99 | M_tracked.v as for C98; S_tracked.v: the sampler on pairs of a sample and the remembered value of the geo-prior | C99_run: runs on objects are exactly the runs with a remembered geo-prior (same simulation as C98); C99_unchecked: without the debug mode the geo-prior has no effect on any run if it is finite for the initial clusters; C99_settles and C99_late: the same for all steps after 1000 in the debug mode, once a candidate was accepted; refuted: AssertionError when sampling from the prior although all values are finite; a run in debug mode that accepts and logs a sample of prior density zero |
| C100 | M_program.v: the model of M_cache.v with the priors as configured (size, geo, uniform weights and cluster effects, Dirichlet or uniform confounders, sources); S_program.v: density of a move made by a step on objects (M_tracked.v), what the loop knows about the sample of a chain | L_program.v: values from scratch are the likelihood and prior of C95; L_program2.v: probabilities of all moves on objects by the simulation of C98; L_program3.v: all states of a run, moves are steps; balance from C95; counterexample with a geo-prior that depends on the clusters |
| C101 | S_limit.v: the random choices of a step of the program on objects (M_tracked.v, M_program.v) with their probabilities (operators from M_post.v), expectations over runs, the samples of a run | L_limit.v: one random step on objects is one step of the finite chain of C64/C78 on clusters and sources, by the simulation of C98 and the values of C100; L_limit2.v: the schedule, the states, convergence from C76 and C78; averages by the lemmas of C77; counterexample with a geo-prior that depends on the clusters |
| C102 | M_float.v: IEEE binary64 values and operations (Flocq's, computable, with NaN and infinities), masked weights, normalize, cumsum, argmax, the uniform draws k/2^53; S_float.v: exact shares and probabilities by counting draws | L_float.v: each operation is the exact one followed by rounding to nearest, with its error; L_float2.v: error of sums in any order, of quotients and of cumulative sums by induction; L_float3.v: the draw falls between consecutive sums, counting; L_float4.v: the whole pipeline; refuted by computation for the draw 1 - 2^-53 |
| C103 | M_fchoice.v: the five frequencies, the raw weights in dictionary order, sum and division, np.random.choice with Kahan sum, tolerance 2^-26, cumulative sums divided by the last one and searchsorted, on the binary64 numbers of M_float.v; S_fchoice.v: the exact frequencies as real numbers | L_fchoice.v: error of the compensated sum, the check never fails, the last cumulative sum is exactly 1, the draw falls between consecutive sums; P_fchoice.v: rounding of the shared frequencies, counting of draws; overflow and underflow outside the range by computation |
| C104 | M_drift.v: numpy's Dirichlet draw from two gamma variates, the change of two entries, accepted or rejected, folded over the steps, on the binary64 numbers of M_float.v; S_drift.v: non-negative finite rows with sum 1 up to a tolerance | L_drift.v: relative error of the draw (4 units), of one step (8 units), induction over the steps; P_drift.v: for two equal variates 24.5 every step loses exactly one unit, by induction, so no tolerance holds for all lengths |
| C105 | M_faccept.v: the ratio and the decision on the binary64 numbers of M_float.v with infinities and NaN; the logarithm of the C library is an argument; S_faccept.v: exact ratio and probability, accuracy of a logarithm | P_faccept.v: error of the ratio, min(1, exp) moves no faster than its argument, counting of draws below a bound; infinities by cases; a correctly rounded logarithm is constructed as a case |
| C106 | M_fll.v: observation likelihoods (mixture and source) and the sum of logarithms on the binary64 numbers of M_float.v; np.log is an argument; S_fll.v: exact mixture, sums of logarithms, accuracy of a logarithm | L_fll.v: sums with signs in any order, relative error of one mixture, logarithms of perturbed numbers; P_fll.v: totals over the observations, minus infinity by cases, composition with C105, a correctly rounded logarithm as a case, underflow as a witness |
| C107 | M_fchain.v: the end of a step (candidate, decision, state) over M_faccept.v; S_fchain.v: numbers shown up to rounding, drawn proposals, the transition matrix of the program, error of one step | L_fchain.v: perturbation of Markov chains (telescoping, Doeblin decay, stationary distributions); L_fchain2.v: the decision for infinities and NaN by cases; L_fchain3.v: rows of the matrix, mixture of the operators by C103; P_fchain.v: with C76; a setting of 12 states with correctly rounded logarithms as a case |
| C108 | M_template.v: the fields of the classes of settings as data, template_literal, template, generate_template (two arguments: what str(Optional[...]) and inherited annotations are in the version of Python); S_template.v: completing a template, file with the answers only, paths of a file | L_template.v: the completed template section by section against M_settings.v; L_template2.v: shapes of accepted files, optional places, accepted answers; P_template.v |

## Findings (disagreements between code and property)

Kept in the notes of `MANIFEST.json`; every one has a `_refuted` theorem with a concrete witness.

## Reading the mutation log

`seeded/LOG.jsonl` has one line per edit of the model.

- `theorems_failed` lists the theorems whose proof no longer goes through, directly or through a lemma.
- This shows that the proof depends on the edited text. It does not by itself show that the claim became false: a script may break because it follows the shape of a definition.
- Edits planned as harmless or as repairs are marked in `note` where this was noticed; the failures listed there are not evidence that a theorem detects a bug.
- A failing concrete `Example` is stronger evidence, but examples are not listed in `theorems_failed`.
- `outcome: invalid edit` means that the edited model or a later statement did not typecheck, so nothing was tested.
- `outcome: survived` means that no theorem failed. An edit can also survive for the claim it was aimed at while another theorem failed; the note says so (A6).
- Some entries named the wrong property when they were run. The corrected ones say so in `note`.
