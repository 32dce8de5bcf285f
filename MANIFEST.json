{
 "claims": [
  {
   "property": "C01",
   "status": "proved",
   "theorems": [
    "C01_samples_isolated"
   ],
   "note": "Heap semantics of copies/edits equals deep-copy semantics for every history (including set_value and aborted edits)."
  },
  {
   "property": "C02",
   "status": "partial",
   "theorems": [
    "C02_tracking_isolated_partial",
    "C02_tracking_isolated_refuted"
   ],
   "note": "Holds without set_value; false with set_value (group_versions array stays shared)."
  },
  {
   "property": "C03",
   "status": "proved",
   "theorems": [
    "C03_cached_likelihood_fresh",
    "C03_overlap_needed_refuted"
   ],
   "note": "Holds for histories whose tracked parameters change group-wise and whose evaluated clusters are disjoint (the chain's invariant, C10). The extra refutation shows that disjointness is necessary."
  },
  {
   "property": "C04",
   "status": "partial",
   "theorems": [
    "C04_group_edits_seen_partial",
    "C04_edit_seen_refuted",
    "C04_set_value_seen_refuted"
   ],
   "note": "Full statement false: edit() and set_value() on cluster_effect/confounding effects/clusters do not touch the group versions, so the cached likelihood stays old. Group-wise mutators are seen."
  },
  {
   "property": "C05",
   "status": "partial",
   "theorems": [
    "C05_failing_edit_noticed_refuted",
    "C05_completed_edit_noticed_partial"
   ],
   "note": "False for a raising edit body (no try/finally); holds for all completed operations."
  },
  {
   "property": "C06",
   "status": "proved",
   "theorems": [
    "C06_cached_priors_fresh"
   ],
   "note": "All prior terms except the geo-prior (C07)."
  },
  {
   "property": "C07",
   "status": "partial",
   "theorems": [
    "C07_geo_prior_follows_refuted",
    "C07_geo_prior_frozen",
    "C07_geo_prior_follows_partial"
   ],
   "note": "Full statement false: the geo-prior node has no inputs, it stays frozen at its first value along a chain; uncached or freshly cleared evaluations are right."
  },
  {
   "property": "C08",
   "status": "proved",
   "theorems": [
    "C08_normalized_weights"
   ],
   "note": "Row by row: distribution over the available components keeping weight ratios, or undefined exactly when no component is available."
  },
  {
   "property": "C09",
   "status": "proved",
   "theorems": [
    "C09_source_marginal",
    "C09_all_sources"
   ],
   "note": "Sum over all source arrays of prior times likelihood equals the mixture likelihood."
  },
  {
   "property": "C10",
   "status": "proved",
   "theorems": [
    "C10_clusters_disjoint"
   ],
   "note": "All histories of the three cluster operators."
  },
  {
   "property": "C100",
   "status": "partial",
   "theorems": [
    "C100_density",
    "C100_reversible_partial",
    "C100_constant",
    "C100_made",
    "C100_running",
    "C100_refuted"
   ],
   "note": "Proved for the posterior without the geo-prior, and for the configured posterior if the geo-prior is the same for all clusters (the default, uniform). For a geo-prior that depends on the clusters the statement is false: the cached geo-prior is never recomputed (C05, C99), C100_refuted has the first step of a run. Densities at rational points as in C95; densities of scipy are arbitrary functions; draws are in the interior."
  },
  {
   "property": "C101",
   "status": "partial",
   "theorems": [
    "C101_uniform_draw",
    "C101_log",
    "C101_total",
    "C101_limit_partial",
    "C101_constant",
    "C101_averages_partial",
    "C101_refuted"
   ],
   "note": "Proved for the posterior without the geo-prior, and for the configured posterior if the geo-prior is the same for all clusters (uniform). With a geo-prior that depends on the clusters the limit is a different distribution: C101_refuted. The number of objects must exceed clusters times the minimal size (C75), and without sources the minimal size must be below the maximal size with p_grow_connected below 1. The distribution of the uniform draw enters as the probability of either side of the acceptance probability (C101_uniform_draw). One chain."
  },
  {
   "property": "C102",
   "status": "partial",
   "theorems": [
    "C102_available_partial",
    "C102_distribution",
    "C102_rare",
    "C102_refuted"
   ],
   "note": "Refuted as stated: the cumulative sums can end below 1, and np.argmax of an all-false row is 0, so with probability 2^-53 an object outside all clusters gets the cluster as source although its weight there is exactly 0 (C102_refuted). C102_available_partial: this can only happen for component 0 and the last 8n draws. C102_distribution: every component has its exact posterior probability up to n/2^48. C102_rare: at most 8n of the 2^53 draws are affected. The numbers must be in [0,1] and not so small that products underflow."
  },
  {
   "property": "C103",
   "status": "proved",
   "theorems": [
    "C103_chosen",
    "C103_distribution",
    "C103_overflow",
    "C103_underflow",
    "C103_no_confounders"
   ],
   "note": "Proved for all frequencies that are zero or in [2^-400, 2^400]. C103_overflow and C103_underflow show that some range is needed: the config accepts every non-negative double, but with three frequencies of 2^1023 every choice raises ValueError, and with the clusters at 2^-1074 and everything else zero the normalization divides by zero. C103_no_confounders shows that one confounder is needed too."
  },
  {
   "property": "C104",
   "status": "partial",
   "theorems": [
    "C104_linear_partial",
    "C104_untouched",
    "C104_not_finite",
    "C104_drift",
    "C104_refuted"
   ],
   "note": "Refuted as stated: rows are never normalized as a whole, and there is a sequence of draws for which T accepted steps give the sum 1 - T/2^53 (C104_drift), which leaves the tolerance 10^-9 of scipy's own check (switched off by FAST_DIRICHLET) after 10^7 steps (C104_refuted). C104_linear_partial: the error grows by at most 2^-50 per step, and all entries stay finite and non-negative. C104_untouched and C104_not_finite: other entries keep their exact value; draws that are not finite change nothing."
  },
  {
   "property": "C105",
   "status": "proved",
   "theorems": [
    "C105_probability",
    "C105_raises",
    "C105_uphill",
    "C105_impossible"
   ],
   "note": "The error grows with the size of the log-likelihood difference: for differences of 10^6 it is below 10^-9. The accuracy of math.log is a hypothesis, met by a correctly rounded logarithm (rounded_log_accurate). C105_raises: the draw 0 (probability 2^-53) ends the run in every step that is not decided by the markers of Gibbs steps and rejections."
  },
  {
   "property": "C106",
   "status": "proved",
   "theorems": [
    "C106_mixture",
    "C106_impossible",
    "C106_source",
    "C106_step",
    "C106_underflow"
   ],
   "note": "C106_underflow: the bound 2^-400 cannot be dropped, a weight and a likelihood of 2^-600 give minus infinity for a possible observation. The accuracy of np.log is a hypothesis, met by a correctly rounded logarithm (rounded_np_log_good)."
  },
  {
   "property": "C107",
   "status": "proved",
   "theorems": [
    "C107_posterior"
   ],
   "note": "Frequencies of weights and effects are zero (fixed parameters), as in C76. Draws of proposals inside the operators enter by their total error kappa (C102 gives it for one drawn component). With a draw of exactly zero math.log raises ValueError (C105), so the mass of the unconditioned chain decreases by at most 2^-53 per step; the second and third part are for draws that are not zero."
  },
  {
   "property": "C108",
   "status": "partial",
   "theorems": [
    "C108_completed_partial",
    "C108_accepted_partial",
    "C108_left",
    "C108_names",
    "C108_refuted"
   ],
   "note": "Refuted in full: from Python 3.9 on generate_template raises an AssertionError (the text of Optional[...] no longer contains NoneType), and from 3.10 on a KeyError as well (annotations of subclasses); a file in which any <OPTIONAL> is left is refused; the completed template has no confounders, so creating the operators divides by zero and the priors of confounders raise KeyErrors. Missing for the full statement: exactly these, a file named from_data, and a results directory that cannot be made. C108_names: also values below the frequency of the source operator, which is overwritten unread if sources are not sampled. The fields of the classes are written down from the source, not derived from it."
  },
  {
   "property": "C11",
   "status": "proved",
   "theorems": [
    "C11_sizes_within_bounds"
   ],
   "note": "All histories of the three cluster operators."
  },
  {
   "property": "C12",
   "status": "partial",
   "theorems": [
    "C12_bounds_from_any_start_refuted",
    "C12_bounds_from_any_start_partial"
   ],
   "note": "False of AlterClusterGibbsish (compares with ==); proved for the other two operators."
  },
  {
   "property": "C13",
   "status": "proved",
   "theorems": [
    "C13_alter_cluster_probabilities"
   ],
   "note": "Reported probabilities times the common factor 1/(2k) are the true forward and backward probabilities, in states as guaranteed by C10/C11."
  },
  {
   "property": "C14",
   "status": "proved",
   "theorems": [
    "C14_gibbsish_probabilities",
    "C14_gibbsish2_probabilities",
    "C14_weights_unchanged"
   ],
   "note": "Common factor 1/(2k), respectively 1/k; NaN probabilities excluded."
  },
  {
   "property": "C15",
   "status": "proved",
   "theorems": [
    "C15_acceptance_probability",
    "C15_detailed_balance",
    "C15_stationary"
   ],
   "note": "Kernel over finite proposal distributions; reported probabilities correct up to a common factor (C13/C14 provide this for the cluster operators), NaN reports included."
  },
  {
   "property": "C16",
   "status": "proved",
   "theorems": [
    "C16_markers",
    "C16_zero_draw"
   ],
   "note": "Last clause for Metropolis-Hastings proposals; Gibbs proposals are always accepted. A uniform draw of exactly 0 raises an exception (C16_zero_draw)."
  },
  {
   "property": "C17",
   "status": "proved",
   "theorems": [
    "C17_values_of_state"
   ],
   "note": "For all operators as configured (never in place without Gibbs markers)."
  },
  {
   "property": "C18",
   "status": "proved",
   "theorems": [
    "C18_counts",
    "C18_per_operator"
   ],
   "note": ""
  },
  {
   "property": "C19",
   "status": "partial",
   "theorems": [
    "C19_rate_refuted",
    "C19_rate_partial"
   ],
   "note": "False: accepts are divided by the number of samples; upper bound proved instead."
  },
  {
   "property": "C20",
   "status": "partial",
   "theorems": [
    "C20_samples_refuted",
    "C20_samples_partial"
   ],
   "note": "False for steps=1 (ZeroDivisionError); proved for all other validated settings with non-zero uniform draws."
  },
  {
   "property": "C21",
   "status": "proved",
   "theorems": [
    "C21_warm_up_best"
   ],
   "note": "Posteriors other than NaN."
  },
  {
   "property": "C22",
   "status": "proved",
   "theorems": [
    "C22_initial_clusters"
   ],
   "note": "initial_size >= 1 (validated by the configuration)."
  },
  {
   "property": "C23",
   "status": "partial",
   "theorems": [
    "C23_terminates",
    "C23_undo_refuted",
    "C23_undo_partial"
   ],
   "note": "Termination proved. Sites of failed attempts stay occupied (refuted); proved instead that they could not have hosted a cluster (symmetric networks of at most 1000 sites)."
  },
  {
   "property": "C24",
   "status": "proved",
   "theorems": [
    "C24_initial_effects"
   ],
   "note": "Observed states are applicable states; at least one applicable state per feature."
  },
  {
   "property": "C25",
   "status": "proved",
   "theorems": [
    "C25_simplex_preserved"
   ],
   "note": "Invariant of all histories of the five weight/effect operators."
  },
  {
   "property": "C26",
   "status": "partial",
   "theorems": [
    "C26_one_component",
    "C26_admissible_partial",
    "C26_admissible_refuted"
   ],
   "note": "Exactly one component: proved without conditions. Availability: proved when the source probabilities are defined (positive weights, positive probability of observed states, every object in some confounder group); false otherwise (0/0 weights lead to component 0), refuted with a witness."
  },
  {
   "property": "C27",
   "status": "proved",
   "theorems": [
    "C27_conjugate",
    "C27_draws"
   ],
   "note": "Prior density times likelihood given the source is proportional, in the effect of the group, to the density of the Gibbs draw, for clusters (uniform prior) and confounders (uniform or Dirichlet prior), also when sampling from the prior. Effects are rational with positive probabilities of the applicable states; groups of the component do not overlap; at most one state per observation; scipy's normalising constant is an arbitrary function. Uses the axioms of the standard library's real numbers."
  },
  {
   "property": "C28",
   "status": "proved",
   "theorems": [
    "C28_categorical",
    "C28_short_sum_returns_zero"
   ],
   "note": "Exact interval for every category; the second theorem shows why the sum must be one."
  },
  {
   "property": "C29",
   "status": "proved",
   "theorems": [
    "C29_round_trip"
   ],
   "note": "Clusters logger and reader; at least one sample, one cluster, one object; corner cases without clusters/objects shown as Examples."
  },
  {
   "property": "C30",
   "status": "proved",
   "theorems": [
    "C30_best_permutation",
    "C30_first_identity",
    "C30_unique"
   ],
   "note": "Optimal over all permutations, first in lexicographic order on ties, identity for the first sample, unique."
  },
  {
   "property": "C31",
   "status": "proved",
   "theorems": [
    "C31_same_labels"
   ],
   "note": "For all sequences of samples the two files use the same labels."
  },
  {
   "property": "C32",
   "status": "partial",
   "theorems": [
    "C32_header_rows_partial",
    "C32_clean_names",
    "C32_complete",
    "C32_header_rows_refuted"
   ],
   "note": "False for arbitrary names: colliding column names log one value for two parameters (refuted). Proved when distinct columns have distinct names, which holds for names without underscores."
  },
  {
   "property": "C33",
   "status": "partial",
   "theorems": [
    "C33_names_partial",
    "C33_names_refuted"
   ],
   "note": "False for names with underscores and confounders called prior/lh/post/size (refuted); proved for clean names."
  },
  {
   "property": "C34",
   "status": "proved",
   "theorems": [
    "C34_burn_in"
   ],
   "note": "Floats exact."
  },
  {
   "property": "C35",
   "status": "proved",
   "theorems": [
    "C35_log_multinom",
    "C35_total_mass",
    "C35_labels",
    "C35_quadratic"
   ],
   "note": "Over the reals; cache excluded (see C03)."
  },
  {
   "property": "C36",
   "status": "partial",
   "theorems": [
    "C36_encoding",
    "C36_distinct",
    "C36_rejects",
    "C36_applicable_partial",
    "C36_applicable_refuted",
    "C36_missing"
   ],
   "note": "All parts proved for all tables except 'marked applicable', which holds only for state columns without gaps; refuted for a gap in the middle of the column."
  },
  {
   "property": "C37",
   "status": "partial",
   "theorems": [
    "C37_exact",
    "C37_columns",
    "C37_loads_partial",
    "C37_loads_refuted"
   ],
   "note": "Exactness, sortedness and columns proved for all files. Loading proved if no cell strips to a missing-value string; refuted for a blank cell. The set of missing-value strings is a parameter; for the text of the files see C90."
  },
  {
   "property": "C38",
   "status": "partial",
   "theorems": [
    "C38_groups",
    "C38_one_group_partial",
    "C38_rejects",
    "C38_all",
    "C38_one_group_refuted"
   ],
   "note": "Groups, non-emptiness, rejection and the <ALL> case proved; exactly one group only for distinct configured names, refuted for repeated ones."
  },
  {
   "property": "C39",
   "status": "partial",
   "theorems": [
    "C39_costs_partial",
    "C39_symmetric_refuted"
   ],
   "note": "Entries proved for all name orders; exact symmetry refuted for files symmetric up to np.allclose only (left unsymmetrised); floats exact."
  },
  {
   "property": "C40",
   "status": "proved",
   "theorems": [
    "C40_set_defaults",
    "C40_update",
    "C40_iter"
   ],
   "note": "For all nested dictionaries with distinct keys."
  },
  {
   "property": "C41",
   "status": "partial",
   "theorems": [
    "C41_run_experiment",
    "C41_main_partial",
    "C41_refuted",
    "C41_runs",
    "C41_runs_file"
   ],
   "note": "Settings given to run_experiment, and run/cluster numbers given to main, are in force; other settings given to main are dropped by runner (refuted)."
  },
  {
   "property": "C42",
   "status": "proved",
   "theorems": [
    "C42_once",
    "C42_schedules",
    "C42_deterministic",
    "C42_content"
   ],
   "note": "All interleavings of arbitrary operations of the runs on their files. experiment.log and the config copy are shared and excluded (they are not results files)."
  },
  {
   "property": "C43",
   "status": "partial",
   "theorems": [
    "C43_file_partial",
    "C43_since_opened",
    "C43_file_refuted",
    "C43_close_unopened"
   ],
   "note": "Closing and logging on truncates the file (refuted); otherwise proved."
  },
  {
   "property": "C44",
   "status": "proved",
   "theorems": [
    "C44_scale_counts"
   ],
   "note": "Exact arithmetic."
  },
  {
   "property": "C45",
   "status": "partial",
   "theorems": [
    "C45_round_int_refuted",
    "C45_round_int_partial",
    "C45_round_single_int",
    "C45_round_multiple_ints",
    "C45_round_multiple_positions"
   ],
   "note": "round_int(n,'up') raises for every n above the offset and negative offsets give wrong results (refuted); all returned values are correct for offsets >= 0, exceptions characterised."
  },
  {
   "property": "C46",
   "status": "partial",
   "theorems": [
    "C46_linear_rescale_refuted",
    "C46_linear_rescale_partial"
   ],
   "note": "False unless both ranges have the same maximum: the result is off by old_max - new_max."
  },
  {
   "property": "C47",
   "status": "partial",
   "theorems": [
    "C47_value_partial",
    "C47_only_if",
    "C47_refuted",
    "C47_slice"
   ],
   "note": "compute_dic returns the DIC plus twice the deviance at the mode (C47_value_partial), so it equals the DIC only if the greatest log-likelihood of the trace is zero (C47_only_if); the statement is refuted by a concrete trace. Missing: nothing else holds, the full statement is false."
  },
  {
   "property": "C48",
   "status": "partial",
   "theorems": [
    "C48_always_fails",
    "C48_refuted"
   ],
   "note": "The full statement is false: matching_list is never filled, so match_clusters raises an exception on every collection of samples (C48_always_fails)."
  },
  {
   "property": "C49",
   "status": "proved",
   "theorems": [
    "C49_rank",
    "C49_defined"
   ],
   "note": "rank_clusters returns on all rectangular collections with at least one sample; all five statistics of all samples are reordered by one permutation and the mean posterior contributions are non-increasing. np.argsort is modelled as a stable sort (numpy leaves the order of equal keys unspecified)."
  },
  {
   "property": "C50",
   "status": "partial",
   "theorems": [
    "C50_distribution_partial",
    "C50_no_confounders_refuted"
   ],
   "note": "With at least one confounder (distinct names), non-negative weights and a positive one, the schedule is a distribution and every kind of operator gets its share of the total weight. Without confounders get_operators divides by zero (refuted)."
  },
  {
   "property": "C51",
   "status": "proved",
   "theorems": [
    "C51_exponential",
    "C51_sigmoid"
   ],
   "note": "Over the reals."
  },
  {
   "property": "C52",
   "status": "partial",
   "theorems": [
    "C52_missing_likelihood_mixture_partial",
    "C52_missing_likelihood_source_partial",
    "C52_missing_proposal_refuted"
   ],
   "note": "Likelihood part proved; the part on proposal probabilities is false (cluster likelihood of a missing observation is 0 instead of 1)."
  },
  {
   "property": "C53",
   "status": "partial",
   "theorems": [
    "C53_mixture",
    "C53_drawn",
    "C53_simulation_partial",
    "C53_clusters",
    "C53_confounders",
    "C53_missing_group",
    "C53_refuted"
   ],
   "note": "Simulated features follow the mixture whenever there is a confounder or the object is in a cluster; false (NaN, state 0 always drawn) for objects outside all clusters in simulations without confounders. Empty confounder cells share one group \"0\". C53_drawn: a state is drawn exactly for the draws in an interval as long as its mixture probability."
  },
  {
   "property": "C54",
   "status": "proved",
   "theorems": [
    "C54_max_sizes",
    "C54_warmup"
   ],
   "note": "Exact arithmetic in linspace."
  },
  {
   "property": "C55",
   "status": "partial",
   "theorems": [
    "C55_set_get_partial",
    "C55_keys",
    "C55_refuted"
   ],
   "note": "Item assignment on the network object round-trips for every key but names, which overwrites locations."
  },
  {
   "property": "C56",
   "status": "proved",
   "theorems": [
    "C56_dirichlet_reports",
    "C56_other_entries"
   ],
   "note": "For the pair update shared by the three Dirichlet operators."
  },
  {
   "property": "C57",
   "status": "partial",
   "theorems": [
    "C57_finds_clusters_refuted",
    "C57_finds_clusters_partial"
   ],
   "note": "False for several clusters (witness on a path of four sites); holds when one cluster is added."
  },
  {
   "property": "C58",
   "status": "partial",
   "theorems": [
    "C58_initial_sizes_refuted"
   ],
   "note": "False; no validation relates the settings."
  },
  {
   "property": "C59",
   "status": "partial",
   "theorems": [
    "C59_warmup_limits_refuted",
    "C59_warmup_limits_partial"
   ],
   "note": "False: the schedule is computed but never read; all chains use the limit of the model."
  },
  {
   "property": "C60",
   "status": "partial",
   "theorems": [
    "C60_defaults_kept_partial",
    "C60_simulation",
    "C60_defaults_kept_refuted"
   ],
   "note": "Holds for the simulation and for plots whose file contains the dictionary assigned to; refuted for a density map without own legend settings (default legend changes for later plots)."
  },
  {
   "property": "C61",
   "status": "proved",
   "theorems": [
    "C61_decisions",
    "C61_balance",
    "C61_one_confounder"
   ],
   "note": "Full statement over R for any function in place of the logarithm of the beta density. The weights prior is flat, as in the code (the operator omits it). The choice of the two components and the draws of beta and uniform are arguments. C61_one_confounder (added after two edits of the proposal density survived): with one confounder and the beta density the acceptance probability is exactly 1."
  },
  {
   "property": "C62",
   "status": "proved",
   "theorems": [
    "C62_results"
   ],
   "note": "Writer and reader on the level of text, with any number format that round-trips up to a rounding function. Names must not contain underscores, tabs or newlines, and confounders must not be called w, size, post, lh or prior (the failures for other names are the refuted parts of C32 and C33). Not modelled: quoting, detection of missing values and repeated column names by pandas."
  },
  {
   "property": "C63",
   "status": "proved",
   "theorems": [
    "C63_detailed_balance",
    "C63_state_space",
    "C63_stationary"
   ],
   "note": "Composition of C13, C14, C15: the three cluster operators report the true probabilities of each move and its reverse up to a common factor, or NaN in both directions; hence detailed balance and invariance of the posterior on the finite set of states. Weights and effects are fixed during the step; exceptions count as staying in the state."
  },
  {
   "property": "C64",
   "status": "proved",
   "theorems": [
    "C64_full_conditional",
    "C64_detailed_balance",
    "C64_state_space",
    "C64_stationary"
   ],
   "note": "Weights and effects are fixed and positive (C26's positive_env); the cluster prior is an arbitrary non-negative function of the clusters.  Floating-point rounding is not modelled."
  },
  {
   "property": "C65",
   "status": "partial",
   "theorems": [
    "C65_cheapest_connection",
    "C65_ties",
    "C65_sum",
    "C65_monotone_partial",
    "C65_monotone_refuted"
   ],
   "note": "Minimality of sum and maximum, the mean for positive costs, independence of ties and additivity over clusters (so independence of their order) are proved in full.  Monotonicity is proved for sum and maximum, and for the mean if costs between different objects are positive; it fails for the mean with zero costs because scipy drops edges of cost zero (C65_monotone_refuted).  scipy's algorithm is modelled as Kruskal with an arbitrary argsort; NaN costs are not modelled."
  },
  {
   "property": "C66",
   "status": "partial",
   "theorems": [
    "C66_evaluates_refuted",
    "C66_evaluates_partial"
   ],
   "note": "Refuted: the type diameter_based raises AttributeError (self.TYPES), cost_based raises ValueError for a cluster with one object (allowed by min=1), the skeleton setting has no influence.  C66_evaluates_partial says exactly when a value is returned."
  },
  {
   "property": "C67",
   "status": "partial",
   "theorems": [
    "C67_extracted_partial",
    "C67_announced_refuted"
   ],
   "note": "Refuted: the tool writes c0 + count and the reader adds 1 again, so without data and with c0 = 1 the loaded prior has concentration 2, and the bound of --scaleCounts is exceeded. C67_extracted_partial gives the exact values of file and loaded prior for all tables, with proportional shrinking. Command line, JSON syntax and rounding not modelled."
  },
  {
   "property": "C68",
   "status": "proved",
   "theorems": [
    "C68_families"
   ],
   "note": "Files are identified by family name; family names that are not valid file names are not modelled. The sum over families is for counts without --scaleCounts."
  },
  {
   "property": "C69",
   "status": "proved",
   "theorems": [
    "C69_by_name",
    "C69_converted"
   ],
   "note": "Cells of the CSV table are numbers or blank; JSON is the dictionary."
  },
  {
   "property": "C70",
   "status": "partial",
   "theorems": [
    "C70_file_partial",
    "C70_final_refuted",
    "C70_names_refuted",
    "C70_names"
   ],
   "note": "False in full: the file is written with each logged sample only, so the proposals after the last logged sample are missing (C70_final_refuted), and the class name is the same for every confounder's operator (C70_names_refuted; names are unique iff there is at most one confounder, C70_names). Proved: the file reads back to one entry per operator in order with the true tallies up to and including the step of the last logged sample and the rate within half a unit of the last digit. Not covered: single-step runs (C20), uniform draws equal to zero (C16), floating point errors of the rate."
  },
  {
   "property": "C71",
   "status": "proved",
   "theorems": [
    "C71_rows"
   ],
   "note": "For runs of more than one step with positive draws and operators that keep array shapes and one source per observation (C26). Likelihoods are rationals; the 32-bit storage of the file is not modelled."
  },
  {
   "property": "C72",
   "status": "partial",
   "theorems": [
    "C72_initial",
    "C72_values",
    "C72_source_law",
    "C72_handover_partial",
    "C72_too_many",
    "C72_sources_refuted"
   ],
   "note": "Initial samples are valid with equal weights and smoothed state frequencies; in complete settings (C74) the initial sources have their full conditional distribution given the initial clusters, weights and effects; clusters/effects/weights of a previous sample are kept (weights as rational numbers). Refuted: sources are drawn again, so the main run does not continue with the sources of the best warm-up sample. The initial size must lie in the configured size range (not checked by the code, C58)."
  },
  {
   "property": "C73",
   "status": "proved",
   "theorems": [
    "C73_logged_valid"
   ],
   "note": "All logged samples of warm-up, handover and main run; operators as modelled in M_operators, M_source and M_params with any draws in their supports. Exceptions end a run and log nothing further. The initial size must lie in the configured size range (C58)."
  },
  {
   "property": "C74",
   "status": "proved",
   "theorems": [
    "C74_progress",
    "C74_run",
    "C74_needs_two_states",
    "C74_needs_confounder",
    "C74_needs_group",
    "C74_needs_positive"
   ],
   "note": "Exceptions from empty choices, NaN probabilities and missing sources; the parameters of np.random.dirichlet and the evaluation of the model are not included. Positivity of Dirichlet and beta draws is a hypothesis (interior)."
  },
  {
   "property": "C75",
   "status": "proved",
   "theorems": [
    "C75_irreducible",
    "C75_full",
    "C75_one_size",
    "C75_confined",
    "C75_without_spare_refuted"
   ],
   "note": "Irreducibility for fixed parameters, and theorems showing that the conditions are needed (C75_without_spare_refuted is the witness that the spare object cannot be dropped)."
  },
  {
   "property": "C76",
   "status": "proved",
   "theorems": [
    "C76_convergence",
    "C76_limit"
   ],
   "note": "Geometric convergence to the normalised posterior, uniformly in the initial state, and uniqueness of the stationary distribution; parameters fixed."
  },
  {
   "property": "C77",
   "status": "proved",
   "theorems": [
    "C77_mean_square",
    "C77_logged"
   ],
   "note": "For fixed weights and effects with sampled sources, as in C76. Runs are described by the transition matrix of C64 (proposal distributions of the model and acceptance probabilities of C15)."
  },
  {
   "property": "C78",
   "status": "proved",
   "theorems": [
    "C78_marginal",
    "C78_irreducible",
    "C78_convergence",
    "C78_same_clusters",
    "C78_averages"
   ],
   "note": "For fixed weights and effects. With k > 0 clusters. Both samplers are described by the transition matrix of C64; the operators for weights and effects are left out."
  },
  {
   "property": "C79",
   "status": "partial",
   "theorems": [
    "C79_consensus",
    "C79_drawn",
    "C79_density",
    "C79_samples_partial",
    "C79_samples_refuted",
    "C79_one_cluster",
    "C79_half_refuted"
   ],
   "note": "Objects, lines and weights proved for all samples and triangulations. Refuted: the burn-in is dropped by the reader and again by the map (partial: which samples are used); at the default threshold 1/2 an object can be on the map in two clusters (proved: not above 1/2)."
  },
  {
   "property": "C80",
   "status": "partial",
   "theorems": [
    "C80_pies",
    "C80_grid",
    "C80_pies_refuted",
    "C80_samples_partial",
    "C80_samples_refuted"
   ],
   "note": "Proved for at least two columns and more objects than columns. Refuted: with at most n_columns objects the plot fails (C80_grid: whenever one row or column), and the burn-in is dropped twice."
  },
  {
   "property": "C81",
   "status": "proved",
   "theorems": [
    "C81_charts",
    "C81_pairs",
    "C81_shares",
    "C81_pair_weights"
   ],
   "note": "The convergence is in probability over runs of the finite chains of C77/C78 (fixed positive weights and effects, one spare object)."
  },
  {
   "property": "C82",
   "status": "partial",
   "theorems": [
    "C82_pairing_partial",
    "C82_results",
    "C82_runs",
    "C82_nested_refuted",
    "C82_missing_refuted",
    "C82_same_names_refuted"
   ],
   "note": "Proved when no model directory has subdirectories (with models) named from c to s, hence for all runs of the program below one results directory (fully, with all results kept). False in general: nested directories or a missing file mispair models with parameters of others; equal names replace each other in the results."
  },
  {
   "property": "C83",
   "status": "partial",
   "theorems": [
    "C83_cells",
    "C83_entries",
    "C83_labels",
    "C83_map",
    "C83_twice_refuted",
    "C83_density",
    "C83_density_refuted"
   ],
   "note": "Proved for consensus maps with a threshold above one half. False at the default threshold of one half (an object listed twice, label in only one colour) and for the colours on density maps (all entries in the colour of the first cluster, labels black)."
  },
  {
   "property": "C84",
   "status": "partial",
   "theorems": [
    "C84_legend_partial",
    "C84_refuted"
   ],
   "note": "Proved: the values are the sorted averages, and each belongs to its cluster exactly if the averages are already decreasing. Refuted in general: two clusters get each other's value."
  },
  {
   "property": "C85",
   "status": "partial",
   "theorems": [
    "C85_selected",
    "C85_refuted"
   ],
   "note": "Proved exactly what is drawn: every requested type whatever the file has, except the weights, which need a section 'weights_plot' (the settings are read from 'weight_plot'). The documented claim is refuted both ways."
  },
  {
   "property": "C86",
   "status": "partial",
   "theorems": [
    "C86_keep",
    "C86_keep_distinct",
    "C86_pies",
    "C86_pies_distinct_partial",
    "C86_pies_refuted"
   ],
   "note": "Fully proved for the plots of preferences; for pie charts if the label has not both a space and a dash, and refuted otherwise (a dash is replaced; two objects get the same label)."
  },
  {
   "property": "C87",
   "status": "partial",
   "theorems": [
    "C87_observations",
    "C87_posterior_partial",
    "C87_accept_partial",
    "C87_geo",
    "C87_refuted",
    "C87_likelihood_refuted"
   ],
   "note": "Observation likelihoods agree in every history; posteriors agree up to an explicit constant and acceptance decisions agree, provided the geo-prior returned by the cache is the current one (proved for uniform geo-priors and for uncached evaluation). Refuted in general: the stale geo-prior makes the sampler accept a proposal the reference rejects; with sources the likelihoods alone differ because the reference includes the source weights."
  },
  {
   "property": "C88",
   "status": "partial",
   "theorems": [
    "C88_contributions",
    "C88_objects",
    "C88_sum",
    "C88_single_partial",
    "C88_single_refuted",
    "C88_isolated"
   ],
   "note": "C88_contributions, C88_objects, C88_sum and C88_isolated are proved without restriction (histories as in C03). The last comparison with the recorded prior holds only if the cached geo-prior is up to date; C88_single_refuted gives a chain where the prior of the only cluster differs from the prior of the sample in the same row. The flags sample_source of the logger's own copy of the model are not modelled as state."
  },
  {
   "property": "C89",
   "status": "partial",
   "theorems": [
    "C89_canvas",
    "C89_read_back_partial",
    "C89_read_back_refuted",
    "C89_fails_refuted"
   ],
   "note": "C89_canvas is the full statement for the canvas. Reading back holds if no text contains a comma, bar, or line end, starts with a quote, is read as missing or has spaces at its ends (C89_read_back_partial); it is false for names with commas (C89_read_back_refuted, C89_fails_refuted)."
  },
  {
   "property": "C90",
   "status": "partial",
   "theorems": [
    "C90_round_trip",
    "C90_cut",
    "C90_runs",
    "C90_workflow_partial",
    "C90_workflow_refuted"
   ],
   "note": "C90_round_trip, C90_cut and C90_runs are full. Loading holds for tidy files (C90_workflow_partial): different column names that are not blank, no cell that becomes missing by stripping (false otherwise: C37_loads_refuted), no carriage return inside a cell (its quoting depends on the version of Python). False for a single feature with a blank name (C90_workflow_refuted). Empty or repeated column names, which pandas renames, are not modelled."
  },
  {
   "property": "C91",
   "status": "partial",
   "theorems": [
    "C91_states",
    "C91_fails",
    "C91_range",
    "C91_weights",
    "C91_mixture",
    "C91_read_back_partial",
    "C91_config",
    "C91_user_partial",
    "C91_user_refuted",
    "C91_few_refuted",
    "C91_read_back_refuted"
   ],
   "note": "C91_states, C91_fails, C91_range, C91_weights, C91_mixture and C91_config are full (exact numbers instead of floats). The fractions of the user are used if they are given for 2, 3 and 4 states (C91_user_partial); other fractions are mixed with the defaults (C91_user_refuted). Two features with the default fractions always raise an exception (C91_few_refuted). The files load with at most the simulated numbers of states (C91_read_back_partial, safe texts as in C89); equality is false (C91_read_back_refuted)."
  },
  {
   "property": "C92",
   "status": "partial",
   "theorems": [
    "C92_accepted",
    "C92_sampling",
    "C92_defaults_partial",
    "C92_defaults_refuted",
    "C92_runs",
    "C92_paths",
    "C92_update_partial",
    "C92_update_refuted",
    "C92_model_partial",
    "C92_model_refuted",
    "C92_sizes_refuted"
   ],
   "note": "Proved: accepted settings fit together (C92_accepted) and give the configured samples (C92_sampling, with C20); run settings (C92_runs); relative paths (C92_paths). Partial: defaults (C92_defaults_partial: if confounders, sample_source and, for runs without sampled sources, operators are given, and no file is named from_data; false otherwise, C92_defaults_refuted), updates with nothing (C92_update_partial; false for sample_source given as the text \"no\", C92_update_refuted), usability (C92_model_partial characterises the accepted settings the model can use; not all, C92_model_refuted; sizes and numbers of clusters are not checked, C92_sizes_refuted)."
  },
  {
   "property": "C93",
   "status": "partial",
   "theorems": [
    "C93_cover",
    "C93_weight_panel",
    "C93_corners",
    "C93_three_partial",
    "C93_three_refuted",
    "C93_scale_partial",
    "C93_scale_refuted",
    "C93_preferences",
    "C93_weights_partial",
    "C93_weights_refuted",
    "C93_labels_refuted",
    "C93_feature_partial",
    "C93_feature_refuted"
   ],
   "note": "Proved: the cover hides exactly the outside between the leftmost and rightmost corner (C93_cover), what a weight panel shows (C93_weight_panel), corners (C93_corners), files, grids and panels of preferences (C93_preferences). Partial: different shares have different places with three shares (C93_three_partial), false with four (C93_three_refuted); panels are regular polygons scaled by 1.2 for every labelled panel of the same size before (C93_scale_partial), so panels depend on history (C93_scale_refuted); weight plots with at least two confounders (C93_weights_partial), none otherwise (C93_weights_refuted), and the default labels are wrong for family before universal (C93_labels_refuted); the plot of a feature if clusters are no more than the largest number of groups and no confounder is called cluster (C93_feature_partial), false otherwise (C93_feature_refuted)."
  },
  {
   "property": "C94",
   "status": "partial",
   "theorems": [
    "C94_names",
    "C94_analysis_partial",
    "C94_starts",
    "C94_repeat_partial",
    "C94_repeat_refuted",
    "C94_overwrite_refuted",
    "C94_stale_refuted",
    "C94_log_refuted",
    "C94_custom_refuted"
   ],
   "note": "Partial: C94_analysis_partial is for settings from the file only (C94_custom_refuted), inputs outside the results and distinct numbers of clusters; C94_repeat_partial needs absolute paths and another name (C94_repeat_refuted). C94_overwrite_refuted, C94_stale_refuted and C94_log_refuted refute the rest of the statement."
  },
  {
   "property": "C95",
   "status": "proved",
   "theorems": [
    "C95_reversible",
    "C95_target"
   ],
   "note": "densities at rational points; integration over the continuous parameters is not formalised, and the random choices of components, groups, features and entries (which do not depend on the sample) are fixed in both directions. Densities of the beta and Dirichlet distributions are parameters; the density of the random walks is only required not to depend on the representation of rational numbers."
  },
  {
   "property": "C96",
   "status": "partial",
   "theorems": [
    "C96_points",
    "C96_drawn",
    "C96_samples",
    "C96_burn_in_refuted",
    "C96_zero_refuted",
    "C96_number_refuted",
    "C96_repeated_refuted"
   ],
   "note": "Proved for selections of valid numbers without repetition. Refuted: only the share set for this plot is removed (the share of the map is removed first), number 0 is refused (it shows the last model), numbers follow the numbers of clusters, labels after a repeated number. Fonts, sizes and the drawing itself are not modelled."
  },
  {
   "property": "C97",
   "status": "partial",
   "theorems": [
    "C97_files_partial",
    "C97_together",
    "C97_frequencies_refuted",
    "C97_slash_refuted",
    "C97_experiments_refuted"
   ],
   "note": "Proved for one configured frequency and the runs of one results directory. Refuted: several frequencies are plotted one after the other (exception before the first map), names of groups have no influence (a slash ends all plots), runs of the same name in two experiments both have plots. What a picture shows is stated by the functions of C79-C86, C93, C96; drawing is not modelled."
  },
  {
   "property": "C98",
   "status": "proved",
   "theorems": [
    "C98_operators",
    "C98_initial",
    "C98_run",
    "C98_warm_up",
    "C98_pure",
    "C98_whole"
   ],
   "note": "For a constant geo-prior (the default, uniform); C99 has the general case. In runs, exceptions inside an operator and random choices that do not exist end both runs (`Failed`). Densities of scipy are arbitrary functions."
  },
  {
   "property": "C99",
   "status": "partial",
   "theorems": [
    "C99_run",
    "C99_warm_up",
    "C99_unchecked",
    "C99_settles",
    "C99_late",
    "C99_assertion_refuted",
    "C99_stale_refuted"
   ],
   "note": "The statement is false. Proved instead: what runs with any geo-prior are (the geo-prior of the last fresh evaluation is inherited by copies), that it has no effect without the debug mode or after step 1000, and two refutations with concrete runs."
  }
 ]
}
