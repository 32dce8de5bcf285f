{"id": "C01", "title": "Copied samples are isolated", "statement": "After Sample.copy(), no sequence of edit / edit_group / set_items / set_value / add_object / remove_object / further copy() calls on one of the two samples changes any parameter value that can be read from the other one. Every sample reads back exactly what a deep copy would have read.", "quantifier": "All initial parameter arrays, all finite interleavings of copies and edits over any number of samples descending from each other.", "why_tests_cant": "Copies share numpy arrays until the first write; whether a write leaks depends on the whole history of copies and of the `shared` flags, which is unbounded. Tests only try a few fixed histories.", "anchors": ["sbayes/sampling/state.py:ArrayParameter", "sbayes/sampling/state.py:GroupedParameters", "sbayes/sampling/state.py:Sample.copy"]}
{"id": "C02", "title": "Change tracking of copied group parameters is isolated", "statement": "The information about which groups changed is private to each sample: editing one sample never makes another sample's group look changed or unchanged.", "quantifier": "All histories of copies and of edit_group / set_items / edit / set_value calls over any number of samples.", "why_tests_cant": "The change-tracking array is shared between copies and un-shared at a different moment than the data; only particular long interleavings expose a leak.", "anchors": ["sbayes/sampling/state.py:GroupedParameters", "sbayes/sampling/state.py:ArrayParameter.set_value"]}
{"id": "C03", "title": "Cached likelihood equals fresh likelihood", "statement": "Evaluating the likelihood with caching returns exactly the value of an evaluation from scratch, and likewise for the per-observation likelihoods, as long as the clusters of a sample never overlap and groups are changed through edit_group.", "quantifier": "All data sets, all numbers of clusters/confounders/groups/components, all histories of group edits, weight edits, source edits, copies, rejected proposals, cache clears and evaluations in any order.", "why_tests_cant": "Staleness depends on the version vector accumulated over the whole history; the code's own check only runs for some of the first 1000 steps.", "anchors": ["sbayes/model/likelihood.py:Likelihood.__call__", "sbayes/model/likelihood.py:Likelihood.update_component_likelihoods", "sbayes/model/likelihood.py:compute_component_likelihood", "sbayes/sampling/state.py:CalculationNode", "sbayes/sampling/state.py:ModelCache"]}
{"id": "C04", "title": "Every supported edit is seen by the cached likelihood", "statement": "Whatever public method is used to modify clusters, cluster effect or confounding effects (edit_group, set_group, set_items, edit, set_value), the next cached likelihood evaluation reflects the new value.", "quantifier": "All public mutators of grouped parameters and all states.", "why_tests_cant": "Needs all combinations of mutator and cache state; a stale value looks like a plausible number.", "anchors": ["sbayes/sampling/state.py:GroupedParameters", "sbayes/sampling/state.py:ArrayParameter.edit", "sbayes/sampling/state.py:ArrayParameter.set_value", "sbayes/sampling/state.py:CalculationNode.what_changed"]}
{"id": "C05", "title": "A failing edit does not go unnoticed", "statement": "If the body of an edit context raises, then either the parameter is unchanged or its version has changed, so that no cached value silently survives a modification.", "quantifier": "All exceptions, all partial modifications done before the exception, all cache states.", "why_tests_cant": "Crash points inside a with-block are unbounded in number; tests never abort inside an edit.", "anchors": ["sbayes/sampling/state.py:ArrayParameter.edit", "sbayes/sampling/state.py:GroupedParameters.edit_group"]}
{"id": "C06", "title": "Cached priors equal fresh priors", "statement": "The size prior, weights prior, source prior and confounding-effects prior returned with caching equal the ones computed from scratch in every reachable state.", "quantifier": "All histories of edits, copies, cache clears and evaluations.", "why_tests_cant": "Same as for the likelihood: depends on the accumulated versions of all inputs, including nested nodes (source prior -> normalized weights -> has_components -> clusters).", "anchors": ["sbayes/model/prior.py:Prior.__call__", "sbayes/model/prior.py:ClusterSizePrior", "sbayes/model/prior.py:SourcePrior", "sbayes/model/prior.py:ConfoundingEffectsPrior", "sbayes/sampling/state.py:ModelCache"]}
{"id": "C07", "title": "Geo-prior follows the clusters", "statement": "After any change of the clusters the next evaluation of the prior uses the geo-prior of the new clusters.", "quantifier": "All cost matrices, all histories of cluster edits and prior evaluations.", "why_tests_cant": "The built-in consistency check clears the cache before looking, so it can never see the stale value.", "anchors": ["sbayes/sampling/state.py:ModelCache.__init__", "sbayes/model/prior.py:GeoPrior.__call__", "sbayes/sampling/mcmc.py:MCMC.likelihood"]}
{"id": "C08", "title": "Normalized weights are a distribution over the available components", "statement": "For every object and feature the normalized mixture weights are non-negative, sum to one, vanish exactly on the components the object does not have, and keep the ratios of the original weights; an object without any component is the only case where this is undefined.", "quantifier": "All weight matrices with positive entries, all has_components masks.", "why_tests_cant": "Numeric property over all real inputs and masks; the 0/0 case needs a specific object.", "anchors": ["sbayes/model/likelihood.py:normalize_weights", "sbayes/model/likelihood.py:update_weights"]}
{"id": "C09", "title": "Sampling the source marginalises to the mixture likelihood", "statement": "Summing, over all possible source assignments, the product of the source prior and the source-conditional likelihood gives exactly the mixture likelihood used when sources are not sampled.", "quantifier": "All component likelihoods, weights, numbers of objects, features and components.", "why_tests_cant": "It is an identity about exponentially many assignments.", "anchors": ["sbayes/model/likelihood.py:Likelihood.get_observation_lhs", "sbayes/model/prior.py:SourcePrior.__call__"]}
{"id": "C10", "title": "Clusters stay disjoint and keep their number", "statement": "Starting from disjoint clusters, after any sequence of cluster operators (grow, shrink, Gibbs-ish variants), accepted or rejected, every object is in at most one cluster and the number of clusters and objects is unchanged.", "quantifier": "All networks, all posterior weights, all random choices, all operator sequences and accept/reject outcomes.", "why_tests_cant": "Unbounded random histories.", "anchors": ["sbayes/sampling/operators.py:AlterCluster", "sbayes/sampling/operators.py:AlterClusterGibbsish", "sbayes/sampling/operators.py:AlterClusterGibbsish2"]}
{"id": "C11", "title": "Clusters stay within the configured size bounds", "statement": "If all clusters start with a size in [min, max], they have such a size after every sequence of operator steps.", "quantifier": "All min/max settings, all random choices and operator sequences.", "why_tests_cant": "Unbounded random histories; boundary sizes are hit rarely.", "anchors": ["sbayes/sampling/operators.py:AlterCluster.grow_cluster", "sbayes/sampling/operators.py:AlterCluster.shrink_cluster", "sbayes/sampling/operators.py:AlterClusterGibbsish", "sbayes/sampling/operators.py:AlterClusterGibbsish2"]}
{"id": "C12", "title": "Size bounds are restored/respected from any start", "statement": "A cluster that is larger than the configured maximum is never grown further and one that is smaller than the minimum is never shrunk further, for each cluster operator.", "quantifier": "All cluster states including initial states outside the bounds (initial size is configured independently of min and max).", "why_tests_cant": "Requires out-of-bounds initial sizes together with particular operators.", "anchors": ["sbayes/sampling/operators.py:AlterClusterGibbsish.grow_cluster", "sbayes/sampling/operators.py:AlterClusterGibbsish.shrink_cluster", "sbayes/config/config.py"]}
{"id": "C13", "title": "Grow/shrink report their true proposal probabilities", "statement": "For the random-walk cluster operator, the returned forward log-probability is the log of the probability with which the operator produces the proposed state from the current one, and the returned backward log-probability is the log of the probability with which the same operator, applied to the proposed state, produces the current state.", "quantifier": "All networks, cluster states with sizes within bounds, all proposals with non-zero probability, all p_grow_connected in [0,1].", "why_tests_cant": "Statement about probabilities of all branches; a wrong Hastings factor biases results without failing any test.", "anchors": ["sbayes/sampling/operators.py:AlterCluster", "sbayes/sampling/operators.py:_AlterCluster._propose", "sbayes/util.py:get_neighbours"]}
{"id": "C14", "title": "Gibbs-ish cluster proposals are reversible as reported", "statement": "For both Gibbs-ish cluster operators the reported forward and backward probabilities are the probabilities of the proposed move and of its reverse; in particular the membership weights used for the reverse move are the same before and after the move.", "quantifier": "All data, effects, weights, clusterings, and random choices.", "why_tests_cant": "Requires comparing quantities computed in two different states, for all states.", "anchors": ["sbayes/sampling/operators.py:AlterClusterGibbsish", "sbayes/sampling/operators.py:AlterClusterGibbsish2", "sbayes/sampling/operators.py:AlterClusterGibbsish.compute_cluster_posterior"]}
{"id": "C15", "title": "The accept/reject step satisfies detailed balance", "statement": "With correctly reported proposal probabilities, the accept/reject rule makes the posterior (likelihood tempered by the temperature times prior) a stationary distribution: pi(x) K(x,y) = pi(y) K(y,x); hence pi is invariant under a step.", "quantifier": "All finite state spaces, all positive targets, all proposal kernels.", "why_tests_cant": "A statement about probabilities, not about single runs.", "anchors": ["sbayes/sampling/mcmc.py:MCMC.step", "sbayes/sampling/mcmc.py:MCMC.metropolis_hastings_ratio"]}
{"id": "C16", "title": "Special proposal markers are honoured", "statement": "A proposal flagged as impossible (backward log-probability -inf) is never accepted; otherwise a proposal flagged as Gibbs (forward log-probability -inf) is always accepted; in all other cases acceptance happens exactly when log(u) is below the Metropolis-Hastings log-ratio, and a state of zero posterior probability is never entered from a state with non-zero probability.", "quantifier": "All log-likelihoods/priors in the extended reals, all uniform draws.", "why_tests_cant": "Involves infinities, NaN and every random draw.", "anchors": ["sbayes/sampling/mcmc.py:MCMC.step", "sbayes/sampling/operators.py:Operator.Q_GIBBS"]}
{"id": "C17", "title": "Recorded likelihood and prior belong to the recorded state", "statement": "At every step of a chain the likelihood and prior remembered (and logged) for the chain are those of the chain's current sample.", "quantifier": "All operator sequences, accept/reject outcomes and numbers of steps.", "why_tests_cant": "Depends on the interplay of stored values with accepted/rejected and in-place proposals over the entire run.", "anchors": ["sbayes/sampling/mcmc.py:MCMC.step", "sbayes/sampling/mcmc.py:MCMC.generate_samples", "sbayes/sampling/loggers.py:ParametersCSVLogger"]}
{"id": "C18", "title": "Operator statistics are consistent", "statement": "After n steps the numbers of accepted and rejected proposals of all operators add up to n times the number of chains, and the total number of accepts equals the sum of the operators' accepts.", "quantifier": "All operator schedules, accept/reject outcomes, numbers of chains and steps.", "why_tests_cant": "Unbounded histories.", "anchors": ["sbayes/sampling/mcmc.py:MCMCStats", "sbayes/sampling/mcmc.py:OperatorStats", "sbayes/sampling/operators.py:Operator.register_accept"]}
{"id": "C19", "title": "Reported acceptance rate is a rate", "statement": "The acceptance rate reported for a run lies between 0 and 1 (or is undefined before the first sample).", "quantifier": "All runs.", "why_tests_cant": "Requires runs with more steps than logged samples and high acceptance.", "anchors": ["sbayes/sampling/mcmc.py:MCMCStats.acceptance_rate"]}
{"id": "C20", "title": "The configured number of samples is logged, evenly spaced", "statement": "For every accepted configuration (steps a multiple of samples) exactly `samples` samples of the cold chain are logged, at steps 0, s, 2s, ... with s = steps/samples, and the sample kept as `last_sample` is the state after the final step.", "quantifier": "All steps/samples pairs that pass configuration validation.", "why_tests_cant": "All pairs of integers; boundary values (steps=1) are easily missed.", "anchors": ["sbayes/sampling/mcmc.py:MCMC.generate_samples", "sbayes/config/config.py:MCMCConfig.validate_sample_spacing"]}
{"id": "C21", "title": "Warm-up hands over its best chain", "statement": "After warm-up the returned sample is the final state of a chain whose posterior is maximal among all warm-up chains (the first one on ties).", "quantifier": "All numbers of chains, all posterior values.", "why_tests_cant": "All orderings of real numbers with ties.", "anchors": ["sbayes/sampling/mcmc.py:MCMC.generate_samples", "sbayes/mcmc_setup.py:MCMCSetup.warm_up"]}
{"id": "C22", "title": "Initial clusters are disjoint, connected and of the requested size", "statement": "Whenever the initialisation succeeds, the new clusters are pairwise disjoint, connected in the neighbour network, have exactly the configured initial size, and the clusters of a previous sample are taken over unchanged.", "quantifier": "All networks, all previous samples, all random choices, any number of failed attempts.", "why_tests_cant": "Unbounded random retries.", "anchors": ["sbayes/sampling/sbayes_sampling.py:ClusterMCMC.generate_initial_clusters", "sbayes/sampling/sbayes_sampling.py:ClusterMCMC.grow_cluster_of_size_k"]}
{"id": "C23", "title": "Initialisation terminates and failed attempts are undone", "statement": "Initialisation ends after finitely many attempts with clusters or an error, and sites visited in a failed attempt are available again for the next attempt.", "quantifier": "All networks and all random choices.", "why_tests_cant": "The leak only shows after particular failures; termination is a statement about all runs.", "anchors": ["sbayes/sampling/sbayes_sampling.py:ClusterMCMC.generate_initial_clusters"]}
{"id": "C24", "title": "Initial effects are probability vectors on the applicable states", "statement": "The initial cluster and confounding effects are positive on applicable states, zero elsewhere, and sum to one per group and feature.", "quantifier": "All data sets, groups (also empty ones), applicable-state masks with at least one state.", "why_tests_cant": "All count tables.", "anchors": ["sbayes/sampling/sbayes_sampling.py:ClusterMCMC.generate_initial_cluster_effect", "sbayes/sampling/sbayes_sampling.py:ClusterMCMC.generate_initial_confounding_effect"]}
{"id": "C25", "title": "Weights and effects stay on the simplex", "statement": "Every weight/effect operator maps probability vectors to probability vectors: rows stay non-negative, keep summing to one, and inapplicable states stay at exactly zero.", "quantifier": "All current vectors, all random proposals, all subsets of features accepted.", "why_tests_cant": "All real inputs and random draws, along unbounded histories.", "anchors": ["sbayes/sampling/operators.py:AlterWeights", "sbayes/sampling/operators.py:AlterClusterEffect", "sbayes/sampling/operators.py:AlterConfoundingEffects", "sbayes/sampling/operators.py:GibbsSampleWeights", "sbayes/sampling/operators.py:GibbsSampleClusterEffect"]}
{"id": "C26", "title": "Every observation has exactly one admissible source", "statement": "In every sample with sampled sources each observation is attributed to exactly one mixture component, and that component is available for the object (the cluster component only for objects in a cluster).", "quantifier": "All initial states, all operator sequences and random draws.", "why_tests_cant": "Invariant linking two parameters through unbounded histories.", "anchors": ["sbayes/sampling/operators.py:GibbsSampleSource", "sbayes/sampling/operators.py:_AlterCluster.gibbs_sample_source", "sbayes/preprocessing.py:sample_categorical"]}
{"id": "C27", "title": "Gibbs effect updates sample from the exact full conditional", "statement": "The Dirichlet parameters used to resample a cluster or confounding effect are those for which prior density times likelihood of the attributed observations is proportional, as a function of the effect, to the sampling density; so always accepting is correct.", "quantifier": "All sources, observations, prior concentrations, and all probability vectors.", "why_tests_cant": "Identity between densities for all real arguments.", "anchors": ["sbayes/sampling/operators.py:GibbsSampleClusterEffect", "sbayes/sampling/operators.py:GibbsSampleConfoundingEffects", "sbayes/model/prior.py:compute_group_effect_prior"]}
{"id": "C28", "title": "Categorical sampling has the requested distribution", "statement": "For probabilities summing to one, category i is returned exactly for draws in a half-open interval of length p_i, so categories of probability zero are never returned; the binary encoding is the unit vector of that category.", "quantifier": "All probability vectors and all draws in [0,1).", "why_tests_cant": "Measure statement over a continuum.", "anchors": ["sbayes/preprocessing.py:sample_categorical"]}
{"id": "C29", "title": "Saved clusters can be read back", "statement": "Reading the clusters file written by the logger returns, for every logged sample in order, exactly the logged cluster membership arrays.", "quantifier": "All numbers of samples, clusters >= 1 and objects >= 1, all memberships.", "why_tests_cant": "Round-trip for all inputs; corner cases (no cluster, no object) differ.", "anchors": ["sbayes/util.py:format_cluster_columns", "sbayes/util.py:parse_cluster_columns", "sbayes/sampling/loggers.py:ClustersLogger", "sbayes/results.py:Results.read_clusters"]}
{"id": "C30", "title": "Cluster label matching is optimal and only relabels", "statement": "The label permutation used for logging is a permutation of the cluster indices and no other permutation has a larger agreement with the previously logged samples; on ties the first permutation in lexicographic order (the identity for the first sample) is used.", "quantifier": "All numbers of clusters and samples, all memberships.", "why_tests_cant": "Optimality over all permutations and histories.", "anchors": ["sbayes/util.py:get_best_permutation", "sbayes/util.py:get_permutations"]}
{"id": "C31", "title": "The clusters file and the parameters file use the same labels", "statement": "For every logged sample, cluster number i in the clusters file is the same cluster as number i in the parameters file (sizes, effects).", "quantifier": "All sequences of logged samples.", "why_tests_cant": "The two loggers keep separate running sums; agreement is an invariant over the full history.", "anchors": ["sbayes/sampling/loggers.py:ParametersCSVLogger", "sbayes/sampling/loggers.py:ClustersLogger"]}
{"id": "C32", "title": "Rows of the parameter log match its header", "statement": "Every row written to the parameter log has as many fields as the header, in the order of the header columns, and each field is the value of the parameter named by its column.", "quantifier": "All numbers of clusters, confounders, groups, features, states; all samples.", "why_tests_cant": "All shapes and names.", "anchors": ["sbayes/sampling/loggers.py:ParametersCSVLogger"]}
{"id": "C33", "title": "Results reader recovers the logged names", "statement": "From the column names of a parameter log the reader recovers exactly the confounders, groups, clusters, features and states of the analysis.", "quantifier": "All names.", "why_tests_cant": "All strings; separators inside names break it.", "anchors": ["sbayes/results.py:Results.get_groups_by_confounder", "sbayes/results.py:Results.get_cluster_names", "sbayes/results.py:extract_features_and_states", "sbayes/sampling/loggers.py:ParametersCSVLogger.write_header"]}
{"id": "C34", "title": "Burn-in removal keeps the two result tables aligned", "statement": "Dropping burn-in removes the same number of leading samples from clusters and parameters, keeps the order of the rest, and removes at least 0 and at most all samples for fractions between 0 and 1.", "quantifier": "All numbers of samples, all fractions in [0,1].", "why_tests_cant": "All lengths and fractions.", "anchors": ["sbayes/results.py:Results.drop_burnin"]}
{"id": "C35", "title": "Cluster-size prior is the inverse number of clusterings", "statement": "exp(log_multinom(n, sizes)) is the number of ways to choose labelled disjoint clusters of the given sizes from n objects, so the uniform-size prior gives all clusterings with equal sizes a total mass of one; it does not depend on the labels of the clusters.", "quantifier": "All n and all size vectors with sum at most n.", "why_tests_cant": "Counting identity over exponentially many clusterings.", "anchors": ["sbayes/util.py:log_multinom", "sbayes/model/prior.py:ClusterSizePrior.__call__"]}
{"id": "C36", "title": "Feature encoding is faithful", "statement": "Each observed value is encoded by exactly one position, distinct state names of a feature get distinct positions, the position is marked applicable and decodes to the original name, and missing values are encoded by all-false; unknown state names are rejected.", "quantifier": "All feature tables and feature-state tables.", "why_tests_cant": "All tables; gaps in the state list are an untested corner.", "anchors": ["sbayes/util.py:encode_states", "sbayes/load_data.py:Features.from_dataframes"]}
{"id": "C37", "title": "Extracted feature states fit the data", "statement": "The feature-states table produced by the extraction tool lists for each feature exactly the states occurring in the data, sorted and without gaps, so that loading the same data with it never fails.", "quantifier": "All data files with the same columns.", "why_tests_cant": "All tables.", "anchors": ["sbayes/tools/extract_feature_states.py", "sbayes/util.py:encode_states"]}
{"id": "C38", "title": "Confounder groups partition the labelled objects", "statement": "Each object is in exactly the group named in its confounder column, in no group if the entry is missing, groups are never empty, and a mismatch between configured and actual group names is rejected.", "quantifier": "All data tables, all lists of configured groups.", "why_tests_cant": "All tables and name lists (duplicates).", "anchors": ["sbayes/load_data.py:Confounder.from_dataframe"]}
{"id": "C39", "title": "Geographic cost matrix is symmetric and refers to the right objects", "statement": "The cost matrix handed to the model is symmetric and its entry (i,j) is the cost given in the file for objects i and j (averaged over both directions if these differ).", "quantifier": "All cost files and object orders.", "why_tests_cant": "All permutations of names and all numeric matrices.", "anchors": ["sbayes/preprocessing.py:read_geo_cost_matrix"]}
{"id": "C40", "title": "Configuration defaults never override user settings", "statement": "Filling in defaults keeps every user-specified setting, adds every missing default, and is idempotent; a recursive update puts every new setting in place and keeps all others.", "quantifier": "All nested configuration dictionaries.", "why_tests_cant": "All trees.", "anchors": ["sbayes/util.py:set_defaults", "sbayes/util.py:update_recursive", "sbayes/util.py:iter_items_recursive"]}
{"id": "C41", "title": "Custom settings reach the runs", "statement": "Settings passed to the command line entry point in addition to the config file are in force in every run that it starts.", "quantifier": "All custom settings, configs, numbers of runs and clusters.", "why_tests_cant": "All nested dictionaries and all runs.", "anchors": ["sbayes/cli.py:main", "sbayes/cli.py:runner"]}
{"id": "C42", "title": "Every run is executed once and parallel runs do not overwrite each other", "statement": "For R runs and a list of distinct cluster numbers, every combination is executed exactly once and writes to its own result files; hence the final content of every results file is independent of how parallel runs are scheduled.", "quantifier": "All run counts, lists of cluster numbers, and all interleavings of the file writes of parallel runs.", "why_tests_cant": "All schedules.", "anchors": ["sbayes/cli.py:main", "sbayes/mcmc_setup.py:MCMCSetup.get_sample_loggers"]}
{"id": "C43", "title": "Log files consist of one header and one line per sample", "statement": "Whatever the sequence of samples, a log file contains the header exactly once, at the top, followed by one record per logged sample in order; closing never loses records.", "quantifier": "All sequences of write and close operations.", "why_tests_cant": "All histories of the logger state machine.", "anchors": ["sbayes/sampling/loggers.py:ResultsLogger"]}
{"id": "C44", "title": "Scaling of prior counts", "statement": "scale_counts never increases counts, keeps proportions, leaves counts with a small enough sum unchanged, and yields a sum of at most the limit.", "quantifier": "All non-negative count arrays and positive limits.", "why_tests_cant": "All real inputs.", "anchors": ["sbayes/util.py:scale_counts"]}
{"id": "C45", "title": "Rounding to nice axis limits", "statement": "round_int(n, 'up') returns a number not smaller than n and round_int(n, 'down') one not larger than n.", "quantifier": "All integers, offsets and both modes.", "why_tests_cant": "All integers; a missing elif makes one branch raise.", "anchors": ["sbayes/util.py:round_int", "sbayes/util.py:round_single_int"]}
{"id": "C46", "title": "Linear rescaling maps the old range onto the new one", "statement": "linear_rescale maps old_min to new_min and old_max to new_max.", "quantifier": "All ranges and values.", "why_tests_cant": "All real inputs.", "anchors": ["sbayes/util.py:linear_rescale"]}
{"id": "C47", "title": "DIC is the deviance information criterion", "statement": "compute_dic returns 2*mean(D) - D(mode) for the deviance D = -2*log-likelihood of the samples after burn-in (Celeux et al. 2006).", "quantifier": "All log-likelihood traces and burn-in fractions.", "why_tests_cant": "A sign error yields plausible numbers; must hold for all traces.", "anchors": ["sbayes/postprocessing.py:compute_dic"]}
{"id": "C48", "title": "Cluster matching in post-processing relabels all samples", "statement": "match_clusters returns all samples with clusters, effects and single-cluster statistics reordered by the same permutation per sample.", "quantifier": "All sample collections.", "why_tests_cant": "All collections.", "anchors": ["sbayes/postprocessing.py:match_clusters"]}
{"id": "C49", "title": "Cluster ranking only reorders, by decreasing contribution", "statement": "rank_clusters applies one and the same permutation of the cluster indices to all statistics of all samples, and the mean posterior contributions of the reordered clusters are non-increasing.", "quantifier": "All sample collections.", "why_tests_cant": "All collections of real numbers.", "anchors": ["sbayes/postprocessing.py:rank_clusters"]}
{"id": "C50", "title": "Operator weights form a distribution", "statement": "The operator schedule selects operators with probabilities that are non-negative and sum to one, and an operator is available whenever its configured weight is positive, for every model configuration with at least one positive weight.", "quantifier": "All operator configurations and all numbers of confounders (including none).", "why_tests_cant": "All configurations.", "anchors": ["sbayes/sampling/sbayes_sampling.py:ClusterMCMC.get_operators", "sbayes/sampling/sbayes_sampling.py:ClusterMCMC.normalize_operator_weights"]}
{"id": "C51", "title": "Geographic prior functions decrease with distance", "statement": "The exponential and the sigmoid geo-prior functions assign log-probability zero to cost zero and are strictly decreasing in the cost.", "quantifier": "All positive scales, all inflection points, all costs.", "why_tests_cant": "All real inputs.", "anchors": ["sbayes/model/prior.py:GeoPrior.parse_prob_function"]}
{"id": "C52", "title": "Missing observations carry no information", "statement": "A missing observation does not influence the likelihood or the probabilities with which objects are proposed for a cluster.", "quantifier": "All data with missing entries, all parameter values.", "why_tests_cant": "Requires comparing two data sets for all parameters.", "anchors": ["sbayes/model/likelihood.py:Likelihood.update_component_likelihoods", "sbayes/sampling/operators.py:AlterClusterGibbsish.compute_cluster_posterior"]}
{"id": "C53", "title": "Simulated features follow the mixture", "statement": "The categorical distribution from which a simulated feature of an object is drawn is a probability distribution: the weighted mixture of the effects of the groups the object belongs to.", "quantifier": "All simulated memberships, weights and effects.", "why_tests_cant": "All real inputs and memberships.", "anchors": ["sbayes/simulation.py:Simulation.simulate_features", "sbayes/preprocessing.py:assign_to_cluster", "sbayes/preprocessing.py:assign_to_confounders"]}
{"id": "C54", "title": "Warm-up size schedule", "statement": "The schedule of maximal sizes has one entry per warm-up chain, is non-decreasing and stays within [start, end].", "quantifier": "All start <= end, numbers of chains and steps.", "why_tests_cant": "All integers.", "anchors": ["sbayes/util.py:get_max_size_list", "sbayes/sampling/sbayes_sampling.py:ClusterMCMCWarmup"]}
{"id": "C55", "title": "Network attributes can be set by name", "statement": "Setting an attribute of a network by key and reading it back returns the value set and leaves all other attributes unchanged.", "quantifier": "All keys and values.", "why_tests_cant": "All key/value pairs.", "anchors": ["sbayes/preprocessing.py:ComputeNetwork.__setitem__", "sbayes/preprocessing.py:ComputeNetwork.__getitem__"]}
{"id": "C56", "title": "Dirichlet proposals report consistent densities", "statement": "For the Dirichlet random-walk operators on weights and effects the reported backward density is the forward density of the reverse move, and the pair update leaves the other entries untouched.", "quantifier": "All current values and proposals.", "why_tests_cant": "Density identity for all real vectors.", "anchors": ["sbayes/sampling/operators.py:DirichletOperator", "sbayes/sampling/operators.py:AlterWeights"]}
{"id": "C57", "title": "Initialisation succeeds when initial clusters exist", "statement": "If disjoint connected clusters of the initial size exist in the network, generating the initial clusters does not fail.", "quantifier": "All networks, sizes, numbers of clusters and random choices.", "why_tests_cant": "Depends on the interplay of earlier random clusters with up to 1000 retries.", "anchors": ["sbayes/sampling/sbayes_sampling.py:ClusterMCMC.generate_initial_clusters"]}
{"id": "C58", "title": "Initial clusters respect the size bounds", "statement": "For every accepted configuration the initial clusters have between min and max objects.", "quantifier": "All configurations accepted by the validators.", "why_tests_cant": "Relates two configuration sections over all values.", "anchors": ["sbayes/config/config.py:MCMCConfig", "sbayes/config/config.py:ClusterSizePriorConfig", "sbayes/sampling/sbayes_sampling.py:ClusterMCMC.generate_initial_clusters"]}
{"id": "C59", "title": "Warm-up chains use their own size limits", "statement": "In warm-up chain c the cluster operators apply the maximal size given for chain c by the schedule of maximal sizes.", "quantifier": "All initial sizes, maximal sizes, numbers of chains, and all chains.", "why_tests_cant": "The values flow through object construction; a test of the schedule function alone passes.", "anchors": ["sbayes/sampling/sbayes_sampling.py:ClusterMCMCWarmup.__init__", "sbayes/sampling/mcmc.py:MCMC.__init__", "sbayes/sampling/operators.py:AlterCluster.grow_cluster"]}
{"id": "C60", "title": "Loading a configuration leaves the shared defaults unchanged", "statement": "Loading one configuration (filling in defaults and the assignments made afterwards) never changes the module-wide defaults, so that configurations loaded later in the same process get the documented default values.", "quantifier": "All user configurations, all default configurations, all assignments made while loading.", "why_tests_cant": "Needs aliasing between nested dictionaries across several loads; all trees.", "anchors": ["sbayes/util.py:set_defaults", "sbayes/plot.py:Plot.load_config", "sbayes/simulation.py:Simulation.load_config_simulation"]}
{"id": "C61", "title": "The Gibbs update of the weights leaves the posterior of the weights invariant", "statement": "For a fixed source assignment, GibbsSampleWeights moves exactly those features whose uniform draw lies below the acceptance probability, and the density of any move times the posterior of the old weights equals the density of the reverse move times the posterior of the new weights (detailed balance for a flat prior of weights).", "quantifier": "All has-components matrices, admissible sources, positive weight matrices, pairs of distinct components, draws in (0,1), subsets of accepted features, and any proposal density of the beta distribution.", "why_tests_cant": "An identity between densities over a continuous space, for all numbers of features and components.", "anchors": ["sbayes/sampling/operators.py:GibbsSampleWeights._propose", "sbayes/sampling/operators.py:GibbsSampleWeights.resample_weight_for_two_components", "sbayes/sampling/operators.py:GibbsSampleWeights.source_lh_by_feature"]}
{"id": "C62", "title": "Results read from the files of a run are the logged parameters", "statement": "Reading the clusters file and the parameters file written by a run with any burn-in fraction yields, for exactly the samples after the burn-in, the logged clusters, weights, areal and confounding effects and evaluations, each under its own feature, state, confounder and group, and with the same cluster labels in both files (numbers up to the rounding by formatting and parsing).", "quantifier": "All names without underscores or reserved words, all numbers of clusters, objects, features, states, confounders and groups, all lists of samples, all burn-in fractions in [0, 1], all number formats.", "why_tests_cant": "Needs writer and reader together, for all names and shapes.", "anchors": ["sbayes/results.py:Results.__init__", "sbayes/results.py:Results.read_stats", "sbayes/results.py:Results.parse_weights", "sbayes/results.py:Results.parse_probs", "sbayes/sampling/loggers.py:ParametersLogger", "sbayes/sampling/loggers.py:ClustersLogger"]}
{"id": "C63", "title": "Metropolis-Hastings with the cluster operators leaves the posterior invariant", "statement": "For fixed weights, effects and data, a step that proposes with AlterCluster, AlterClusterGibbsish or AlterClusterGibbsish2 (source resampling included) and accepts with the sampler's rule satisfies detailed balance with respect to likelihood^t x prior on the states with disjoint clusters of admissible sizes; these states are closed under proposals, and the posterior is invariant under a step with an operator drawn with any fixed probabilities.  This includes proposals that report NaN.", "quantifier": "All data, networks, numbers of clusters, objects, features and components, all non-negative weights and effects, all likelihoods and priors (also zero), all temperatures, all operator probabilities, any two states.", "why_tests_cant": "An equality of transition probabilities over all pairs of states; tests can only compare empirical frequencies on a few small examples.", "anchors": ["sbayes/sampling/operators.py:AlterCluster", "sbayes/sampling/operators.py:AlterClusterGibbsish", "sbayes/sampling/operators.py:AlterClusterGibbsish2", "sbayes/sampling/mcmc.py:MCMC.step", "sbayes/sampling/mcmc.py:MCMC.metropolis_hastings_ratio"]}
{"id": "C64", "title": "The source operator samples the full conditional, and the sampler of clusters and sources leaves the posterior invariant", "statement": "GibbsSampleSource draws a source array with probability proportional to (source prior x likelihood given the source), normalized over all source arrays (to the source prior when sampling from the prior), leaves the clusters alone and is always accepted.  Hence a step with any mixture of GibbsSampleSource and the cluster operators satisfies detailed balance and leaves invariant the density (source prior x likelihood x cluster prior) on the states with disjoint clusters, admissible sizes and one-hot sources, a finite set that no step leaves.", "quantifier": "All data (missing values included), networks, numbers of clusters, objects, features and components, all positive normalized weights and effects, all cluster priors, both sampling modes, all operator probabilities, any two states.", "why_tests_cant": "The normalizing constant is a sum over exponentially many source arrays, and invariance is an equality over all states; sampling frequencies cannot establish either.", "anchors": ["sbayes/sampling/operators.py:GibbsSampleSource._propose", "sbayes/sampling/operators.py:GibbsSampleSource.calculate_source_posterior", "sbayes/sampling/mcmc.py:MCMC.step", "sbayes/model/likelihood.py:Likelihood.__call__", "sbayes/model/prior.py:SourcePrior"]}
{"id": "C65", "title": "The cost-based geo-prior measures the cheapest connection of a cluster", "statement": "The edges used by compute_cost_based_geo_prior form a spanning tree of the objects of the cluster; their sum is the least total cost of any set of edges connecting the cluster, their maximum the least possible largest edge, their mean the least total divided by the number of edges; the value does not depend on the order of equal costs; the prior is the sum of the terms of the clusters in any order; and lower costs between objects never lower the prior.", "quantifier": "All cost matrices, clusters, aggregation policies, decreasing probability functions and tie-breaking orders.", "why_tests_cant": "Minimality is a statement over all (exponentially many) connecting edge sets of all cost matrices.", "anchors": ["sbayes/model/prior.py:compute_cost_based_geo_prior", "sbayes/model/prior.py:GeoPrior.__call__"]}
{"id": "C66", "title": "Every accepted geo-prior configuration can be evaluated as configured", "statement": "For every geo-prior type, aggregation and skeleton accepted by the configuration and all clusters of admissible size the geo-prior has a value, and the value follows the configured skeleton.", "quantifier": "All configurations, cost matrices and clusters with at least the configured minimal number of objects.", "why_tests_cant": "All combinations of settings, matrices and clusters.", "anchors": ["sbayes/model/prior.py:GeoPrior.__call__", "sbayes/model/prior.py:compute_cost_based_geo_prior", "sbayes/config/config.py:GeoPriorConfig"]}
{"id": "C67", "title": "Extracted prior counts give the prior they announce", "statement": "The universal prior written by extract_universal_prior_counts and loaded by DirichletPrior has, for every feature and state, the concentration c0 (1.0 being the uniform prior) plus the number of objects with that state; with --scaleCounts the counts of a feature keep their proportions and the total concentration does not exceed the given bound.", "quantifier": "All data tables, feature state tables, hyper-prior concentrations and bounds.", "why_tests_cant": "The writer and the reader are separate programs; the claim is about their composition for all tables, names and bounds.", "anchors": ["sbayes/tools/extract_universal_prior_counts.py:main", "sbayes/model/prior.py:DirichletPrior.parse_concentration_dict", "sbayes/util.py:scale_counts"]}
{"id": "C68", "title": "Inheritance counts partition the universal counts", "statement": "extract_inheritance_prior_counts writes one table for every family in the data and no other, each holding c0 plus the counts of the members of that family, and the counts over all families add up to the counts over all objects that have a family.", "quantifier": "All data tables, family columns (with missing families) and hyper-prior concentrations.", "why_tests_cant": "A summation identity over all partitions of all tables.", "anchors": ["sbayes/tools/extract_inheritance_prior_counts.py:main", "sbayes/load_data.py:Confounder.from_dataframe"]}
{"id": "C69", "title": "Prior concentrations are matched by name", "statement": "parse_concentration_dict succeeds exactly when every state of every feature has an entry; each concentration is then one plus the entry of that feature and state, whatever the order of the keys and whichever further keys exist; and for a table converted by convert_prior_csv_to_json the entry is the cell of the last row of that feature, blank cells counting as missing.", "quantifier": "All dictionaries, tables, feature and state names.", "why_tests_cant": "All orders of keys, additional and missing keys, and all tables.", "anchors": ["sbayes/model/prior.py:DirichletPrior.parse_concentration_dict", "sbayes/tools/convert_prior_csv_to_json.py:main"]}
{"id": "C70", "title": "The operator statistics file can be read back and shows what happened", "statement": "After a run, whatever the statistics file contained before, it can be read back as one entry per operator in the order of the operators, giving the numbers of accepted and rejected proposals of the run, their total, and the acceptance rate up to rounding; and the name in an entry identifies the operator.", "quantifier": "All runs: numbers of steps and samples, chains, operators, random draws, previous file contents.", "why_tests_cant": "All sequences of proposals and acceptances, all previous file contents (the file is overwritten in place), all positions of the last logged sample in the run.", "anchors": ["sbayes/sampling/loggers.py:OperatorStatsLogger", "sbayes/sampling/loggers.py:OperatorStatsLogger.get_log_message_row", "sbayes/sampling/mcmc.py:MCMC.generate_samples"]}
{"id": "C71", "title": "The likelihood file agrees with the logged samples", "statement": "The likelihood file has one row per logged sample. The entry at position o*n_features+f of a row is the likelihood of feature f in object o under the parameters of the logged sample (not of a rejected candidate or an earlier step), and the logged log-likelihood of the sample is the sum of the logarithms of the row.", "quantifier": "All data, all runs and operators keeping one source per observation, all logged samples.", "why_tests_cant": "The logger reads an attribute (observation_lhs) that is copied with candidates and overwritten by the likelihood; every sequence of accepted and rejected candidates must be considered.", "anchors": ["sbayes/sampling/loggers.py:LikelihoodLogger", "sbayes/model/likelihood.py:Likelihood.__call__", "sbayes/sampling/mcmc.py:MCMC.step"]}
{"id": "C72", "title": "Initial samples are valid and the sample handed over from the warm-up is kept", "statement": "Whatever the random choices, an initial sample generated from scratch is valid: disjoint clusters with sizes in the configured range, weights and effects that are probability vectors on the applicable states, one effect per cluster and group, one source per observation. All weights of a feature are equal, and the effects of groups and of new clusters are the frequencies of the states among their members with one additional observation of every applicable state; the sources have their full conditional distribution given the clusters, weights and effects. If a previous sample is handed over, the new sample consists of its clusters, effects, weights and sources, further clusters being added; a previous sample with more clusters than the model is refused.", "quantifier": "All data, networks, settings with an initial size in the range, all previous samples, all random choices.", "why_tests_cant": "All random choices, all previous samples and numbers of clusters; the parts of a sample are generated by different functions that must fit together.", "anchors": ["sbayes/sampling/sbayes_sampling.py:ClusterMCMC.generate_initial_sample", "sbayes/sampling/sbayes_sampling.py:ClusterMCMC.generate_initial_weights", "sbayes/sampling/sbayes_sampling.py:ClusterMCMC.generate_initial_cluster_effect", "sbayes/sampling/sbayes_sampling.py:ClusterMCMC.generate_initial_confounding_effect", "sbayes/mcmc_setup.py:MCMCSetup.sample"]}
{"id": "C73", "title": "Every logged sample of an analysis is valid", "statement": "In an analysis with warm-up chains, handover of the best sample and a main run, every logged sample is valid: disjoint clusters with sizes between the minimum and the maximum, weights and effects that are probability vectors, effects supported by the applicable states, one effect per cluster and per group of every confounder, and exactly one source per observation if sources are sampled.", "quantifier": "All data and settings with an initial size in the range, all numbers of chains, steps and samples, all operators of the sampler with all their random draws, all likelihood and prior values, all acceptance decisions.", "why_tests_cant": "The invariant must hold along every sequence of operators, draws and decisions, through the warm-up and the handover.", "anchors": ["sbayes/sampling/sbayes_sampling.py:ClusterMCMC", "sbayes/sampling/mcmc.py:MCMC.generate_samples", "sbayes/mcmc_setup.py:MCMCSetup.warm_up", "sbayes/mcmc_setup.py:MCMCSetup.sample", "sbayes/sampling/operators.py:Operator"]}
{"id": "C74", "title": "No operator raises an exception in a complete setting", "statement": "If there is at least one feature and one confounder, confounders have disjoint non-empty groups, every object is in a group of some confounder and (when sources are not sampled) every feature has two applicable states, then in every valid sample with positive weights and effects no operator of the sampler can raise an exception because of an empty choice, undefined probabilities or a missing source; such samples are reached by every run whose Dirichlet and beta draws are positive, and such a run takes all its steps. Each of the conditions (two states, a confounder, a group for every object, positive effects) is needed.", "quantifier": "All data and settings with these conditions, all valid positive samples, all operators with all their random choices, all runs from scratch or from a positive sample, all acceptance decisions.", "why_tests_cant": "A run that happens to succeed says nothing about the operators, objects and features that were not chosen in it; the claim is about all reachable samples and all choices.", "anchors": ["sbayes/sampling/operators.py:AlterClusterGibbsish", "sbayes/sampling/operators.py:AlterCluster", "sbayes/sampling/operators.py:AlterClusterEffect", "sbayes/sampling/operators.py:AlterConfoundingEffects", "sbayes/sampling/operators.py:GibbsSampleWeights", "sbayes/sampling/sbayes_sampling.py:ClusterMCMC.get_operators"]}
{"id": "C75", "title": "The sampler of clusters and sources can reach every clustering", "statement": "With fixed positive weights and effects, a schedule that contains GibbsSampleSource and a cluster operator able to exchange members (AlterClusterGibbsish2; AlterClusterGibbsish if min_size < max_size; AlterCluster if also p_grow_connected < 1), and at least one object more than n_clusters * min_size, the sampler goes from every state to every state of positive posterior density with positive probability. The conditions are needed: without a spare object the clusters never change under any operators; with one admissible size they never change without AlterClusterGibbsish2; AlterCluster with p_grow_connected = 1 never leaves a closed part of the network.", "quantifier": "All data, settings, schedules with any probabilities, cluster priors without zeros, all pairs of states, any number of steps.", "why_tests_cant": "A run that mixes well on one data set says nothing about unreachable states elsewhere; unreachability is a statement about all runs of any length.", "anchors": ["sbayes/sampling/operators.py:AlterCluster", "sbayes/sampling/operators.py:AlterClusterGibbsish", "sbayes/sampling/operators.py:AlterClusterGibbsish2", "sbayes/sampling/operators.py:GibbsSampleSource", "sbayes/sampling/mcmc.py:MCMC.step"]}
{"id": "C76", "title": "The distribution of clusters and sources converges to the posterior", "statement": "Under the conditions of C75 the probability of being in a state after n steps differs from its normalised posterior probability by at most (1-d)^(n/m) for constants m and 0 < d <= 1 that depend neither on the initial state nor on n, and the normalised posterior is the only stationary distribution.", "quantifier": "All data, settings and schedules as in C75, all initial states, all numbers of steps.", "why_tests_cant": "Convergence in distribution is a limit over infinitely many steps; finite runs only give noisy estimates of it.", "anchors": ["sbayes/sampling/mcmc.py:MCMC.step", "sbayes/sampling/operators.py:GibbsSampleSource", "sbayes/sampling/operators.py:ClusterOperator", "sbayes/model/likelihood.py:Likelihood", "sbayes/model/prior.py:SourcePrior"]}
{"id": "C77", "title": "Averages over logged samples are consistent estimates of posterior expectations", "statement": "With the parameters of C76 held fixed, for every quantity f between 0 and 1 of clusters and sources (for instance the membership of an object in a cluster) the mean square error of the average of f over the logged samples, as an estimate of the posterior expectation of f, is at most a constant divided by the number of logged samples; the constant depends neither on f nor on the initial state, the spacing of the samples or the number of steps. Hence the probability that the average over the samples after burn-in is off by eps or more tends to zero.", "quantifier": "All settings of C76, all quantities, initial states, numbers of steps, sets of logged steps, burn-in sizes, eps.", "why_tests_cant": "A statement about the probability distribution of whole runs of unbounded length, for all quantities and settings at once; a test sees single runs.", "anchors": ["sbayes/sampling/mcmc.py:MCMC.generate_samples", "sbayes/sampling/mcmc.py:MCMC.step", "sbayes/results.py:Results.drop_burnin", "sbayes/sampling/operators.py:GibbsSampleSource"]}
{"id": "C78", "title": "Samplers with and without sources sample the clusters from the same distribution", "statement": "The posterior of clusters and sources summed over the sources is the posterior of the clusters under the mixture likelihood that is used when sources are not sampled. For fixed positive weights and effects, a spare object and a capable cluster operator the chain of clusters without sources reaches every clustering from every clustering and converges to that posterior geometrically fast; hence the limiting probability of every clustering and the limits of averages over logged samples are the same for sample_source True and False.", "quantifier": "All data and settings with positive weights and effects, all cluster priors without zeros, all schedules of both samplers with a capable cluster operator, all initial states, clusterings, quantities of the clusters, spacings and burn-ins.", "why_tests_cant": "Compares limits of the distributions of two different Markov chains over all settings; simulation gives noisy estimates for single settings.", "anchors": ["sbayes/model/likelihood.py:Likelihood.get_observation_lhs", "sbayes/model/prior.py:Prior.__call__", "sbayes/sampling/operators.py:AlterCluster", "sbayes/sampling/sbayes_sampling.py:ClusterMCMC.get_operators", "sbayes/sampling/mcmc.py:MCMC.step"]}
{"id": "C79", "title": "Maps show the posterior frequencies of objects and of pairs", "statement": "On a consensus map exactly the objects whose share of the samples kept is at least the threshold are drawn, joined by the Gabriel graph of their locations without repeated lines, and every line weighs the share of samples with both ends in the cluster; a density map draws every pair of objects once with this weight. The samples used should be those after the configured burn-in, and no object should be drawn in two clusters.", "quantifier": "All samples of all clusters, locations, thresholds, burn-ins between 0 and 1 and triangulations.", "why_tests_cant": "Quantifies over all samples, thresholds and geometries; the doubled burn-in and double membership at the threshold one half leave plausible pictures.", "anchors": ["sbayes/plot.py:Plot.clusters_to_graph", "sbayes/plot.py:Plot.visualize_clusters", "sbayes/plot.py:Plot.iterate_over_models", "sbayes/util.py:gabriel_graph_from_delaunay"]}
{"id": "C80", "title": "Pie charts partition the samples of every object", "statement": "The pie plot has one chart per object in a cell of its own; its slices are the numbers of samples after the burn-in with the object in each cluster and in none, and sum to the number of samples kept. The plot should exist for every number of objects and use the samples after the configured burn-in.", "quantifier": "All samples with disjoint clusters, numbers of objects and columns, burn-ins between 0 and 1.", "why_tests_cant": "Needs all sizes of the grid and all samples; whether the slices sum to the number of samples depends on the disjointness of clusters in every sample.", "anchors": ["sbayes/plot.py:Plot.plot_pies", "sbayes/plot.py:Plot.iterate_over_models", "sbayes/results.py:Results.drop_burnin"]}
{"id": "C81", "title": "The plots of long runs show posterior probabilities, whatever the labels", "statement": "The grey slice of an object's pie chart counts the kept samples in which the object is in no cluster, and the line weights of two objects on the density maps summed over the clusters are the share of kept samples with both in one cluster, although the cluster logger relabels clusters from sample to sample. For long runs of the sampler with or without sources both are within any tolerance of the posterior probabilities of these events, with probability as close to one as desired.", "quantifier": "All runs and samples with disjoint clusters (all relabellings by the logger, earlier file contents), all positive settings of C78, objects and pairs, initial states, spacings, burn-ins below one, tolerances and probabilities.", "why_tests_cant": "Concerns the limit of long runs and the composition of sampler, logger, reader and plots; no finite run can establish it.", "anchors": ["sbayes/sampling/loggers.py:ClustersLogger", "sbayes/results.py:Results.read_clusters", "sbayes/plot.py:Plot.plot_pies", "sbayes/plot.py:Plot.clusters_to_graph", "sbayes/sampling/mcmc.py:MCMC.generate_samples"]}
{"id": "C82", "title": "Plots read each model from its own files", "statement": "For the cluster files and parameter files of any set of models, listed in any order, iterate_over_models plots every model exactly once, under its own name, from its own cluster file and its own parameter file; in particular for all runs that the program writes below one results directory, whose results are all kept.", "quantifier": "All lists of models, directories, file names and orders of listing; all sets of runs", "why_tests_cant": "The two lists of files are sorted independently and zipped: whether positions correspond depends on the lexicographic order of all paths at once, which a test can only sample.", "anchors": ["sbayes/plot.py:227-241", "sbayes/mcmc_setup.py:102-109"]}
{"id": "C83", "title": "The table beside a map lists every labelled object once", "statement": "The correspondence table has the fewest rows that hold all entries; read by columns its cells are exactly the entries in order of the objects, padded with empty cells; every object of a cluster is listed exactly once with the number and colour that its label has on the map.", "quantifier": "All numbers of columns, all lists of names, all cluster labels and samples of clusters, all thresholds above one half", "why_tests_cant": "Cells are filled by appending to rows in turn (index modulo the number of rows) and padding; correctness concerns all table sizes and all overlaps of clusters.", "anchors": ["sbayes/plot.py:434-458", "sbayes/plot.py:529", "sbayes/plot.py:794-866", "sbayes/plot.py:938-944"]}
{"id": "C84", "title": "The legend shows each cluster's own likelihood", "statement": "In the legend of a map, the value next to the line of each cluster is the average likelihood of that cluster.", "quantifier": "All numbers of clusters and all logged likelihoods", "why_tests_cant": "Labels are sorted while the lines are not; a test with one order of likelihoods cannot tell.", "anchors": ["sbayes/plot.py:467-541", "sbayes/plot.py:706-722"]}
{"id": "C85", "title": "Plots are drawn if specified and requested", "statement": "A type of plot is drawn exactly if it is specified in the user's configuration and in the list of requested types.", "quantifier": "All configurations, all defaults with the keys of the default file, all requests", "why_tests_cant": "The check runs after defaults are merged in; the claim is about all configuration files.", "anchors": ["sbayes/plot.py:102-111", "sbayes/plot.py:1787-1845", "sbayes/config/default_config_plot.json"]}
{"id": "C86", "title": "Broken labels stay readable and distinct", "statement": "Labels of more than ten characters are broken once, at a space or dash nearest to the middle, without losing anything: different labels remain different.", "quantifier": "All labels", "why_tests_cant": "Concerns all strings with any number of spaces and dashes at any position.", "anchors": ["sbayes/plot.py:1240-1245", "sbayes/plot.py:1753-1761"]}
{"id": "C87", "title": "The cached model agrees with the reference implementation", "statement": "The model used by the sampler (likelihood.py, prior.py with caches) and the plain reference implementation (model_slow.py) assign every sample the same log-posterior up to one constant, so that they accept the same proposals, whatever edits, copies and evaluations happened before.", "quantifier": "for all data, confounders, parameter values, histories of constructions, copies, edits, cached and uncached evaluations, proposal densities and random draws", "why_tests_cant": "A test compares the two implementations on a few samples; the claim is about every history of cache states, about infinite and undefined values, and about a constant shared by all samples.", "anchors": ["sbayes/model/model_slow.py:73-77", "sbayes/model/model_slow.py:114-239", "sbayes/model/model_slow.py:271-288", "sbayes/model/model_slow.py:785-819", "sbayes/model/likelihood.py:46-198", "sbayes/model/prior.py:64-88"]}
{"id": "C88", "title": "The logged contributions of single clusters are the likelihood and prior of the model with that cluster alone, and logging them disturbs no sample", "statement": "For every history of samples, the values lh_a{i}, prior_a{i}, post_a{i} written by the parameter logger are the log-likelihood, log-prior and log-posterior of the model with only cluster i (in the order of the log) and without sources, computed from the current parameters independently of all caches; for one observation this is the likelihood of the whole mixture if the object is in cluster i or in no cluster and that of the model without clusters otherwise, so the logged likelihoods add up to the mixture likelihood plus K-1 times the likelihood without clusters; with one cluster and no sources they equal the likelihood and prior logged in the same row; and the raw assignments to the arrays of the copied sample change no value, version or group version of any other sample, now or later.", "quantifier": "all models, histories of constructions/copies/edits/evaluations, permutations of the labels, uninitialised cache contents, and interleavings of later operations", "why_tests_cant": "The logger bypasses the interface of the parameters (assigning _value without touching version, shared flag and group versions whose lengths no longer match); whether this is harmless depends on all sharing patterns and cache states a history can produce.", "anchors": ["sbayes/sampling/loggers.py:198-211", "sbayes/sampling/state.py:49-79", "sbayes/sampling/state.py:184-197", "sbayes/model/likelihood.py:46-67", "sbayes/model/prior.py:64-88"]}
{"id": "C89", "title": "A simulated data set can be analysed as simulated", "statement": "Loading the canvas finds every column under its name, row by row. The two files written by a simulation, read as the data of an analysis, give the simulated data: the same identifiers, names and locations in the same order, for every object and feature the simulated state (encoded at an applicable position that carries its name), as applicable states exactly the states that were drawn, no missing values, and the same groups of the confounders.", "quantifier": "all canvases with rows of equal length, all numbers of features, all simulated features, all orders in which sets are listed, all sets of cells that are read as missing, all names of confounders, groups and sites that are safe to write (partial); refuted for names with commas", "why_tests_cant": "Needs all tables and all texts, character by character through the quoting of the writer and the tokenizer of the reader; the tests never read simulated files back.", "anchors": ["sbayes/simulation.py:154-203", "sbayes/preprocessing.py:21-86", "sbayes/load_data.py:61-82", "sbayes/load_data.py:285-320", "sbayes/util.py:257-319"]}
{"id": "C90", "title": "Extracted feature states fit the data files they were extracted from, as text", "statement": "A table of texts written with the quotes of the reader is read as it was written, whatever commas, quotes and newlines it contains, and a file cut off inside quotes is not read at all. The tool that extracts feature states succeeds exactly if all files have the metadata columns and the same further columns, at least one. The text it writes, used with any of the files it was extracted from, loads: the features are the columns other than the metadata, the states of a feature are different and exactly those observed in some file, all of them applicable, every observation is encoded at its state and missing values at none.", "quantifier": "all tables of texts without carriage returns, both line ends; all texts of data files, all sets of cells that are read as missing, all groups of confounders; loading for files with different visible column names whose cells do not become missing by stripping (partial), refuted for a single feature with a blank name", "why_tests_cant": "Needs all texts, character by character through quoting and tokenizing, and all combinations of files; the tests neither run the tool nor quote anything.", "anchors": ["sbayes/tools/extract_feature_states.py:42-62", "sbayes/tools/extract_feature_states.py:65-134", "sbayes/load_data.py:285-320", "sbayes/util.py:312-319"]}
{"id": "C91", "title": "A whole simulation: configured numbers of states, ranges, mixture, files", "statement": "A simulation runs with the configuration of the user completed by defaults: required entries come from the user. There is one number of states per feature; all are configured, and each occurs as often as configured up to rounding; there is none exactly if every configured fraction is less than one feature. Every simulated feature has one state per site, within the number of states of the feature, whatever is drawn; with fair draws the state follows the mixture of the effects of the cluster and groups of the site. The files that are written load as the data of an analysis with at most the simulated number of states.", "quantifier": "all configurations, canvases and draws (picks, shuffles, weights, probabilities, uniform numbers); distribution for sites with some effect; the fractions of the user are used if given for two, three and four states (partial), refuted otherwise; equal numbers of states after reading refuted", "why_tests_cant": "Needs all outcomes of all random draws and all configurations together; the tests of the simulation only run it once with a fixed configuration.", "anchors": ["sbayes/simulation.py:81-151", "sbayes/preprocessing.py:308-379", "sbayes/simulation.py:190-260", "sbayes/config/default_config_simulation.json", "sbayes/util.py:1240-1263"]}
{"id": "C92", "title": "Settings: what is accepted fits together, defaults, runs and updates change nothing else", "statement": "A configuration that is accepted fits together: the number of steps is a positive multiple of the number of samples (so that C20 applies), counts are positive, frequencies are not negative, a cost-based prior has a positive rate, every group of every confounder has a prior, and files exist. Settings that are left out have the default values of the source code. The configuration of a single run of an accepted configuration is accepted and differs from it in the number of clusters and the number of runs only. Relative paths are relative to the configuration file. Updating an accepted configuration with nothing keeps all settings that apply. Every accepted configuration can be used by the model.", "quantifier": "for all dictionaries read from a configuration file, all file systems, all base directories, all conversions of values that keep values of the right type, all numbers of clusters", "why_tests_cant": "A test checks some configuration files; that acceptance implies consistency, and that defaults, run settings and updates commute with validation, quantifies over all nested dictionaries and all file systems.", "anchors": ["sbayes/config/config.py:28-412", "sbayes/util.py:1161-1183", "sbayes/model/prior.py:33-62", "sbayes/model/prior.py:143-149", "sbayes/model/prior.py:200-236", "sbayes/cli.py:44-53"]}
{"id": "C93", "title": "Plots of weights and preferences show the samples of the component they name, inside the polygon", "statement": "The plots of weights and preferences show what their titles, labels and places say. A simplex plot shows every sample at the mixture of the corners by its shares, inside the polygon; the white cover hides exactly what is outside the polygon; the star is the mean; a share of one is at its corner, and corners differ. Preference plots have one file for each selected cluster and group, with one panel for each feature, on a grid that is filled row by row, with the samples of that component and feature only. Weight plots show the weights of each selected feature. The plot of one feature has its weights, a row for each confounder and a row of clusters. Every panel has the same scale whatever was drawn before, different shares have different places, and all of these plots are drawn for all analyses.", "quantifier": "for all results read from files with clean names, all numbers of samples, features, states, confounders, groups and clusters, all selections, all numbers of columns, all sequences of panels drawn before", "why_tests_cant": "A picture is not compared by a test; that the cover hides the outside only needs geometry for every polygon, and that panels do not depend on what was drawn before quantifies over all histories of a cache that is shared and changed in place.", "anchors": ["sbayes/plot.py:956-1420", "sbayes/config/default_config_plot.json:127-134"]}
{"id": "C94", "title": "A whole analysis leaves its settings, its log and the results of every run on the disk, and changes nothing else", "statement": "An analysis that ends without an exception leaves a copy of its settings, a log that continues an earlier one, and for every run and every number of clusters the files with what this run computed from the original inputs with the settings; no other file is changed and only the directories on the way to the results are created. It starts whenever the settings are accepted and nothing is in the way. The name of an analysis is fixed before the first run; names from the clock differ for different times. The copy of the settings gives the same results again. Settings given besides those of the file apply to all runs, no results of an earlier analysis are replaced or left among the new ones, and no log is written if the settings exclude it.", "quantifier": "for all file systems, configuration files, working directories, names, clocks, numbers of runs and clusters, and all runs as functions of random numbers, settings and input files", "why_tests_cant": "A test runs one analysis in one fresh directory. The claims quantify over every state of the disk before, every name and directory, and every sequence of runs, where the settings are read again for each run from a disk that the earlier runs have changed.", "anchors": ["sbayes/experiment_setup.py:23-71", "sbayes/cli.py:15-88", "sbayes/mcmc_setup.py:102-120", "sbayes/util.py:219-229", "sbayes/config/config.py:384-408"]}
{"id": "C95", "title": "All operators of one chain are reversible with respect to the same joint posterior density", "statement": "Let the joint density of a sample (clusters, sources if they are sampled, weights, cluster effects and confounding effects) be the probability of data and sources given everything else (or of the data, if sources are not sampled) times the prior of the clusters times the Dirichlet priors of the confounding effects. It equals the exponential of the log-likelihood plus log-prior with which proposals are accepted. From every sample without zero probabilities, every move of every operator (cluster and source operators, random walks on weights, cluster effects and confounding effects, Gibbs draws of weights and effects; any choice of components, groups, features and entries, any draw in the interior) leads to a sample without zero probabilities, the same operator with the same choices leads back to the first sample, and joint density times density of the move is the same in both directions.", "quantifier": "all data and settings that are complete (C74) with at most one state per observation, all non-negative cluster priors, all Dirichlet concentrations, sources sampled or not, posterior or prior sampling, all samples without zero probabilities, all moves and draws", "why_tests_cant": "detailed balance is an identity of densities over all pairs of samples of a mixed discrete and continuous space; simulation only compares moments of one data set, and errors common to all operators cannot be seen from a single operator", "anchors": ["sbayes/sampling/operators.py", "sbayes/sampling/mcmc.py:163-201", "sbayes/sampling/mcmc.py:321-386", "sbayes/model/likelihood.py:33-128", "sbayes/model/prior.py:64-85"]}
{"id": "C96", "title": "The plot of the DIC shows every selected model once, at its own place, with its own value and name", "statement": "Every model that is selected by its number (all models if no numbers are given) has one point, at a place of its own in the order of the selection, with the value computed from the model's own samples without the share set for this plot, and the label at this place is the name of the model or the label given for it. All points lie inside the limits of the plot and the ticks go from the least to the greatest value. The plot is drawn exactly if there are models and each has samples left; numbers that no model has are refused, and model number k is the k-th model.", "quantifier": "for all lists of models with any samples, all lists of numbers, shares of burn-in, labels and file names", "why_tests_cant": "A test compares one picture with one file. The claims quantify over all selections and sample lists, where places are assigned by the names, values by a lookup in a dictionary and samples by two successive roundings.", "anchors": ["sbayes/plot.py:1422-1489", "sbayes/postprocessing.py:9-25", "sbayes/results.py:39-91", "sbayes/plot.py:1690-1767"]}
{"id": "C97", "title": "Plotting all runs leaves every requested plot of every run in its own file, drawn from that run's samples, and changes no other file", "statement": "For the runs of a results directory, listed in any order: every file in the directory of the plots is either as before, or the file of one plot of one run and shows the samples of this run's own two files, or the plot of the DIC of all runs; this holds also if the plots end with an exception. If they end without, all requested plots of all runs are there (maps, weights, the preferences of every selected component, pie charts) in files with different names. The runs can be plotted together exactly if each can be plotted alone. Several frequencies give one map each, names of groups and runs of other experiments have no influence on the plots.", "quantifier": "for all lists of runs and orders of their files, contents of the files, settings of the plots, names of confounders, groups and features, and earlier contents of the directory of the plots", "why_tests_cant": "A test plots one experiment with one configuration. The claims quantify over all sets of runs, file contents and settings, and over all points where an exception can end the loop; the corners in memory are changed by each panel and reach all later ones.", "anchors": ["sbayes/plot.py:1800-1866", "sbayes/plot.py:227-241", "sbayes/plot.py:866-950", "sbayes/plot.py:1254-1420", "sbayes/plot.py:1690-1783", "sbayes/results.py:39-91"]}
{"id": "C98", "title": "Sampling with versioned parameters, caches and copies gives the same runs as sampling on plain values with everything recomputed", "statement": "For a setting with a geo-prior that is the same for all clusters: every operator called on a sample object with any history of copies, edits, reads and evaluations has, in the same order and with the same probabilities, the results it has on the plain contents when likelihoods, normalised weights and the presence of components are computed from scratch; the same holds for the generation of initial samples. For the same random choices, a run on objects (warm-up or sampling, with or without the assertions of the debug mode) goes through the same contents, recorded values, statistics and log as the pure sampling loop with the likelihood and prior from scratch, and ends in the same way; an assertion of the debug mode fails only if a likelihood or prior is NaN.", "quantifier": "for all data, settings, numbers of chains, steps and clusters, previous samples, random choices of the initial samples and of every operator in every step, and both values of CHECK_CACHING", "why_tests_cant": "A test runs a few chains with a few seeds and cannot compare with a sampler without caches. The claim is a simulation between two programs over all histories of copies (which share parameter objects and caches) and all random choices.", "anchors": ["sbayes/sampling/mcmc.py:163-200", "sbayes/sampling/mcmc.py:222-309", "sbayes/sampling/mcmc.py:321-364", "sbayes/sampling/operators.py:252-313", "sbayes/sampling/operators.py:552-1102", "sbayes/sampling/state.py:157-509", "sbayes/sampling/sbayes_sampling.py:303-349"]}
{"id": "C99", "title": "In a run, the prior of every evaluated sample contains the geo-prior of its own clusters, and the assertions of the debug mode hold", "statement": "In every run with a geo-prior that depends on the clusters, the prior that is recorded and used for the acceptance is the one of the sample's own clusters, so that logged samples have the prior they are recorded with; the consistency assertions of the debug mode do not fail when all values are finite.", "quantifier": "for all data, settings with any geo-prior, initial samples, numbers of chains and steps, and random choices", "why_tests_cant": "A short run in debug mode clears the cache at its checked steps, which hides the stale value; that it is never refreshed later, and that it then cancels in every decision, is a statement about all continuations of all runs.", "anchors": ["sbayes/sampling/mcmc.py:106", "sbayes/sampling/mcmc.py:163-200", "sbayes/sampling/mcmc.py:321-364", "sbayes/model/prior.py:511-528", "sbayes/model/likelihood.py:46-66", "sbayes/sampling/state.py:294-380"]}
{"id": "C100", "title": "Every step of the program, with its caches and copies, balances the configured posterior", "statement": "Take a chain of a run: its sample is an object with versioned parameters and caches, and it remembers a likelihood and a prior. Every move of every operator (cluster moves, sources, weights, effects) is made from this chain with a probability or density that is computed from the cached values; this density is the one of the mathematical sampler of C95 on the contents of the sample. Therefore posterior(s) times the density of the move equals posterior(s') times the density of the reverse move, for the posterior that is configured (data, sources, sizes, geography, Dirichlet priors of the effects). All chains of a run and of a warm-up are of this kind, and a move with positive density is really made by a step of the program.", "quantifier": "for all data, settings, histories of sample objects, moves of all operators, and all chains reachable by any number of steps from any initial samples", "why_tests_cant": "Balance is an equation between densities of two steps from two different samples; a test can estimate it only for tiny examples and up to sampling error, and cannot cover the histories of caches and copies on which the computed acceptance probabilities depend.", "anchors": ["sbayes/sampling/mcmc.py:163-200", "sbayes/sampling/mcmc.py:321-364", "sbayes/sampling/operators.py:252-1102", "sbayes/sampling/state.py:383-509", "sbayes/model/prior.py:60-120", "sbayes/model/likelihood.py:30-110"]}
{"id": "C101", "title": "With fixed weights and effects, random runs of the program converge to the configured posterior", "statement": "Set the frequencies of the operators on weights and effects to 0 (allowed by the configuration). Run the program, with its versioned sample objects, caches, copies, remembered likelihoods and the operator probabilities computed from the configuration, with random operators, random outcomes of the operators and random uniform draws. Then no run raises an exception, and the probability that the sample after n steps has given clusters and sources converges, geometrically fast, to their posterior probability under the configured model, from every sample of a run. Averages over the logged samples after any burn-in are close to posterior expectations with high probability.", "quantifier": "for all data, settings with and without source sampling, sizes priors, fixed weights and effects, histories of sample objects, numbers of steps, logging intervals and burn-ins, and all states", "why_tests_cant": "A limit over infinitely many steps and all random runs; simulation only gives noisy frequencies for a few settings and cannot tell a wrong stationary distribution from slow mixing.", "anchors": ["sbayes/sampling/mcmc.py:222-364", "sbayes/sampling/sbayes_sampling.py:365-466", "sbayes/sampling/operators.py:252-1102", "sbayes/sampling/state.py:383-509", "sbayes/model/prior.py:60-120", "sbayes/model/likelihood.py:30-110"]}
{"id": "C102", "title": "In double precision, sources are drawn among the available components and with their posterior probabilities up to rounding", "statement": "Take the weights of a feature, the components available to an object and the likelihoods of its value as double precision numbers. Mask and normalize the weights, multiply, normalize, accumulate and draw as the program does, with every operation rounded and any order of summation in np.sum. Then every draw returns an available component with positive weight and likelihood, and over the 2^53 possible values of the uniform draw each component is returned with its exact posterior probability up to a multiple of the rounding unit.", "quantifier": "for all doubles in [0,1] as weights and likelihoods (some available component with both at least 2^-500, no underflow for the distribution), all sets of available components, up to 2^40 components, all summation orders, all 2^53 uniform draws", "why_tests_cant": "The claim is about all doubles and all 2^53 draws; the failing draw has probability 2^-53, so no test with random numbers ever meets it.", "anchors": ["sbayes/preprocessing.py:213-241", "sbayes/util.py:984-1002", "sbayes/model/likelihood.py:180-198", "sbayes/sampling/operators.py:284-324", "sbayes/sampling/operators.py:639-683"]}
{"id": "C103", "title": "In double precision, operators are chosen with their configured frequencies and never with frequency zero", "statement": "Take the configured operator frequencies as double precision numbers. Share them among the operators, normalize them and draw an operator with np.random.choice as the program does, with every operation rounded, including numpy's compensated sum and tolerance check. Then no exception is raised, an operator with frequency zero is never chosen, and over the 2^53 uniform draws every operator is chosen with its exact share of the frequencies up to m/2^47 for m operators.", "quantifier": "for all frequencies that are zero or between 2^-400 and 2^400 with a positive sum, with and without source sampling, all numbers of confounders from 1 to 2^19, all 2^53 uniform draws", "why_tests_cant": "The claim is about all frequencies and all 2^53 draws; a draw past the end of the cumulative sums or a failing tolerance check would be met by no test with random numbers.", "anchors": ["sbayes/sampling/mcmc.py:311-319", "sbayes/sampling/sbayes_sampling.py:365-466", "sbayes/config/config.py:268-285"]}
{"id": "C104", "title": "In double precision, the random walk keeps weights and effects on the simplex", "statement": "Take a row of weights or effects as double precision numbers that add up to 1. Apply any number of steps of AlterWeights, AlterClusterEffect or AlterConfoundingEffects to it: two entries are replaced by a Dirichlet draw times their sum, with every operation rounded, and the step is accepted or not. Then all entries stay finite and non-negative, entries that are not touched keep their exact value, and the row adds up to 1 up to a fixed tolerance however long the run is.", "quantifier": "for all rows of any length, all numbers of steps, all pairs of positions, all gamma variates that are not extreme, accepted or not", "why_tests_cant": "The error of one step is far below any tolerance used in a test; it becomes visible only after millions of accepted steps, and only the worst case over all draws decides whether it stays bounded.", "anchors": ["sbayes/sampling/operators.py:102-265", "sbayes/sampling/mcmc.py:321-363", "sbayes/sampling/sbayes_sampling.py:433-457"]}
{"id": "C105", "title": "In double precision, a proposal is accepted with the Metropolis-Hastings probability up to rounding", "statement": "Take the log-likelihoods, log-priors and log-proposal densities of a step as double precision numbers. Form the ratio and compare it with the logarithm of the uniform draw as the program does, with every operation rounded and a logarithm that is accurate to 2^-52. Then over the 2^53 draws the step is accepted with probability min(1, exp r) for the exact ratio r, up to (108 + 4 M)/2^53 where M is the size of the differences; a step that is uphill in all three terms is accepted by every draw but 0, a candidate of probability zero by no draw, and exactly the draw 0 raises an exception.", "quantifier": "for all finite doubles with differences up to 2^900, minus infinity for the candidate, every logarithm with relative error at most 2^-52, all 2^53 draws", "why_tests_cant": "The claim is about all doubles and all 2^53 draws, and about cancellation in differences of large log-likelihoods; the draw that raises the exception has probability 2^-53.", "anchors": ["sbayes/sampling/mcmc.py:342-354", "sbayes/sampling/mcmc.py:366-386"]}
{"id": "C106", "title": "In double precision, the log-likelihood is that of the mixture up to rounding, and so is one step of the sampler", "statement": "Compute the log-likelihood of N observations with n components as the program does in double precision: mask and normalise the weights, multiply by the component likelihoods, add, take logarithms (accurate to 2^-52), add in any order. Then the result differs from the exact sum of the logarithms of the mixtures by at most (19 n N + (2 N + 1) A)/2^53, where A is the sum of the sizes of the exact logarithms; with sources, by at most (2 N + 1) A / 2^53. An impossible observation gives minus infinity and never NaN. Fed into the accept/reject step, the probability of acceptance is the one of the exact posterior up to the sum of these errors.", "quantifier": "for all numbers of objects, features and components up to 2^40, all availabilities, all weights and likelihoods between 0 and 1 that are zero or at least 2^-400, all summation orders, every logarithm with relative error at most 2^-52", "why_tests_cant": "The bound is about all doubles and all summation orders; the likelihood of a test run cannot be compared with exact real numbers, and underflow occurs only for rare products.", "anchors": ["sbayes/model/likelihood.py:45-83", "sbayes/model/likelihood.py:180-198", "sbayes/sampling/mcmc.py:342-354"]}
{"id": "C107", "title": "In double precision, the sampler of clusters and sources stays close to the posterior for ever", "statement": "Run the sampler of clusters and sources with everything in double precision: the choice of the operator, the proposals drawn with total error kappa, log-likelihood, log-prior and proposal log-probabilities with error eta (infinities and NaN exact), and the accept/reject decision with a logarithm accurate to 2^-52. Let eps = 3 (5 + n) / 2^47 + 2 kappa + 12 eta + (224 + 48 (B + eta)) / 2^53, n the number of confounders and B the size of the logarithms. There are constants m and d of the setting, independent of all errors, such that after N steps every state has its posterior probability up to (1-d)^(N/m) + N eps; if the draw of the decision is never exactly zero, up to (1-d)^(N/m) + eps m / d for every N; and every stationary distribution of the program is within eps m / d of the posterior.", "quantifier": "for all settings with positive weights and effects and a spare object, all cluster priors without zeros, all configured frequencies of clusters and sources (weights and effects fixed), all numbers of steps and initial states, all roundings of likelihoods, priors and operators within the stated errors", "why_tests_cant": "A statement about the distribution after any number of steps over all roundings; a test sees single trajectories and cannot tell a drift of the stationary distribution of 10^-13 from sampling noise.", "anchors": ["sbayes/sampling/mcmc.py:311-364", "sbayes/sampling/operators.py:34-35", "sbayes/sampling/sbayes_sampling.py:365-466"]}
{"id": "C108", "title": "The template of a configuration file names every setting and can be completed to a configuration", "statement": "The template written by generate_template names every setting an accepted configuration file may contain (apart from those named by the user: confounders and their groups, parameters of Dirichlet priors). Completed with the required values, it is accepted and means the same as a file with these values only, all other values being the defaults of the settings; and the analysis it describes can be run.", "quantifier": "for all versions of Python, all answers for the required places, all treatments of the optional places, all accepted configuration files, all file systems and base directories", "why_tests_cant": "A comparison of two programs (the template is derived by introspection of the classes, the file is read by pydantic) over all answers and over all configuration files that are accepted; a test completes one template under one version of Python.", "anchors": ["sbayes/config/config.py:437-567", "sbayes/config/config.py:81-382", "sbayes/config/config_template.yaml:1-68"]}
