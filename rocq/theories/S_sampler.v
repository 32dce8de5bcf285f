(** Specification for C72 and C73: valid samples and the runs of the sampler. *)
From Verif Require Export S_mcmc S_init S_source S_params M_sampler.
Set Implicit Arguments.
Unset Strict Implicit.
Close Scope R_scope.
Open Scope Q_scope.

(** A valid sample: [n_clusters] disjoint clusters with sizes in the configured range; weights and effects
    are probability vectors, effects on the applicable states; one effect per cluster and group; exactly one
    source per observation if sources are sampled. *)
Record valid_sample (su : setup) (s : fsample) : Prop := {
  vs_shape : cluster_shape (su_k su) (su_n su) (fs_clusters s);
  vs_disjoint : disjoint_groups (fs_clusters s);
  vs_sizes : sizes_in (su_min su) (su_max su) (fs_clusters s);
  vs_params : params_ok (su_nc su) (su_applicable su) (fs_params s);
  vs_ce : length (p_ce (fs_params s)) = su_k su;
  vs_cf : Forall2 (fun es gs => length es = length gs) (p_cf (fs_params s)) (su_conf su);
  vs_source : match fs_source s with
              | Some c => su_source su = true /\ one_source (su_n su) (su_nf su) (su_nc su) c
              | None => su_source su = false
              end }.

(** Data and settings: at least one cluster, an initial size in the configured range (not checked by the
    code, C58), a network over the objects, every feature has a state and only applicable states are observed. *)
Record valid_setup (su : setup) : Prop := {
  va_k : (0 < su_k su)%nat;
  va_init : (1 <= su_init su)%nat /\ (su_min su <= su_init su <= su_max su)%nat;
  va_adj : length (su_adj su) = su_n su;
  va_observed : observed_applicable (su_features su) (su_applicable su);
  va_states : Forall (fun app => In true app) (su_applicable su) }.

(** [s] can be the initial sample. *)
Definition starts (su : setup) (prev : option fsample) (s : fsample) : Prop :=
  exists rnd fuel junk d, length junk = su_n su /\ generate_initial_sample su prev rnd fuel junk = Some d /\ supp d s.

(** The same setting with another number of clusters. *)
Definition with_k (su : setup) (k : nat) : setup :=
  {| su_features := su_features su; su_applicable := su_applicable su; su_conf := su_conf su; su_adj := su_adj su;
     su_pconn := su_pconn su; su_k := k; su_min := su_min su; su_max := su_max su; su_init := su_init su;
     su_source := su_source su; su_from_prior := su_from_prior su |}.
(** Equal weights (as rational numbers). *)
Definition same_weights : list (list Q) -> list (list Q) -> Prop := Forall2 (Forall2 Qeq).

(** What an operator may return for a sample (exceptions end the run and are not results). *)
Inductive proposal (su : setup) (s : fsample) : kind -> result fsample -> Prop :=
| pr_alter : forall out r, supp (alter_cluster (env_of su (fs_params s)) (fs_cstate s)) out ->
    cluster_result s out = Some r -> proposal su s KAlterCluster r
| pr_gibbsish : forall out r, supp (gibbsish (env_of su (fs_params s)) (fs_cstate s)) out ->
    cluster_result s out = Some r -> proposal su s KGibbsish r
| pr_gibbsish2 : forall out r, supp (gibbsish2 (env_of su (fs_params s)) (fs_cstate s)) out ->
    cluster_result s out = Some r -> proposal su s KGibbsish2 r
| pr_source : forall out r, supp (gibbs_source (env_of su (fs_params s)) (fs_cstate s)) out ->
    source_result s out = Some r -> proposal su s KSource r
| pr_gibbs_weights : forall i j draws p, draws_ok (su_nc su) (su_applicable su) (GibbsWeights i j draws) ->
    propose_params (su_applicable su) (GibbsWeights i j draws) (fs_params s) = Some p ->
    proposal su s KGibbsWeights (RGibbs (with_params s p))
| pr_gibbs_effect : forall which g draws p, draws_ok (su_nc su) (su_applicable su) (GibbsEffect which g draws) ->
    propose_params (su_applicable su) (GibbsEffect which g draws) (fs_params s) = Some p ->
    proposal su s (KGibbsEffect which) (RGibbs (with_params s p))
| pr_alter_weights : forall f i j draw p q qb, draws_ok (su_nc su) (su_applicable su) (AlterWeights f i j draw) ->
    propose_params (su_applicable su) (AlterWeights f i j draw) (fs_params s) = Some p ->
    proposal su s KAlterWeights (RCopy (with_params s p) q qb)
| pr_alter_effect : forall which g f i j draw p q qb, draws_ok (su_nc su) (su_applicable su) (AlterEffect which g f i j draw) ->
    propose_params (su_applicable su) (AlterEffect which g f i j draw) (fs_params s) = Some p ->
    proposal su s (KAlterEffect which) (RCopy (with_params s p) q qb)
(** operators.py:130-135 -- a draw that is not finite: marked as rejected (what is then in the copy does not
    matter, it is discarded). *)
| pr_no_weights : proposal su s KAlterWeights (RCopy s (Fin 0) NInf)
| pr_no_effect : forall which, proposal su s (KAlterEffect which) (RCopy s (Fin 0) NInf).

(** The draws of the first [n] steps of a run starting with the sampler [sm0] are results of the operators of
    the sampler for the samples they are applied to. *)
Definition drawn (su : setup) (ll pr : fsample -> xf) (sm0 : sampler fsample) (n : nat) (draws : nat -> nat -> draw fsample) : Prop :=
  forall i c sm ch, (i < n)%nat -> after ll pr (su_from_prior su) draws sm0 i = Ok sm -> nth_error (chains sm) c = Some ch ->
    exists k, nth_error (operators su) (d_op (draws i c)) = Some k /\ proposal su (content (c_obj ch)) k (d_prop (draws i c) (content (c_obj ch))).

(** A whole analysis (mcmc_setup.py:57-100): warm-up chains that start from scratch; the best sample is handed
    over to the chains of the main run (one chain in the code); [log] are the logged samples.  The other size
    bounds and growth probabilities of the warm-up (sbayes_sampling.py:470-489) are set after the operators were
    created (mcmc.py:136) and do not reach them (C59), so both runs have the same setting. *)
Inductive whole_run (su : setup) (ll pr : fsample -> xf) (n_ops warm_steps steps samples : nat) : list (nat * obj fsample) -> Prop :=
| whole_run_intro : forall ws wdraws best wsm ss draws sm log last,
    Forall (starts su None) ws ->
    drawn su ll pr (init_sampler ll pr (su_from_prior su) n_ops ws) warm_steps wdraws ->
    warm_up ll pr (su_from_prior su) n_ops ws warm_steps wdraws = Ok (Some best, wsm) ->
    Forall (starts su (Some (content best))) ss ->
    drawn su ll pr (init_sampler ll pr (su_from_prior su) n_ops ss) steps draws ->
    generate_samples ll pr (su_from_prior su) n_ops ss steps samples draws = Ok (sm, log, last) ->
    whole_run su ll pr n_ops warm_steps steps samples log.

(** Frequencies of the states of a feature among the members of a group, with one additional observation of every
    applicable state [app]. *)
Definition members_with (features : cube) (group : list bool) (f x : nat) : nat :=
  length (filter (fun o => nth o group false && nth x (nth f (nth o features []) []) false) (seq 0 (length group))).
Definition smoothed (features : cube) (group : list bool) (f : nat) (app : list bool) (row : list Q) : Prop :=
  length row = length app /\
  forall x, (x < length app)%nat ->
    nth x row 0 * inject_Z (Z.of_nat (list_sum (map (members_with features group f) (seq 0 (length app))) + n_true app)) ==
    inject_Z (Z.of_nat (members_with features group f x + (if nth x app false then 1 else 0))).
Definition smoothed_effect (features : cube) (group : list bool) (applicable : list (list bool)) (p : effect) : Prop :=
  length p = length applicable /\ forall f app row, nth_error applicable f = Some app -> nth_error p f = Some row -> smoothed features group f app row.
