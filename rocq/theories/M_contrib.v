(** Model of the contributions of single clusters in the parameter log (sbayes/sampling/loggers.py:198-211).

    Samples and caches are those of [M_cache], floating point numbers [xf] (M_mcmc).  The logger evaluates its own
    copy of the model (loggers.py:26, model.py:71-72) with [sample_source = False] (loggers.py:75-76), which is the same
    densities; prior.py:81-86 then requires samples without sources and adds no source prior.

    [M_cache.what_changed] without caching lists as many groups as there are group versions, the code as many as
    there are rows of the value (state.py:195).  After the assignments to [_value] these numbers differ for the clusters and the
    cluster effect, but only the groups that are rows of the clusters are used ([union_changed]). *)
From Verif Require Export M_cache M_lhlog M_slow M_loggers.
Set Implicit Arguments.
Unset Strict Implicit.
Close Scope R_scope.
Close Scope Q_scope.
Open Scope nat_scope.

(** loggers.py:204-205 -- assignments to [clusters._value] and [cluster_effect._value]. *)
Definition take_cluster (c : list bool) (e : effect) (p : pars) : pars :=
  {| clusters := spec_pop (RawAssign [c]) (clusters p); weights := weights p;
     cluster_effect := spec_pop (RawAssign [e]) (cluster_effect p);
     confounding_effects := confounding_effects p; source := source p |}.

(** loggers.py:201 -- [sample_single_cluster._source = None]. *)
Definition drop_source (p : pars) : pars :=
  {| clusters := clusters p; weights := weights p; cluster_effect := cluster_effect p;
     confounding_effects := confounding_effects p; source := None |}.

Section Contrib.
Variable M : mdl xf.

(** loggers.py:200-201 *)
Definition single_cluster_sample (s : sample xf) : sample xf :=
  let s := copy_sample (Fin 0) M s in
  {| s_pars := drop_source (s_pars s); s_cache := s_cache s |}.

(** loggers.py:204-211 -- one pass of the loop: likelihood, prior and posterior; [junk] is the content of the
    uninitialised array of the new cache (state.py:311-313). *)
Definition contribution (junk : list lhmat) (c : list bool) (e : effect) (s : sample xf)
    : sample xf * (xf * xf * xf) :=
  let p := take_cluster c e (s_pars s) in
  let s := {| s_pars := p; s_cache := new_cache (Fin 0) (Fin 1) M p junk |} in
  let '(s, obs) := likelihood M false s in
  let '(s, t) := prior M false s in
  (s, (log_sum obs, log_prior t, xadd (log_sum obs) (log_prior t))).

(** loggers.py:203-211 -- the loop over the clusters [is] of the (permuted) arrays [cl] and [ce]. *)
Fixpoint contribution_loop (junk : nat -> list lhmat) (cl : bmat) (ce : list effect) (is : list nat) (s : sample xf)
    : list (xf * xf * xf) :=
  match is with
  | [] => []
  | i :: is =>
      let '(s, x) := contribution (junk i) (nth i cl []) (nth i ce []) s in
      x :: contribution_loop junk cl ce is s
  end.

(** loggers.py:144-157, 198-211 -- [lh_a{i}], [prior_a{i}], [post_a{i}] for all clusters; [perm] is the permutation
    found by [matching] (M_loggers). *)
Definition log_contributions (perm : option (list nat)) (junk : nat -> list lhmat) (s : sample xf)
    : list (xf * xf * xf) :=
  let cl := apply_perm [] perm (v_value (clusters (s_pars s))) in
  let ce := apply_perm [] perm (v_value (cluster_effect (s_pars s))) in
  contribution_loop junk cl ce (seq 0 (length (v_value (clusters (s_pars s))))) (single_cluster_sample s).
End Contrib.

(** loggers.py:200-205 at the level of parameter objects (M_state): the copy gets the number [n] of the next sample, and
    parameters 0 (clusters) and 2 (cluster effect) of it are assigned for every cluster ([rows]: the rows of the
    two arrays).  Dropping the source (line 201) only forgets an object of the copy. *)
Definition log_ops (A : Type) (s n : nat) (rows : list (A * A)) : list (sop A) :=
  SCopy s :: flat_map (fun '(c, e) => [SParam n 0 (RawAssign [c]); SParam n 2 (RawAssign [e])]) rows.
