(** Model of [GibbsSampleSource] (operators.py:269-323) and of the generation of the initial source
    (sbayes_sampling.py:325-347), on top of the model of the cluster operators. *)
From Verif Require Export M_operators.
Set Implicit Arguments.
Unset Strict Implicit.
Open Scope Q_scope.

(** operators.py:284-313 -- [GibbsSampleSource._propose] for all sites ([site_subset=slice(None)], the only
    use in the repository): the probabilities are the source posterior, or the weights when sampling from
    the prior (298-301); all sources are drawn anew (304-305).  The reported probabilities are the markers
    [Q_GIBBS = -inf] and [Q_BACK_GIBBS = 0] in log space (32-33, 307-309; [as_gibbs] is never [False]).  [source = None] raises AttributeError. *)
Definition gibbs_source (e : env) (x : cstate) : dist outcome :=
  match x_source x with
  | None => ret Fail
  | Some src =>
      let objs := seq 0 (n_objects e) in
      bind (prod_dist (map (fun o => prod_dist (map (sample_obs e) (source_probs e (x_clusters x) o))) objs)) (fun rows =>
        ret (Propose {| x_clusters := x_clusters x; x_source := Some (set_rows src objs rows) |} (Some 0) (Some 1)))
  end.

(** sbayes_sampling.py:325-345 -- the initial source: an uninitialised array ([np.empty], [junk]) passed
    through one step of [GibbsSampleSource]. *)
Definition initial_source (e : env) (cl : bmat) (junk : cube) : dist outcome :=
  gibbs_source e {| x_clusters := cl; x_source := Some junk |}.
