(** Model of the reference implementation [sbayes/model/model_slow.py]: the likelihood and the prior computed
    from the parameters of a sample without any cache.

    Floating point values are [xf] (M_mcmc), likelihoods and weights rationals; [size_fn] and [geo_fn] are the
    densities of prior.py:395-414 and 511-528, whose code is repeated in model_slow.py:539-567 and
    615-680, 746-782; scipy's normalising constant of the Dirichlet distribution is the argument [lnB]. *)
From Verif Require Export M_conj M_lhlog M_cache.
Set Implicit Arguments.
Unset Strict Implicit.
Close Scope R_scope.
Close Scope Q_scope.
Open Scope nat_scope.

(** prior.py:33-62 with uniform priors on the weights, the cluster effect (the only types prior.py:260-265 and
    302-308 accept) and all confounding effects (the only type model_slow.py:381-394 accepts); the three
    functions return 0 (prior.py:232-234, 280-282, 324-326); prior.py:359-362 is [log_sum] of the weights. *)
Definition uniform_model (features : cube) (n_features : nat) (confounders : list bmat)
    (size_fn geo_fn : bmat -> xf) : mdl xf :=
  {| m_features := features; m_nfeatures := n_features; m_conf := confounders;
     M_cache.size_fn := size_fn; M_cache.geo_fn := geo_fn;
     weights_fn := fun _ => Fin 0; ce_fn := fun _ => Fin 0; conf_fn := fun _ _ _ => Fin 0;
     src_fn := log_sum |}.

(** The sum of a list of floating point numbers. *)
Definition xsum (l : list xf) : xf := fold_right xadd (Fin 0) l.

(** prior.py:71-88 -- the sum of the terms; [cache.value.sum()] for every confounder (prior.py:242). *)
Definition log_prior (t : prior_terms xf) : xf :=
  xadd (xadd (xadd (xadd (xadd (t_size t) (t_geo t)) (t_weights t)) (t_ce t)) (xsum (map xsum (t_conf t))))
    (match t_src t with Some x => x | None => Fin 0 end).

Section Slow.
Variable features : cube.
Variable n_features : nat.
Variable confounders : list bmat.
Variables size_fn geo_fn : bmat -> xf.
Variable lnB : list R -> R.
(** features.states: the applicable states of every feature. *)
Variable applicable : list (list bool).

(** model_slow.py:201-211 -- [compute_component_likelihood]: all groups in order, no reset. *)
Definition slow_component (probs : list effect) (groups : bmat) (out : lhmat) : lhmat :=
  fold_left (update_group features probs groups) (seq 0 (length groups)) out.

(** model_slow.py:157 -- one component of [np.zeros]. *)
Definition zeros : lhmat := map (fun _ => repeat 0%Q n_features) features.

(** model_slow.py:155-186 -- [update_component_likelihoods]. *)
Definition slow_components (p : pars) : list lhmat :=
  map (set_na features)
    (slow_component (v_value (cluster_effect p)) (v_value (clusters p)) zeros ::
     map2 (fun g e => slow_component (v_value e) g zeros) confounders (confounding_effects p)).

(** model_slow.py:194-198, 214-239 -- [compute_has_components], [update_weights]. *)
Definition slow_weights (p : pars) : list (list (option (list Q))) :=
  normalize_weights (v_value (weights p))
    (has_components (v_value (clusters p)) confounders (length features)).

(** model_slow.py:114-140 -- [Likelihood.__call__]; [None] is the failing assertion of line 138. *)
Definition slow_likelihood (p : pars) : option xf :=
  let src := option_map (@v_value _) (source p) in
  let log_lh := log_sum (get_observation_lhs (slow_components p) (slow_weights p) src) in
  let log_lh := match src with
                | None => log_lh
                | Some s => xadd log_lh (log_sum (source_weights (slow_weights p) s))
                end in
  match log_lh with NaN => None | x => Some x end.

(** model_slow.py:352-358, 396-410, 785-819 -- [compute_confounding_effects_prior] with the concentration of uniform
    priors; the configuration is assumed to list all groups. *)
Definition slow_confounding_prior (effects : list effect) : R :=
  Rsum (map (fun e : effect => Rsum (map (fun f =>
    dirichlet_logpdf lnB (applicable_probs applicable e f) (nth f (concentration applicable UniformPrior) []))
    (seq 0 (length e)))) effects).

(** model_slow.py:271-288 -- [Prior.__call__]: no source prior; the priors on the weights and the cluster effect
    are 0 (447-448, 478-479). *)
Definition slow_prior (p : pars) : xf :=
  xadd (xadd (xadd (xadd (size_fn (v_value (clusters p))) (geo_fn (v_value (clusters p)))) (Fin 0)) (Fin 0))
    (xsum (map (fun e => Fin (slow_confounding_prior (v_value e))) (confounding_effects p))).

(** model_slow.py:73-77 -- [Model.__call__]. *)
Definition slow_model (p : pars) : option xf :=
  match slow_likelihood p with
  | None => None
  | Some log_lh => Some (xadd log_lh (slow_prior p))
  end.
End Slow.
