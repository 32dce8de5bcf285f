(** Model of the prior as configured ([sbayes/model/prior.py], 33-88) for the samples of [M_tracked]: the functions
    whose values are cached by [M_cache]. *)
From Verif Require Export M_tracked M_conj.
From Verif Require Export M_dist M_operators.
Set Implicit Arguments.
Unset Strict Implicit.
Close Scope R_scope.
Close Scope Q_scope.
Open Scope nat_scope.

(** prior.py:33-62 -- the prior of the setting [su]: [size] and [geo] are the log-densities of prior.py:395-414 and
    511-528; the priors of the weights and of the cluster effect are uniform (prior.py:260-265, 302-308, value 0:
    280-282, 324-326); [prs k g] is the prior of the effect of group [g] of confounder [k] (prior.py:229-240);
    [lnB] is the normalising constant of scipy's Dirichlet density; prior.py:359-362 is [log_sum] of the weights
    of the sources. *)
Definition configured_model (su : setup) (size geo : bmat -> xf) (lnB : list R -> R) (prs : nat -> nat -> effect_prior) : mdl xf :=
  {| m_features := su_features su; m_nfeatures := su_nf su; m_conf := su_conf su;
     M_cache.size_fn := size; M_cache.geo_fn := geo; weights_fn := fun _ => Fin 0; ce_fn := fun _ => Fin 0;
     conf_fn := fun k g row => Fin (log_prior_effect lnB (su_applicable su) (prs k g) row); src_fn := log_sum |}.
