(** Model of the Gibbs updates of cluster effects and confounding effects: the parameters of the Dirichlet
    distributions (operators.py:421-550), the prior of an effect (prior.py:147-293, 661-682) and the part of the
    posterior that depends on it (likelihood.py:47-80, mcmc.py:180-205).

    Simplifications: effects are rational, densities are real; the likelihood of an observation is positive where
    logarithms are taken; [scipy]'s normalising constant is an argument ([lnB]). *)
From Coq Require Export Reals Qreals.
From Verif Require Export S_model M_params.
Set Implicit Arguments.
Unset Strict Implicit.
Open Scope R_scope.

Definition Rsum (l : list R) : R := fold_right Rplus 0 l.
(** util.py:31 -- [scipy.stats.dirichlet._logpdf]: [-lnB(alpha) + sum(xlogy(alpha - 1, x))]; [x] positive. *)
Definition dirichlet_logpdf (lnB : list R -> R) (x alpha : list R) : R :=
  - lnB alpha + Rsum (map2 (fun a y => (a - 1) * ln y) alpha x).
(** [effect[f, applicable_states[f]]] *)
Definition applicable_probs (applicable : list (list bool)) (p : effect) (f : nat) : list R :=
  map (fun s => Q2R (nth s (nth f p []) 0%Q)) (nonzero (nth f applicable [])).
(** prior.py:661-682 -- [compute_group_effect_prior] *)
Definition compute_group_effect_prior (lnB : list R -> R) (p : effect) (concentration : list (list R)) (applicable : list (list bool)) : R :=
  Rsum (map (fun f => dirichlet_logpdf lnB (applicable_probs applicable p f) (nth f concentration [])) (seq 0 (length p))).

(** config.py DirichletPriorConfig -- uniform, or pseudo-counts per feature and state in the order of the state names *)
Inductive effect_prior := UniformPrior | DirichletPrior (counts : list (list R)).
(** prior.py:172-178, 158-170 -- [get_uniform_concentration], [parse_concentration_dict] with [initial_counts=1.] *)
Definition concentration (applicable : list (list bool)) (pr : effect_prior) : list (list R) :=
  match pr with
  | UniformPrior => map (fun app => repeat 1 (size app)) applicable
  | DirichletPrior counts => map (map (fun c => 1 + c)) counts
  end.
(** prior.py:229-240, 275-290 -- the log-prior of the effect of one group *)
Definition log_prior_effect (lnB : list R -> R) (applicable : list (list bool)) (pr : effect_prior) (p : effect) : R :=
  match pr with
  | UniformPrior => 0
  | DirichletPrior _ => compute_group_effect_prior lnB p (concentration applicable pr) applicable
  end.

(** The groups of the cluster component ([None]) or of confounder [k], and the index of the component in the source
    (operators.py:456; sbayes_sampling.py:85-91). *)
Definition groups_of (e : env) (cl : bmat) (which : option nat) : bmat :=
  match which with None => cl | Some k => nth k (e_conf e) [] end.
Definition source_index (which : option nat) : nat := match which with None => 0 | Some k => S k end.
(** operators.py:451-461, 466 and 515-529, 538 -- [np.nansum] of the observations of feature [f] attributed to the group,
    at one state; no observation when sampling from the prior. *)
Definition feature_count (e : env) (groups : bmat) (src : cube) (c g f s : nat) : nat :=
  if e_from_prior e then 0%nat
  else length (filter (fun o => nth c (nth f (nth o src []) []) false && nth o (nth g groups []) false
                               && nth s (nth f (nth o (e_features e) []) []) false) (seq 0 (length (e_features e)))).
Definition feature_counts (e : env) (groups : bmat) (src : cube) (c g f : nat) (applicable : list (list bool)) : list R :=
  map (fun s => INR (feature_count e groups src c g f s)) (nonzero (nth f applicable [])).
(** operators.py:467-469 ([1 + feature_counts]) and 539-541 ([prior_counts[i_feat] + feature_counts]) *)
Definition gibbs_alpha (e : env) (cl : bmat) (src : cube) (applicable : list (list bool)) (pr : effect_prior) (which : option nat) (g f : nat) : list R :=
  let counts := feature_counts e (groups_of e cl which) src (source_index which) g f applicable in
  match which with
  | None => map (fun n => 1 + n) counts
  | Some _ => map2 Rplus (nth f (concentration applicable pr) []) counts
  end.
(** The log-density with which the operator draws the applicable entries of [p]: features are drawn independently. *)
Definition gibbs_logpdf (lnB : list R -> R) (e : env) (cl : bmat) (src : cube) (applicable : list (list bool)) (pr : effect_prior) (which : option nat) (g : nat) (p : effect) : R :=
  Rsum (map (fun f => dirichlet_logpdf lnB (applicable_probs applicable p f) (gibbs_alpha e cl src applicable pr which g f)) (seq 0 (e_nf e))).
(** The environment after [edit_group] replaced the effect of one group. *)
Definition with_effect (e : env) (which : option nat) (g : nat) (p : effect) : env :=
  {| e_features := e_features e; e_nf := e_nf e; e_conf := e_conf e; e_weights := e_weights e;
     e_ce := match which with None => upd g (fun _ => p) (e_ce e) | Some _ => e_ce e end;
     e_cf := match which with None => e_cf e | Some k => upd k (upd g (fun _ => p)) (e_cf e) end;
     e_adj := e_adj e; e_pconn := e_pconn e; e_min := e_min e; e_max := e_max e; e_resample := e_resample e; e_from_prior := e_from_prior e |}.
(** mcmc.py:189-198, likelihood.py:60-64, 79-80 -- the likelihood given the source; 1 when sampling from the prior *)
Definition source_likelihood (e : env) (cl : bmat) (src : cube) : option Q :=
  if e_from_prior e then Some 1%Q else oprod (source_lhs (component_lhs e cl) src).
