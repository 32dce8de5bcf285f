(** Specification for C95: the joint posterior of clusters, sources, weights and effects, and the moves of all operators. *)
From Verif Require Import M_source M_conj M_gweights S_model S_operators S_source S_params S_mcmc S_honest S_gsource S_ergodic S_collapsed
  S_sampler S_progress P_conj P_gweights.
Set Implicit Arguments.
Unset Strict Implicit.
Open Scope R_scope.

Section Joint.
Variable su : setup.
(** [scipy]'s normalising constant of Dirichlet densities and its log-densities of the Dirichlet proposals and of the beta
    distribution. *)
Variable lnB : list R -> R.
Variable dpdf : list Q -> list Q -> R.
Variable bpdf : R -> R -> R -> R.
(** The prior of the effect of each group of each confounder, and the prior of the clusters (sizes and geography). *)
Variable prs : nat -> nat -> effect_prior.
Variable r : bmat -> R.

(** Log-prior of all confounding effects; weights and cluster effects have flat priors (prior.py:181-293). *)
Definition log_prior_effects (p : params) : R :=
  M_conj.Rsum (mapi (fun k ps => M_conj.Rsum (mapi (fun g q => log_prior_effect lnB (su_applicable su) (prs k g) q) ps)) (p_cf p)).
(** Probability of the data and the sources given everything else, or of the data if sources are not sampled. *)
Definition data_density (e : env) (x : cstate) : Q :=
  match x_source x with Some _ => source_density e x | None => mixture e (x_clusters x) end.
(** The joint posterior density up to a constant. *)
Definition joint_density (s : fsample) : R :=
  Q2R (data_density (env_of su (fs_params s)) (fs_cstate s)) * r (fs_clusters s) * exp (log_prior_effects (fs_params s)).

(** Log-likelihood and log-prior as the sampler evaluates them (mcmc.py:163-201). *)
Definition full_ll (p : params) (x : cstate) : xf :=
  match x_source x with Some _ => S_gsource.log_lh (env_of su p) x | None => log_mix (env_of su p) x end.
Definition full_prior (p : params) (x : cstate) : xf :=
  let r' := fun cl => r cl * exp (log_prior_effects p) in
  match x_source x with Some _ => S_gsource.log_prior (env_of su p) r' x | None => log_cluster_prior r' x end.

(** One move: a step of a cluster operator or of the source operator that ends in [y], or a step of an operator on weights
    or effects with its draws. *)
Inductive full_move := Discrete (m : move) (y : cstate) | Param (op : pop).
Definition target (mv : full_move) (s : fsample) : fsample :=
  match mv with
  | Discrete _ y => {| fs_clusters := x_clusters y; fs_params := fs_params s; fs_source := x_source y |}
  | Param op => match propose_params (su_applicable su) op (fs_params s) with Some p => with_params s p | None => s end
  end.
(** A proposal with log-densities [q] and [qb] and its acceptance. *)
Definition proposal_density (s s' : fsample) (rep : option (list Q * R * R)) : R :=
  match rep with
  | Some (_, q, qb) => exp q * acc_prob 1 (full_ll (fs_params s') (fs_cstate s')) (full_ll (fs_params s) (fs_cstate s))
                                 (full_prior (fs_params s') (fs_cstate s')) (full_prior (fs_params s) (fs_cstate s)) (Fin q) (Fin qb)
  | None => 0
  end.
Definition prior_of (which : option nat) (g : nat) : effect_prior := match which with None => UniformPrior | Some k => prs k g end.
(** The probability or density with which a move is made, given its random choice of components, groups, features and
    entries (these choices do not depend on the sample). *)
Definition density (mv : full_move) (s : fsample) : R :=
  let p := fs_params s in
  match mv with
  | Discrete m y => kernel cstate_eq_dec 1 (full_ll p) (full_prior p) (move_props (env_of su p) m) (fs_cstate s) y
  | Param (AlterWeights f i j d) => proposal_density s (target mv s) (alter_pair dpdf prec_weights (nth f (p_weights p) []) i j d)
  | Param (AlterEffect which g f i j d) =>
      proposal_density s (target mv s) (alter_pair dpdf (prec_effect which) (nth f (get_effect which g p) []) i j d)
  | Param (GibbsWeights i j draws) =>
      match fs_source s with
      | Some src => move_density bpdf (has_components (fs_clusters s) (su_conf su) (su_n su)) src i j (map fst draws) (map snd draws) (p_weights p)
      | None => 0
      end
  | Param (GibbsEffect which g draws) =>
      match fs_source s with
      | Some src => exp (M_conj.Rsum (map (fun f => dirichlet_logpdf lnB (map Q2R (nth f draws []))
          (gibbs_alpha (env_of su p) (fs_clusters s) src (su_applicable su) (prior_of which g) which g f)) (seq 0 (su_nf su))))
      | None => 0
      end
  end.

(** The move back. *)
Definition relative (row : list Q) (i j : nat) : list Q :=
  [nth i row 0 / (nth i row 0 + nth j row 0); nth j row 0 / (nth i row 0 + nth j row 0)]%Q.
Definition reverse (mv : full_move) (s : fsample) : full_move :=
  let p := fs_params s in
  match mv with
  | Discrete m _ => Discrete m (fs_cstate s)
  | Param (AlterWeights f i j _) => Param (AlterWeights f i j (Some (relative (nth f (p_weights p) []) i j)))
  | Param (AlterEffect which g f i j _) => Param (AlterEffect which g f i j (Some (relative (nth f (get_effect which g p) []) i j)))
  | Param (GibbsWeights i j draws) =>
      Param (GibbsWeights i j (map2 (fun w (d : Q * bool) => ((nth j w 0 / (nth i w 0 + nth j w 0))%Q, snd d)) (p_weights p) draws))
  | Param (GibbsEffect which g _) =>
      Param (GibbsEffect which g (mapi (fun f app => map (fun s => nth s (nth f (get_effect which g p) []) 0%Q) (M_operators.nonzero app)) (su_applicable su)))
  end.

(** * Settings and moves *)
(** A complete setting (C74) with at most one state per observation, a prior of the clusters, concentrations for the
    applicable states, and a proposal density that does not depend on the representation of rational numbers. *)
Record joint_setting : Prop := {
  js_setup : complete_setup su;
  js_pconn : (0 <= su_pconn su <= 1)%Q;
  js_coded : coded_features (su_applicable su) (su_features su);
  js_prior : forall cl, 0 <= r cl;
  js_conc : forall k g, concentration_shape (su_nf su) (su_applicable su) (prs k g);
  js_dpdf : forall x x' a a', vec_eq x x' -> vec_eq a a' -> dpdf x a = dpdf x' a' }.
(** Draws in the interior, for an existing group; Gibbs operators need sources.  Moves of clusters and sources end in a
    sample without zero probabilities. *)
Definition move_ok (op : pop) (s : fsample) : Prop :=
  match op with
  | AlterWeights _ _ _ d => d <> None
  | AlterEffect which g _ _ _ d => d <> None /\ (g < length (match which with None => p_ce (fs_params s) | Some k => nth k (p_cf (fs_params s)) [] end))%nat
  | GibbsWeights _ _ _ => fs_source s <> None
  | GibbsEffect which g _ => fs_source s <> None /\
      (g < length (match which with None => p_ce (fs_params s) | Some k => nth k (p_cf (fs_params s)) [] end))%nat
  end.
Definition admissible_move (mv : full_move) (s : fsample) : Prop :=
  match mv with
  | Discrete m y => positive_sample su (target mv s)
  | Param op => draws_ok (su_nc su) (su_applicable su) op /\ interior op /\ move_ok op s
  end.
(** Equal samples (rational numbers up to their representation). *)
Definition same_params (p p' : params) : Prop :=
  Forall2 vec_eq (p_weights p) (p_weights p') /\ Forall2 (Forall2 vec_eq) (p_ce p) (p_ce p') /\
  Forall2 (Forall2 (Forall2 vec_eq)) (p_cf p) (p_cf p').
Definition same_sample (s s' : fsample) : Prop :=
  same_params (fs_params s) (fs_params s') /\ fs_clusters s = fs_clusters s' /\ fs_source s = fs_source s'.
End Joint.
