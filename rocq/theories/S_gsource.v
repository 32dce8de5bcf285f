(** Specification for C64: the sampler of clusters and sources. *)
From Coq Require Import Reals Qreals.
From Verif Require Import M_source S_model S_operators S_source S_mcmc S_honest.
Set Implicit Arguments.
Unset Strict Implicit.
Open Scope Q_scope.

(** Normalized weights and component likelihoods of a state. *)
Definition state_weights (e : env) (cl : bmat) : list (list (option (list Q))) :=
  normalize_weights (e_weights e) (has_components cl (e_conf e) (n_objects e)).
(** Prior of the sources, times the likelihood given the sources unless sampling from the prior. *)
Definition source_density (e : env) (x : cstate) : Q :=
  match x_source x with
  | None => 0
  | Some s =>
      match (if e_from_prior e then oprod (source_weights (state_weights e (x_clusters x)) s)
             else joint (component_lhs e (x_clusters x)) (state_weights e (x_clusters x)) s) with
      | Some q => q
      | None => 0
      end
  end.
(** The states of a chain that samples sources. *)
Definition good_src (e : env) (k : nat) (x : cstate) : Prop := good e k x /\ exists s, x_source x = Some s.

(** A step of the sampler: one of the cluster operators or [GibbsSampleSource]. *)
Inductive move := Cluster (o : operator) | Source.
Definition run_move (e : env) (m : move) : cstate -> M_dist.dist outcome :=
  match m with Cluster o => run_op e o | Source => gibbs_source e end.

Open Scope R_scope.
(** Log-likelihood given the sources (0 when sampling from the prior, mcmc.py:180-201); log-prior of the
    sources and of the clusters ([r]: cluster size prior, geo-prior and the priors of the fixed parameters). *)
Definition log_lh (e : env) (x : cstate) : xf :=
  if e_from_prior e then Fin 0 else
  match x_source x with
  | None => NInf
  | Some s => match oprod (source_lhs (component_lhs e (x_clusters x)) s) with Some q => xln (Q2R q) | None => NInf end
  end.
Definition log_prior (e : env) (r : bmat -> R) (x : cstate) : xf :=
  match x_source x with
  | None => NInf
  | Some s => match oprod (source_weights (state_weights e (x_clusters x)) s) with
              | Some q => xln (Q2R q * r (x_clusters x))
              | None => NInf
              end
  end.
(** The posterior density up to a constant. *)
Definition posterior (e : env) (r : bmat -> R) (x : cstate) : R := Q2R (source_density e x) * r (x_clusters x).

Definition move_props (e : env) (m : move) (x : cstate) : list (option (cstate * xf * xf) * R) :=
  map (fun '(out, p) => (match out with Propose y q qb => Some (y, xq q, xq qb) | _ => None end, Q2R p)) (run_move e m x).
Definition move_matrix (e : env) (m : move) (ll prior : cstate -> xf) (states : list cstate) : cstate -> cstate -> R :=
  matrix cstate_eq_dec 1 ll prior (move_props e m) states.
Definition sampler_matrix (e : env) (moves : list (R * move)) (ll prior : cstate -> xf) (states : list cstate) (x y : cstate) : R :=
  Rsum (map (fun '(w, m) => w * move_matrix e m ll prior states x y) moves).
