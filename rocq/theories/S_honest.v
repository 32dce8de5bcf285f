(** Specification for C63: cluster operators as proposal distributions of the Metropolis-Hastings step. *)
From Coq Require Import Reals Qreals.
From Verif Require Import M_operators S_operators S_mcmc.
Set Implicit Arguments.
Unset Strict Implicit.
Open Scope Q_scope.

(** Parameters as the samplers of weights and effects leave them: probabilities are not negative. *)
Record valid_env (e : env) : Prop := {
  ve_pconn : 0 <= e_pconn e <= 1;
  ve_weights : forall w q, In w (e_weights e) -> In q w -> 0 <= q;
  ve_effects : forall p r q, In p (e_ce e) \/ (exists ps, In ps (e_cf e) /\ In p ps) -> In r p -> In q r -> 0 <= q }.
(** The states of a chain with [k] clusters (C10, C11, C26): disjoint clusters with sizes in the
    configured range and one source per observation (if sources are sampled). *)
Definition good (e : env) (k : nat) (x : cstate) : Prop :=
  cluster_shape k (n_objects e) (x_clusters x) /\ disjoint_groups (x_clusters x) /\
  sizes_in (e_min e) (e_max e) (x_clusters x) /\ source_ok e x.

Open Scope R_scope.
(** [np.log] of a reported probability. *)
Definition xq (q : option Q) : xf := match q with None => NaN | Some r => xln (Q2R r) end.
(** The proposals of an operator as seen by the accept/reject step: new state, log q and log q_back.
    Direct rejections and exceptions propose nothing. *)
Definition op_props (e : env) (o : operator) (x : cstate) : list (option (cstate * xf * xf) * R) :=
  map (fun '(out, p) => (match out with Propose y q qb => Some (y, xq q, xq qb) | _ => None end, Q2R p)) (run_op e o x).
(** Transition probabilities of one step with operator [o]: propose, then accept or reject. *)
Definition op_kernel (e : env) (o : operator) (t : R) (ll prior : cstate -> xf) : cstate -> cstate -> R :=
  kernel cstate_eq_dec t ll prior (op_props e o).
Definition op_matrix (e : env) (o : operator) (t : R) (ll prior : cstate -> xf) (states : list cstate) : cstate -> cstate -> R :=
  matrix cstate_eq_dec t ll prior (op_props e o) states.
(** One step of the sampler with the operators [ops], drawn with the given probabilities. *)
Definition mixed_matrix (e : env) (ops : list (R * operator)) (t : R) (ll prior : cstate -> xf) (states : list cstate) (x y : cstate) : R :=
  Rsum (map (fun '(w, o) => w * op_matrix e o t ll prior states x y) ops).
