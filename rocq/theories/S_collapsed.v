(** Specification for C78: the sampler of clusters without sources. *)
From Coq Require Import Reals Qreals.
From Verif Require Import M_source S_model S_operators S_source S_mcmc S_honest S_gsource S_ergodic.
Set Implicit Arguments.
Unset Strict Implicit.
Open Scope R_scope.

(** The same setting with or without the resampling of sources in the cluster operators. *)
Definition set_resample (b : bool) (e : env) : env :=
  {| e_features := e_features e; e_nf := e_nf e; e_conf := e_conf e; e_weights := e_weights e; e_ce := e_ce e; e_cf := e_cf e; e_adj := e_adj e;
     e_pconn := e_pconn e; e_min := e_min e; e_max := e_max e; e_resample := b; e_from_prior := e_from_prior e |}.
(** The states of a chain without sources: only the clusters. *)
Definition good_none (e : env) (k : nat) (x : cstate) : Prop := good e k x /\ x_source x = None.
Definition alone (cl : bmat) : cstate := {| x_clusters := cl; x_source := None |}.

(** The probability of the data given the clusters: each observation is a mixture of the components
    (likelihood.py:84-85); 1 when sampling from the prior. *)
Definition mixture (e : env) (cl : bmat) : Q :=
  if e_from_prior e then 1%Q else
  match oprod (mixture_lhs (component_lhs e cl) (state_weights e cl)) with Some m => m | None => 0%Q end.
(** Its logarithm as the sampler computes it (likelihood.py:60-71, mcmc.py:180-201), and the log-prior without the
    prior of the sources (prior.py:74-85). *)
Definition log_mix (e : env) (x : cstate) : xf :=
  if e_from_prior e then Fin 0 else
  match oprod (mixture_lhs (component_lhs e (x_clusters x)) (state_weights e (x_clusters x))) with
  | Some q => xln (Q2R q)
  | None => NInf
  end.
Definition log_cluster_prior (r : bmat -> R) (x : cstate) : xf := xln (r (x_clusters x)).
(** The posterior density of the clusters up to a constant. *)
Definition collapsed (e : env) (r : bmat -> R) (cl : bmat) : R := Q2R (mixture e cl) * r cl.

(** The schedule without sources: probabilities, cluster operators only, some for a capable one. *)
Definition cluster_schedule (e : env) (moves : list (R * move)) : Prop :=
  Rsum (map fst moves) = 1 /\ (forall w m, In (w, m) moves -> 0 <= w) /\
  (forall w m, In (w, m) moves -> m <> Source) /\
  (exists w o, In (w, Cluster o) moves /\ 0 < w /\ capable e o).

Definition bmat_dec : forall a b : bmat, {a = b} + {a <> b} := list_eq_dec (list_eq_dec Bool.bool_dec).
(** The probability that the clusters are [cl] after [n] steps from [x]. *)
Definition clusters_prob (P : cstate -> cstate -> R) (states : list cstate) (n : nat) (x : cstate) (cl : bmat) : R :=
  Rsum (map (fun y => if bmat_dec (x_clusters y) cl then nstep cstate_eq_dec P states n x y else 0) states).
