(** Specification for the contributions of single clusters (C88). *)
From Verif Require Export S_cache S_state S_lhlog S_slow M_contrib.
Set Implicit Arguments.
Unset Strict Implicit.
Close Scope R_scope.
Close Scope Q_scope.
Open Scope nat_scope.

(** The parameters with other clusters and cluster effects and without sources: a model of the same weights and
    confounding effects. *)
Definition with_only (cl : bmat) (ce : list effect) (p : pars) : pars :=
  {| clusters := new_pval cl; weights := weights p; cluster_effect := new_pval ce;
     confounding_effects := confounding_effects p; source := None |}.
Definition only_cluster (i : nat) (p : pars) : pars :=
  with_only [nth i (v_value (clusters p)) []] [nth i (v_value (cluster_effect p)) []] p.
Definition all_clusters (p : pars) : pars := with_only (v_value (clusters p)) (v_value (cluster_effect p)) p.
Definition no_clusters (p : pars) : pars := with_only [] [] p.

(** The log-likelihood and the log-prior of parameters, computed from scratch. *)
Definition log_lh (M : mdl xf) (p : pars) : xf := log_sum (spec_likelihood M p).
Definition log_pr (M : mdl xf) (p : pars) : xf := log_prior (spec_prior M p).

(** The array of a new cache has one matrix of all objects per component. *)
Definition junk_fits (V : Type) (M : mdl V) (junk : list lhmat) : Prop :=
  length junk = S (length (m_conf M)) /\ Forall (fun m => length m = length (m_features M)) junk.

(** Object [o] is in cluster [i]. *)
Definition in_cluster (p : pars) (o i : nat) : Prop := nth o (nth i (v_value (clusters p)) []) false = true.

(** The [n]-fold sum of [x]. *)
Fixpoint times (n : nat) (x : xf) : xf := match n with 0 => Fin 0 | S n => xadd x (times n x) end.

(** A list without its element [n]. *)
Definition without (A : Type) (n : nat) (l : list A) : list A := firstn n l ++ skipn (S n) l.

(** The same operation when one more sample, numbered [n], exists. *)
Definition renumbered (A : Type) (n : nat) (o : sop A) : sop A :=
  let r s := if s <? n then s else S s in
  match o with SNew vs => SNew vs | SCopy s => SCopy (r s) | SParam s k o => SParam (r s) k o end.
