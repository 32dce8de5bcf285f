(** Specification for the reference implementation (C87). *)
From Verif Require Export S_cache S_mcmc M_slow.
Set Implicit Arguments.
Unset Strict Implicit.
Close Scope R_scope.
Close Scope Q_scope.
Open Scope nat_scope.

(** Every group of every confounder has an effect on each of the [n] features. *)
Definition effects_fit (n : nat) (p : pars) : Prop :=
  Forall (fun e : pval effect => Forall (fun x : effect => length x = n) (v_value e)) (confounding_effects p).

(** The log-density of the uniform distributions over the state probabilities of [n] features of [groups] groups,
    where feature [f] has as many states as row [f] of [applicable] has ones. *)
Definition uniform_density (lnB : list R -> R) (applicable : list (list bool)) (n groups : nat) : R :=
  (INR groups * Rsum (map (fun f => - lnB (repeat 1 (length (filter (fun b => b) (nth f applicable [])))))
    (seq 0 n)))%R.

(** The number of groups of all confounders. *)
Definition number_of_groups (confounders : list bmat) : nat := list_sum (map (@length (list bool)) confounders).
