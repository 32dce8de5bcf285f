(** Exceptions of the operators (sbayes/sampling/operators.py, sbayes_sampling.py:365-461), for C74. *)
From Verif Require Export M_sampler.
Set Implicit Arguments.
Unset Strict Implicit.
Close Scope R_scope.
Open Scope Q_scope.

(** sbayes_sampling.py:420, 449 -- [get_operators]; [None] is the ZeroDivisionError of [1 / len(confounders)]. *)
Definition get_operators (su : setup) : option (list kind) :=
  match su_conf su with [] => None | _ => Some (operators su) end.
(** Number of groups an effect operator chooses from: [n_clusters] or the groups of the confounder. *)
Definition n_groups (su : setup) (which : option nat) : nat :=
  match which with None => su_k su | Some k => length (nth k (su_conf su) []) end.
(** [random.sample(states, 2)] for a feature with the applicable states [app]: ValueError for fewer than two. *)
Definition sample_two (app : list bool) : option (list nat) :=
  let states := nonzero app in if (length states <? 2)%nat then None else Some states.

(** The outcome [Fail] has positive probability. *)
Definition can_fail (d : dist outcome) : Prop := exists q, In (Fail, q) d /\ ~ q == 0.

(** Operator [k] can raise an exception for sample [s], for some random choices.
    - Clusters and sources: the outcome [Fail] of the models.
    - operators.py:154, 193-194, 237-238 -- [np.random.choice(range(0))] and [np.random.randint(0, 0)] raise ValueError;
      157, 200, 244 -- [random.sample(..., 2)] raises ValueError.
    - operators.py:345, 457, 526 -- the source is read ([None.value]: AttributeError), by the operators on effects
      only when not sampling from the prior; 383 -- [random.sample(range(n_components), 2)]; 449, 512 -- [randint].
    Not included: the parameters of [np.random.dirichlet] in the Gibbs operators (positive if the prior concentrations
    are), the accept/reject step (C16) and the evaluation of the model. *)
Definition may_raise (su : setup) (s : fsample) (k : kind) : Prop :=
  match k with
  | KAlterCluster => can_fail (alter_cluster (env_of su (fs_params s)) (fs_cstate s))
  | KGibbsish => can_fail (gibbsish (env_of su (fs_params s)) (fs_cstate s))
  | KGibbsish2 => can_fail (gibbsish2 (env_of su (fs_params s)) (fs_cstate s))
  | KSource => can_fail (gibbs_source (env_of su (fs_params s)) (fs_cstate s))
  | KAlterWeights => su_nf su = 0%nat \/ (su_nc su < 2)%nat
  | KGibbsWeights => fs_source s = None \/ (su_nc su < 2)%nat
  | KAlterEffect which => n_groups su which = 0%nat \/ su_nf su = 0%nat \/ exists app, In app (su_applicable su) /\ sample_two app = None
  | KGibbsEffect which => n_groups su which = 0%nat \/ (su_from_prior su = false /\ fs_source s = None)
  end.
