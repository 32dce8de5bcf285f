(** Specification for C101: the random runs of the program, with its caches and copies, when weights and effects stay fixed. *)
From Verif Require Export S_program S_averages.
From Verif Require Import M_source M_post S_model S_operators S_source S_params S_mcmc S_honest S_gsource S_ergodic S_collapsed S_sampler S_progress.
From Verif Require Export M_dist M_operators.
Set Implicit Arguments.
Unset Strict Implicit.
Open Scope R_scope.

Section Limit.
Variable su : setup.
Variable M : mdl xf.
Variable bpdf : R -> R -> R -> R.
Variable dpdf : list Q -> list Q -> R.
Variable checks : bool.
(** The probabilities of the operators, in the order of [operators su]. *)
Variable probs : list R.
Notation propose := (tracked_propose su M bpdf dpdf).
Notation eval := (t_eval su M checks).

(** The probability over the uniform draw that the result of operator [o] with the choices [c] is accepted
    (see [C101_uniform_draw]). *)
Definition accept_prob (ch : chain tsample) (o : nat) (c : choice) : R :=
  match propose o c (content (c_obj ch)) with
  | Some (current, r) =>
      match eval (i_step (c_obj ch)) (res_content current r) with
      | Done (_, ll, pr) => acc_prob 1 ll (c_ll ch) pr (c_prior ch) (res_q r) (res_q_back r)
      | _ => 0
      end
  | None => 0
  end.
(** The random choices of one step with their probabilities: the operator, its result, and a uniform draw on either side
    of the acceptance probability. *)
Definition step_draws (ch : chain tsample) : list (tdraw * R) :=
  concat (mapi (fun o k => concat (mapi (fun n '(_, p) =>
    let a := accept_prob ch o (CNth n) in
    [({| td_op := o; td_choice := CNth n; td_u := a / 2 |}, nth o probs 0 * Q2R p * a);
     ({| td_op := o; td_choice := CNth n; td_u := (1 + a) / 2 |}, nth o probs 0 * Q2R p * (1 - a))])
    (possible (run_tracked su M k (content (c_obj ch)))))) (operators su)).
(** The contents of the sample of the first chain. *)
Definition first_sample (sm : sampler tsample) : option fsample :=
  match chains sm with ch :: _ => Some (view (content (c_obj ch))) | [] => None end.
(** The expectation of [F] of the samples after each of the next [n] steps, the first of which is step [i] of a sampler
    with one chain; runs that raise an exception count 0. *)
Fixpoint program_mean (n i : nat) (sm : sampler tsample) (F : list (option fsample) -> R) : R :=
  match n with
  | 0%nat => F []
  | Datatypes.S m =>
      match chains sm with
      | [ch] => S_mcmc.Rsum (map (fun '(d, p) =>
          match t_step_all propose eval i (fun _ => d) sm with
          | Done sm' => p * program_mean m (Datatypes.S i) sm' (fun l => F (first_sample sm' :: l))
          | _ => 0
          end) (step_draws ch))
      | _ => 0
      end
  end.
(** The probability of an event. *)
Definition program_prob (n i : nat) (sm : sampler tsample) (A : list (option fsample) -> bool) : R :=
  program_mean n i sm (fun l => if A l then 1 else 0).
(** The samples after each of [n] steps of a run with given draws, starting with step [i]; [None] if a step raises an
    exception. *)
Fixpoint step_samples (draws : nat -> nat -> tdraw) (n i : nat) (sm : sampler tsample) : option (list (option fsample)) :=
  match n with
  | 0%nat => Some []
  | Datatypes.S m =>
      match t_step_all propose eval i (draws i) sm with
      | Done sm' => option_map (cons (first_sample sm')) (step_samples draws m (Datatypes.S i) sm')
      | _ => None
      end
  end.
End Limit.
(** A function of the clusters and sources of a sample. *)
Definition of_state (f : cstate -> R) (o : option fsample) : R := match o with Some s => f (fs_cstate s) | None => 0 end.

(** The sample with the parameters [p] and the clusters and sources of [x]. *)
Definition at_params (p : params) (x : cstate) : fsample := {| fs_clusters := x_clusters x; fs_params := p; fs_source := x_source x |}.
(** Is [x] the state of clusters and sources at the end? *)
Definition ends_in (x : cstate) (l : list (option fsample)) : bool :=
  match last l None with Some s => if cstate_eq_dec (fs_cstate s) x then true else false | None => false end.
(** All states of clusters and sources that are valid together with the parameters [p]. *)
Definition all_states (su : setup) (p : params) (states : list cstate) : Prop :=
  NoDup states /\ forall x, In x states <-> valid_sample su (at_params p x).

(** The configured frequencies of the operators: weights and effects are never changed, clusters and sources (if they are
    sampled) are. *)
Record fixed_parameters (su : setup) (c : operators_config) : Prop := {
  fp_weights : (oc_weights c == 0)%Q; fp_ce : (oc_cluster_effect c == 0)%Q; fp_cf : (oc_confounding_effects c == 0)%Q;
  fp_clusters : (0 < oc_clusters c)%Q;
  fp_source : if su_source su then (0 < oc_source c)%Q else (su_min su < su_max su)%nat /\ (su_pconn su < 1)%Q }.
(** The probabilities of the operators (C50) for confounders with the given names. *)
Definition operator_probs (su : setup) (names : list str) (c : operators_config) (probs : list R) : Prop :=
  length names = length (su_conf su) /\
  exists ops, M_post.get_operators (su_source su) names (validate_operators (su_source su) c) = Some ops /\ probs = map (fun '(_, w) => Q2R w) ops.
