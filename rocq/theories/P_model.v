(** Property theorems C08, C09 and the likelihood part of C52. *)
From Verif Require Import M_cache S_cache M_model S_model L_model L_missing.
Open Scope Q_scope.

(** C08. At every object and feature, the normalized weights are either undefined (0/0, exactly when
    the object has no component) or a distribution on the components of the object that keeps the
    ratios of the weights. *)
Theorem C08_normalized_weights : forall W has o f w h,
  Forall (Forall (fun q => 0 < q)) W ->
  nth_error W f = Some w -> nth_error has o = Some h -> length h = length w ->
  exists row r, nth_error (normalize_weights W has) o = Some row /\ nth_error row f = Some r /\
    ((r = None /\ forall c, nth_error h c <> Some true) \/
     (exists d, r = Some d /\ available_distribution w h d /\ exists c, nth_error h c = Some true)).
Proof. exact normalize_weights_spec. Qed.
Print Assumptions C08_normalized_weights.

Example C08_case :
  map (map (option_map (map Qred)))
    (normalize_weights [[1#2; 1#3; 1#6]; [1#4; 1#4; 1#2]]
                       [[true; false; true]; [false; true; false]; [false; false; false]])
  = [[Some [3#4; 0; 1#4]; Some [1#3; 0; 2#3]]; [Some [0; 1; 0]; Some [0; 1; 0]]; [None; None]].
Proof. vm_compute. reflexivity. Qed.

(** C09. Summing (source prior) x (likelihood given the source) over all source arrays gives the
    mixture likelihood.  [W] are the normalized weights, [lhs] arbitrary component likelihoods. *)
Theorem C09_source_marginal : forall (lhs : list lhmat) (W : list (list (list Q))) (no nf nc : nat),
  length W = no ->
  Forall (fun row => length row = nf /\ Forall (fun w => length w = nc) row) W ->
  exists l m,
    all_some (map (joint lhs (map (map Some) W)) (all_sources no nf nc)) = Some l /\
    oprod (mixture_lhs lhs (map (map Some) W)) = Some m /\ Qsum l == m.
Proof. exact marginal_mixture. Qed.
Print Assumptions C09_source_marginal.

(** The enumeration used in C09 lists every source array exactly once. *)
Theorem C09_all_sources : forall no nf nc,
  NoDup (all_sources no nf nc) /\
  forall s, In s (all_sources no nf nc) <-> valid_source no nf nc s.
Proof. intros no nf nc; split; [apply all_sources_nodup|]. intros s. apply all_sources_complete. Qed.
Print Assumptions C09_all_sources.

Definition C09_lhs : list lhmat := [[[1#2; 1#3]; [1#5; 1]]; [[1#4; 1]; [1#7; 1#2]]].
Definition C09_W : list (list (list Q)) := [[[1#3; 2#3]; [1; 0]]; [[1#2; 1#2]; [1#4; 3#4]]].
Example C09_case :
  length (all_sources 2 2 2) = 16%nat /\
  option_map Qred (oprod (mixture_lhs C09_lhs (map (map Some) C09_W))) = Some (1#84) /\
  option_map (fun l => Qred (Qsum l)) (all_some (map (joint C09_lhs (map (map Some) C09_W)) (all_sources 2 2 2))) = Some (1#84).
Proof. vm_compute. auto. Qed.

(** C52, likelihood: in every state reachable as in C03 a missing observation has likelihood one,
    whatever the effects, weights, clusters and the source are. *)
Theorem C52_missing_likelihood_mixture_partial : forall (V : Type) (M : mdl V) (v0 v1 : V) ss i s caching o f,
  Forall disjoint_groups (m_conf M) ->
  reachable v0 v1 M tracked_edit disjoint_pars ss -> nth_error ss i = Some s -> disjoint_pars (s_pars s) ->
  well_shaped M (s_pars s) -> missing M o f -> source (s_pars s) = None ->
  Forall (Forall (fun q => 0 < q)) (v_value (weights (s_pars s))) -> has_some_component M (s_pars s) o ->
  exists q, nth_error (snd (likelihood M caching s)) (o * m_nfeatures M + f) = Some (Some q) /\ q == 1.
Proof. exact missing_likelihood_mixture. Qed.
Print Assumptions C52_missing_likelihood_mixture_partial.

Theorem C52_missing_likelihood_source_partial : forall (V : Type) (M : mdl V) (v0 v1 : V) ss i s caching o f c k src,
  Forall disjoint_groups (m_conf M) ->
  reachable v0 v1 M tracked_edit disjoint_pars ss -> nth_error ss i = Some s -> disjoint_pars (s_pars s) ->
  well_shaped M (s_pars s) -> missing M o f -> source (s_pars s) = Some src -> (c <= length (m_conf M))%nat ->
  nth_error (source_positions (v_value src)) k = Some (o, f, c) ->
  nth_error (snd (likelihood M caching s)) k = Some (Some 1).
Proof. exact missing_likelihood_source. Qed.
Print Assumptions C52_missing_likelihood_source_partial.

(** Hypotheses of both parts are met by the model and the history of the examples of C03
    (observation (1, 1) is missing there). *)
From Verif Require Import P_cache.
Example C52_case : missing demo_model 1 1 /\
  exists s, nth_error demo_run 1 = Some s /\ well_shaped demo_model (s_pars s) /\
    (match source (s_pars s) with
     | Some src => nth_error (source_positions (v_value src)) 3 = Some (1%nat, 1%nat, 1%nat)
     | None => False
     end) /\
    nth_error (snd (likelihood demo_model true s)) 3 = Some (Some 1).
Proof.
  split.
  - do 2 eexists. split; [reflexivity|]. split; [reflexivity|]. repeat constructor.
  - eexists. split; [reflexivity|]. split; [|split; vm_compute; reflexivity].
    constructor; vm_compute; repeat constructor.
    intros c g e. destruct c as [|[|c]]; simpl; intros H1 H2; try discriminate.
    injection H1 as <-; injection H2 as <-. reflexivity.
Qed.
