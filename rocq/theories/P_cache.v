(** Property theorems C03, C04, C06, C07 (cached likelihood and prior). *)
From Verif Require Import M_cache S_cache L_cache.
Open Scope Q_scope.

(** A concrete model: three objects, two features with two states (one missing observation), one
    confounder with two groups; scalar priors are simple functions of their arguments. *)
Definition demo_model : mdl Q :=
  {| m_features := [[[true; false]; [false; true]]; [[false; true]; [false; false]];
                    [[true; false]; [true; false]]];
     m_nfeatures := 2;
     m_conf := [[[true; true; false]; [false; false; true]]];
     size_fn := fun cl => inject_Z (Z.of_nat (length (filter (fun b : bool => b) (concat cl))));
     geo_fn := fun cl => inject_Z (Z.of_nat (length (filter (fun b : bool => b) (concat cl))));
     weights_fn := fun w => Qsum (concat w);
     ce_fn := fun e => Qsum (concat (concat e));
     conf_fn := fun c g e => Qsum (concat e);
     src_fn := fun l => Qsum (map (fun x => match x with Some q => q | None => 0 end) l) |}.

Definition demo_new : op :=
  ONew [[true; false; false]; [false; true; false]]
       [[1#2; 1#2]; [1#3; 2#3]]
       [[[1#4; 3#4]; [1#5; 4#5]]; [[1#2; 1#2]; [1#10; 9#10]]]
       [[[[1#3; 2#3]; [1#2; 1#2]]; [[1#6; 5#6]; [1#7; 6#7]]]]
       (Some [[[true; false]; [false; true]]; [[true; false]; [false; true]]; [[false; true]; [false; true]]])
       [[[]; []; []]; [[]; []; []]].

(** A proposal that moves object 2 into cluster 0 and changes an effect, evaluated with the cache. *)
Definition demo_history : list op :=
  [demo_new; OLik 0 true; OPrior 0 true; OCopy 0;
   OEdit 1 (EdClusters (EditGroup 0 (fun _ => [true; false; true])));
   OEdit 1 (EdConf 0 (EditGroup 1 (fun _ => [[1#2; 1#2]; [0; 1]])));
   OLik 1 true; OPrior 1 true; OEdit 1 (EdClusters (SetItems 0 (fun _ => [true; false; false])));
   OEdit 1 (EdWeights (SetValue [[1; 0]; [1#2; 1#2]])); OClear 0].
Definition demo_run : list (sample Q) := fold_left (do_op 0 1 demo_model) demo_history [].

(** C03. In every state reachable by constructions, copies, group-wise changes of clusters and
    effects, arbitrary completed changes of weights and sources, cache clears and evaluations on
    non-overlapping clusters, evaluating the likelihood (with or without the cache) gives the
    observation likelihoods computed from scratch. *)
Theorem C03_cached_likelihood_fresh : forall (V : Type) (v0 v1 : V) (M : mdl V) ss i s caching,
  Forall disjoint_groups (m_conf M) ->
  reachable v0 v1 M tracked_edit disjoint_pars ss ->
  nth_error ss i = Some s ->
  disjoint_pars (s_pars s) ->
  snd (likelihood M caching s) = spec_likelihood M (s_pars s).
Proof. exact cached_likelihood_fresh. Qed.
Print Assumptions C03_cached_likelihood_fresh.

Ltac solve_disjoint :=
  let o := fresh "o" in let i := fresh "i" in let j := fresh "j" in
  intros o i j; destruct o as [|[|[|[|o]]]]; destruct i as [|[|[|i]]]; destruct j as [|[|[|j]]];
  simpl; intros; try discriminate; auto.

Ltac solve_reach :=
  cbn [fold_left app];
  repeat apply reach_step; try apply reach_init;
  first [ exact I | solve [repeat constructor] |
          let s := fresh in let H := fresh in
          intros s H; vm_compute in H; injection H as <-; unfold disjoint_pars; cbn [s_pars clusters v_value];
          solve_disjoint ].

Example C03_case : Forall disjoint_groups (m_conf demo_model) /\
  reachable 0 1 demo_model tracked_edit disjoint_pars demo_run /\
  exists s, nth_error demo_run 1 = Some s /\ disjoint_pars (s_pars s) /\
    map (option_map Qred) (snd (likelihood demo_model true s)) =
      [Some (1#4); Some (1#2); Some (1#2); Some 1; Some (1#2); Some 0].
Proof.
  split; [|split].
  - repeat constructor. solve_disjoint.
  - unfold demo_run, demo_history, demo_new. solve_reach.
  - eexists; split; [reflexivity|split].
    + unfold disjoint_pars; simpl. solve_disjoint.
    + vm_compute. reflexivity.
Qed.

(** C04, part that holds: a group-wise change is seen by the very next evaluation. *)
Theorem C04_group_edits_seen_partial : forall (V : Type) (v0 v1 : V) (M : mdl V) ss i e s0 s caching,
  Forall disjoint_groups (m_conf M) ->
  reachable v0 v1 M tracked_edit disjoint_pars ss -> tracked_edit e ->
  nth_error ss i = Some s0 ->
  nth_error (do_op v0 v1 M ss (OEdit i e)) i = Some s ->
  disjoint_pars (do_edit_pars e (s_pars s0)) ->
  snd (likelihood M caching s) = spec_likelihood M (do_edit_pars e (s_pars s0)).
Proof. exact group_edit_seen. Qed.
Print Assumptions C04_group_edits_seen_partial.

(** C04 is false for [edit()]: after a completed [cluster_effect.edit()] the cached likelihood is
    still the old one, although the value changed (the likelihood of the new value is different). *)
Theorem C04_edit_seen_refuted : exists (M : mdl Q) (ops : list op) (e : edit) (s0 s : sample Q),
  Forall disjoint_groups (m_conf M) /\
  reachable 0 1 M tracked_edit disjoint_pars (fold_left (do_op 0 1 M) ops []) /\
  (exists f, e = EdCE (Edit f)) /\
  nth_error (fold_left (do_op 0 1 M) ops []) 0 = Some s0 /\
  nth_error (do_op 0 1 M (fold_left (do_op 0 1 M) ops []) (OEdit 0 e)) 0 = Some s /\
  snd (likelihood M true s) = snd (likelihood M true s0) /\
  snd (likelihood M true s) <> spec_likelihood M (s_pars s).
Proof.
  exists demo_model, [demo_new; OLik 0 true],
    (EdCE (Edit (fun _ => [[[3#4; 1#4]; [1#5; 4#5]]; [[1#2; 1#2]; [1#10; 9#10]]]))).
  do 2 eexists. split; [|split; [|split; [|split; [|split; [|split]]]]].
  - repeat constructor. solve_disjoint.
  - unfold demo_new. solve_reach.
  - eexists; reflexivity.
  - reflexivity.
  - reflexivity.
  - vm_compute. reflexivity.
  - vm_compute. discriminate.
Qed.
Print Assumptions C04_edit_seen_refuted.

(** ... and likewise for [set_value]. *)
Theorem C04_set_value_seen_refuted : exists (M : mdl Q) (ops : list op) (e : edit) (s0 s : sample Q),
  Forall disjoint_groups (m_conf M) /\
  reachable 0 1 M tracked_edit disjoint_pars (fold_left (do_op 0 1 M) ops []) /\
  (exists v, e = EdConf 0 (SetValue v)) /\
  nth_error (fold_left (do_op 0 1 M) ops []) 0 = Some s0 /\
  nth_error (do_op 0 1 M (fold_left (do_op 0 1 M) ops []) (OEdit 0 e)) 0 = Some s /\
  snd (likelihood M true s) = snd (likelihood M true s0) /\
  snd (likelihood M true s) <> spec_likelihood M (s_pars s).
Proof.
  exists demo_model, [demo_new; OLik 0 true],
    (EdConf 0 (SetValue [[[2#3; 1#3]; [1#4; 3#4]]; [[1#6; 5#6]; [1#7; 6#7]]])).
  do 2 eexists. split; [|split; [|split; [|split; [|split; [|split]]]]].
  - repeat constructor. solve_disjoint.
  - unfold demo_new. solve_reach.
  - eexists; reflexivity.
  - reflexivity.
  - reflexivity.
  - vm_compute. reflexivity.
  - vm_compute. discriminate.
Qed.
Print Assumptions C04_set_value_seen_refuted.

(** Overlapping clusters are a real restriction of C03: with an overlap at the first evaluation the
    cached likelihood goes wrong even though all changes are group-wise. *)
Theorem C03_overlap_needed_refuted : exists (M : mdl Q) (ops : list op) (s : sample Q),
  Forall disjoint_groups (m_conf M) /\
  reachable 0 1 M tracked_edit (fun _ => True) (fold_left (do_op 0 1 M) ops []) /\
  nth_error (fold_left (do_op 0 1 M) ops []) 0 = Some s /\
  disjoint_pars (s_pars s) /\
  snd (likelihood M true s) <> spec_likelihood M (s_pars s).
Proof.
  exists demo_model, [demo_new; OEdit 0 (EdClusters (EditGroup 1 (fun _ => [true; true; false])));
    OLik 0 true; OEdit 0 (EdClusters (EditGroup 1 (fun _ => [false; true; false])))].
  eexists. split; [|split; [|split; [|split]]].
  - repeat constructor. solve_disjoint.
  - unfold demo_new. solve_reach.
  - reflexivity.
  - unfold disjoint_pars; simpl. solve_disjoint.
  - vm_compute. discriminate.
Qed.
Print Assumptions C03_overlap_needed_refuted.

(** C06. All prior terms except the geo-prior equal the ones computed from scratch, in every state
    reachable by completed modifications (group-wise for confounding effects). *)
Theorem C06_cached_priors_fresh : forall (V : Type) (v0 v1 : V) (M : mdl V) ss i s caching,
  reachable v0 v1 M prior_edit (fun _ => True) ss -> nth_error ss i = Some s ->
  same_but_geo (snd (prior M caching s)) (spec_prior M (s_pars s)).
Proof. exact cached_prior_fresh. Qed.
Print Assumptions C06_cached_priors_fresh.

Definition demo_history_prior : list op :=
  demo_history ++ [OEdit 1 (EdClusters (Edit (fun _ => [[true; true; true]; [false; false; false]])))].
Example C06_case :
  reachable 0 1 demo_model prior_edit (fun _ => True) (fold_left (do_op 0 1 demo_model) demo_history_prior []) /\
  exists s, nth_error (fold_left (do_op 0 1 demo_model) demo_history_prior []) 1 = Some s /\
    Qred (t_size (snd (prior demo_model true s))) = 3 /\
    map (map Qred) (t_conf (snd (prior demo_model true s))) = [[2; 2]].
Proof.
  split.
  - unfold demo_history_prior, demo_history, demo_new. solve_reach.
  - eexists; split; [reflexivity|]. split; vm_compute; reflexivity.
Qed.

(** C07 is false: in a history as performed by a chain (copy, change of clusters, cached evaluation)
    the geo-prior returned is that of old clusters. *)
Theorem C07_geo_prior_follows_refuted : exists (M : mdl Q) (ops : list op) (s : sample Q),
  Forall chain_op ops /\
  reachable 0 1 M tracked_edit disjoint_pars (fold_left (do_op 0 1 M) ops []) /\
  nth_error (fold_left (do_op 0 1 M) ops []) 1 = Some s /\ disjoint_pars (s_pars s) /\
  ~ t_geo (snd (prior M true s)) == geo_fn M (v_value (clusters (s_pars s))).
Proof.
  exists demo_model, [demo_new; OPrior 0 true; OCopy 0;
                      OEdit 1 (EdClusters (EditGroup 0 (fun _ => [true; false; true])))].
  eexists. split; [|split; [|split; [|split]]].
  - repeat constructor.
  - unfold demo_new. solve_reach.
  - reflexivity.
  - unfold disjoint_pars; simpl. solve_disjoint.
  - vm_compute. discriminate.
Qed.
Print Assumptions C07_geo_prior_follows_refuted.

(** C07, what happens instead: after its first evaluation the geo-prior of a sample is frozen for the
    rest of the chain, whatever happens to the clusters. *)
Theorem C07_geo_prior_frozen : forall (V : Type) (v0 v1 : V) (M : mdl V) ss i s caching ops s',
  nth_error ss i = Some s -> Forall chain_op ops ->
  nth_error (fold_left (do_op v0 v1 M) ops (do_op v0 v1 M ss (OPrior i caching))) i = Some s' ->
  t_geo (snd (prior M true s')) = t_geo (snd (prior M caching s)).
Proof. exact geo_prior_frozen. Qed.
Print Assumptions C07_geo_prior_frozen.

(** C07, part that holds: evaluations without cache, or right after a clear, use the current clusters. *)
Theorem C07_geo_prior_follows_partial : forall (V : Type) (M : mdl V) (s : sample V),
  t_geo (snd (prior M false s)) = geo_fn M (v_value (clusters (s_pars s))) /\
  t_geo (snd (prior M true {| s_pars := s_pars s; s_cache := clear_cache (s_cache s) |}))
    = geo_fn M (v_value (clusters (s_pars s))).
Proof. intros V M s; exact (conj (geo_uncached M s) (geo_cleared M s)). Qed.
Print Assumptions C07_geo_prior_follows_partial.
