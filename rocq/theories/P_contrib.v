(** Property theorems C88: the contributions of single clusters in the parameter log (loggers.py:198-211). *)
From Coq Require Import Permutation.
From Verif Require Import M_cache S_cache L_state L_cache L_slow S_contrib L_contrib P_cache P_slow S_loggers.
Close Scope R_scope.
Close Scope Q_scope.
Open Scope nat_scope.

(** The clusters in the order of the log. *)
Definition log_order (perm : option (list nat)) (K : nat) : list nat := match perm with Some p => p | None => seq 0 K end.

(** C88. In every history of the samples of a model, the numbers logged for a cluster are the log-likelihood, the
    log-prior and their sum of the model with this cluster only and without sources, computed from the current
    parameters.  The caches of the sample do not matter (even a geo-prior that is out of date, C07). *)
Theorem C88_contributions : forall M ok_eval ss i s perm junk,
  Forall disjoint_groups (m_conf M) ->
  reachable (Fin 0) (Fin 1) M tracked_edit ok_eval ss -> nth_error ss i = Some s ->
  (forall k, junk_fits M (junk k)) ->
  let K := length (v_value (clusters (s_pars s))) in
  match perm with Some p => is_perm K p | None => True end ->
  log_contributions M perm junk s =
  map (fun k => let q := only_cluster k (s_pars s) in
                (log_lh M q, log_pr M q, xadd (log_lh M q) (log_pr M q))) (log_order perm K).
Proof.
  intros M ok_eval ss i s perm junk DC R E J K HP.
  pose proof (reachable_wf R) as W. rewrite Forall_forall in W. specialize (W s (nth_error_In _ _ E)). cbv beta in W.
  unfold log_contributions. fold K.
  assert (LP : length (log_order perm K) = K).
  { destruct perm as [p|]; cbn [log_order]; [|apply seq_length]. rewrite (Permutation_length HP). apply seq_length. }
  destruct (v_value (clusters (s_pars s))) as [|c cl] eqn:EC.
  - subst K. cbn [length] in *. destruct (log_order perm 0); [reflexivity|discriminate].
  - rewrite (@contribution_loop_correct M (s_pars s)); auto.
    + destruct perm as [p|]; cbn [apply_perm log_order] in *.
      * apply nth_error_ext. intros k. rewrite !nth_error_map.
        destruct (Nat.lt_ge_cases k K) as [L|L].
        2: { rewrite !(proj2 (nth_error_None _ _)); auto; rewrite ?seq_length; lia. }
        rewrite (nth_error_nth' _ 0) by (rewrite seq_length; auto).
        rewrite (nth_error_nth' p 0) by lia. rewrite seq_nth by auto. cbn [plus option_map].
        unfold only_cluster. rewrite EC.
        assert (N : forall A (l : list (list A)), nth k (permute [] p l) [] = nth (nth k p 0) l []).
        { intros A l. unfold permute. rewrite (nth_indep _ [] (nth 0 l [])) by (rewrite map_length; lia).
          apply (map_nth (fun i0 => nth i0 l [])). }
        rewrite (N bool). change (list (list Q)) with effect in N. pose proof (N (list Q) (v_value (cluster_effect (s_pars s)))) as N2.
        unfold effect in *. rewrite N2. reflexivity.
      * unfold only_cluster. rewrite EC. reflexivity.
    + congruence.
    + unfold fixed; cbn; auto.
Qed.
Print Assumptions C88_contributions.

(** C88. What these likelihoods are for one observation: that of the whole model (without sources) if the object
    is in the cluster or in no cluster at all, and that of the model without clusters if it is in another one. *)
Theorem C88_objects : forall V (M : mdl V) p i o f, disjoint_pars p ->
  (in_cluster p o i \/ (forall j, ~ in_cluster p o j) ->
   obs_lh M (only_cluster i p) o f = obs_lh M (all_clusters p) o f) /\
  (~ in_cluster p o i -> obs_lh M (only_cluster i p) o f = obs_lh M (no_clusters p) o f).
Proof.
  intros V M p i o f D. split.
  - intros [H|H]; apply obs_ext.
    + apply in_single; auto.
    + apply out_single; [apply H|]. apply group_of_none. intros j. specialize (H j). unfold in_cluster in H.
      destruct (nth o _ false); [exfalso; auto|reflexivity].
  - intros H. apply obs_ext, out_single; auto.
Qed.
Print Assumptions C88_objects.

(** C88. Hence the logged likelihoods add up to the log-likelihood of the whole model (without sources) and one
    log-likelihood of the model without clusters for every cluster but one. *)
Theorem C88_sum : forall M ok_eval ss i s perm junk,
  Forall disjoint_groups (m_conf M) ->
  reachable (Fin 0) (Fin 1) M tracked_edit ok_eval ss -> nth_error ss i = Some s ->
  (forall k, junk_fits M (junk k)) -> disjoint_pars (s_pars s) -> v_value (clusters (s_pars s)) <> [] ->
  let K := length (v_value (clusters (s_pars s))) in
  match perm with Some p => is_perm K p | None => True end ->
  xsum (map (fun x => fst (fst x)) (log_contributions M perm junk s)) =
  xadd (log_lh M (all_clusters (s_pars s))) (times (K - 1) (log_lh M (no_clusters (s_pars s)))).
Proof.
  intros M ok_eval ss i s perm junk DC R E J D NE K HP.
  rewrite (C88_contributions M ok_eval ss i s perm junk DC R E J HP), map_map. cbn [fst]. fold K.
  rewrite <- contributions_sum; auto. fold K.
  destruct perm as [p|]; cbn [log_order]; auto.
  assert (PS : forall l l', Permutation l l' -> xsum l = xsum l').
  { induction 1; auto; try congruence.
    - rewrite !xsum_cons. congruence.
    - rewrite !xsum_cons. apply xadd_swap. }
  apply PS, Permutation_map, HP.
Qed.
Print Assumptions C88_sum.

(** C88, full statement: with a single cluster and without sources, the contribution of the cluster is the
    likelihood and the prior of the sample that is logged in the same row.

    Missing: the geo-prior of the sample must be that of its clusters (C07; see C88_single_refuted). *)
Theorem C88_single_partial : forall M ss i s junk caching,
  Forall disjoint_groups (m_conf M) ->
  reachable (Fin 0) (Fin 1) M tracked_edit disjoint_pars ss -> nth_error ss i = Some s ->
  (forall k, junk_fits M (junk k)) ->
  length (v_value (clusters (s_pars s))) = 1 -> source (s_pars s) = None ->
  t_geo (snd (prior M caching s)) = geo_fn M (v_value (clusters (s_pars s))) ->
  let lh := log_sum (snd (likelihood M caching s)) in
  let pr := log_prior (snd (prior M caching s)) in
  log_contributions M None junk s = [(lh, pr, xadd lh pr)].
Proof.
  intros M ss i s junk caching DC R E J K S G lh pr.
  pose proof (reachable_wf R) as W. rewrite Forall_forall in W. specialize (W s (nth_error_In _ _ E)). cbv beta in W.
  destruct W as (_ & _ & Le & _). rewrite K in Le.
  rewrite (C88_contributions M disjoint_pars ss i s None junk DC R E J I). rewrite K. cbn [log_order seq map].
  destruct (v_value (clusters (s_pars s))) as [|c [|]] eqn:EC; try discriminate.
  destruct (v_value (cluster_effect (s_pars s))) as [|e [|]] eqn:EE; try discriminate.
  assert (Q : Forall (sample_inv M true) ss).
  { eapply (@reachable_inv xf (Fin 0) (Fin 1) M true); [| |exact R]; auto. intros x T; split; auto. apply tracked_prior; auto. }
  rewrite Forall_forall in Q. specialize (Q s (nth_error_In _ _ E)).
  assert (D : disjoint_pars (s_pars s)).
  { unfold disjoint_pars. rewrite EC. intros o a b Ha Hb. apply in_group_lt in Ha, Hb. simpl in Ha, Hb. lia. }
  assert (EL : log_lh M (only_cluster 0 (s_pars s)) = lh).
  { unfold log_lh, lh. f_equal. rewrite (C03_cached_likelihood_fresh _ _ _ M ss i s caching DC R E D).
    unfold spec_likelihood. rewrite S. unfold only_cluster, with_only, spec_components, spec_weights. cbn. rewrite EC, EE. reflexivity. }
  assert (EP : log_pr M (only_cluster 0 (s_pars s)) = pr).
  { unfold log_pr, pr. f_equal. destruct (prior_correct caching Q) as [(P1 & P2 & P3 & P4 & P5) _].
    destruct (snd (prior M caching s)) as [a b c0 d e0 f]. cbn in *. subst. unfold spec_prior. cbn. rewrite EC, EE, S. reflexivity. }
  rewrite EL, EP. reflexivity.
Qed.
Print Assumptions C88_single_partial.

(** A model with one cluster of slow_demo (P_slow); the history moves object 2 into the cluster. *)
Definition single_history : list op :=
  [ONew [[true; false; false]] [[1#2; 1#2]; [1#3; 2#3]]%Q [[[1#4; 3#4]; [1#5; 4#5]]]%Q
       [[[[1#3; 2#3]; [1#2; 1#2]]; [[1#6; 5#6]; [1#7; 6#7]]]]%Q None [[[]; []; []]; [[]; []; []]];
   OPrior 0 true; OLik 0 true; OCopy 0;
   OEdit 1 (EdClusters (EditGroup 0 (fun _ => [true; false; true])))].
Definition single_run (geo : bmat -> xf) : list (sample xf) :=
  fold_left (do_op (Fin 0) (Fin 1) (slow_demo geo)) single_history [].
Definition slow_junk (k : nat) : list lhmat := [[[7%Q]; []; []]; [[]; []; []]].

Lemma slow_junk_fits geo k : junk_fits (slow_demo geo) (slow_junk k).
Proof. split; [reflexivity|repeat constructor]. Qed.

Lemma single_run_reachable geo :
  reachable (Fin 0) (Fin 1) (slow_demo geo) tracked_edit disjoint_pars (single_run geo).
Proof.
  unfold single_run, single_history. cbn [fold_left].
  repeat apply reach_step; try apply reach_init; try exact I.
  - repeat constructor.
  - intros s H. cbn in H. injection H as <-. unfold disjoint_pars. cbn. solve_disjoint.
Qed.

Lemma slow_confs_disjoint : Forall disjoint_groups slow_confs.
Proof. repeat constructor; solve_disjoint. Qed.

(** C88_contributions and C88_sum with two clusters in swapped order: the likelihoods of the observations of the
    single clusters (object 2 is in the second cluster after the swap), of all clusters and of no cluster. *)
Example C88_case : let M := slow_demo slow_geo in exists s,
  Forall disjoint_groups (m_conf M) /\
  reachable (Fin 0) (Fin 1) M tracked_edit disjoint_pars (slow_run slow_geo (Some slow_source)) /\
  nth_error (slow_run slow_geo (Some slow_source)) 1 = Some s /\ (forall k, junk_fits M (slow_junk k)) /\
  disjoint_pars (s_pars s) /\ v_value (clusters (s_pars s)) = [[true; false; true]; [false; true; false]] /\
  is_perm 2 [1; 0] /\
  log_contributions M (Some [1; 0]) slow_junk s =
    [(log_lh M (only_cluster 1 (s_pars s)), log_pr M (only_cluster 1 (s_pars s)),
      xadd (log_lh M (only_cluster 1 (s_pars s))) (log_pr M (only_cluster 1 (s_pars s))));
     (log_lh M (only_cluster 0 (s_pars s)), log_pr M (only_cluster 0 (s_pars s)),
      xadd (log_lh M (only_cluster 0 (s_pars s))) (log_pr M (only_cluster 0 (s_pars s))))] /\
  map (option_map Qred) (spec_likelihood M (only_cluster 1 (s_pars s))) =
    map Some [1#3; 1#2; 7#12; 1; 1#6; 1#7]%Q /\
  map (option_map Qred) (spec_likelihood M (only_cluster 0 (s_pars s))) =
    map Some [7#24; 3#5; 2#3; 1; 5#24; 17#105]%Q /\
  map (option_map Qred) (spec_likelihood M (all_clusters (s_pars s))) =
    map Some [7#24; 3#5; 7#12; 1; 5#24; 17#105]%Q /\
  map (option_map Qred) (spec_likelihood M (no_clusters (s_pars s))) =
    map Some [1#3; 1#2; 2#3; 1; 1#6; 1#7]%Q.
Proof.
  intros M. destruct (slow_run_after slow_geo (Some slow_source)) as (s & E & V & D & _). exists s.
  assert (R := slow_run_reachable slow_geo (Some slow_source)).
  assert (P : is_perm 2 [1; 0]) by apply perm_swap.
  split; [exact slow_confs_disjoint|]. split; [exact R|]. split; [exact E|]. split; [apply slow_junk_fits|].
  split; [exact D|]. split; [exact V|]. split; [exact P|]. split.
  - pose proof (C88_contributions M disjoint_pars _ 1 s (Some [1; 0]) slow_junk slow_confs_disjoint R E (slow_junk_fits slow_geo)) as H.
    cbv zeta in H. rewrite V in H. exact (H P).
  - cbn in E. injection E as <-. repeat split; vm_compute; reflexivity.
Qed.

(** C88_objects: in the sample of C88_case object 0 is in cluster 0, object 1 in another one. *)
Example C88_objects_case : exists s, nth_error (slow_run slow_geo (Some slow_source)) 1 = Some s /\
  disjoint_pars (s_pars s) /\ in_cluster (s_pars s) 0 0 /\ ~ in_cluster (s_pars s) 1 0 /\ in_cluster (s_pars s) 1 1.
Proof.
  destruct (slow_run_after slow_geo (Some slow_source)) as (s & E & V & D & _). exists s.
  unfold in_cluster. rewrite V. repeat split; auto; discriminate.
Qed.

(** C88_single_partial with a geo-prior that does not depend on the clusters. *)
Example C88_single_case : let M := slow_demo (fun _ => Fin 0) in exists s,
  reachable (Fin 0) (Fin 1) M tracked_edit disjoint_pars (single_run (fun _ => Fin 0)) /\
  nth_error (single_run (fun _ => Fin 0)) 1 = Some s /\
  v_value (clusters (s_pars s)) = [[true; false; true]] /\ source (s_pars s) = None /\
  t_geo (snd (prior M true s)) = geo_fn M (v_value (clusters (s_pars s))).
Proof.
  intros M. eexists. split; [apply single_run_reachable|]. split; [reflexivity|]. repeat split; reflexivity.
Qed.

(** C88_single is false with a geo-prior that depends on the clusters: the prior logged for the only cluster is
    not the prior logged for the sample. *)
Theorem C88_single_refuted : exists M ops s junk,
  let ss := fold_left (do_op (Fin 0) (Fin 1) M) ops [] in
  Forall disjoint_groups (m_conf M) /\ Forall chain_op ops /\
  reachable (Fin 0) (Fin 1) M tracked_edit disjoint_pars ss /\ nth_error ss 1 = Some s /\
  (forall k, junk_fits M (junk k)) /\
  length (v_value (clusters (s_pars s))) = 1 /\ source (s_pars s) = None /\
  exists lh pr po, log_contributions M None junk s = [(lh, pr, po)] /\ pr <> log_prior (snd (prior M true s)).
Proof.
  exists (slow_demo slow_geo), single_history.
  destruct (nth_error (single_run slow_geo) 1) as [s|] eqn:E; [|discriminate].
  exists s, slow_junk. cbv zeta. fold (single_run slow_geo).
  assert (R := single_run_reachable slow_geo).
  assert (F : v_value (clusters (s_pars s)) = [[true; false; true]] /\ source (s_pars s) = None /\
    exists r, log_prior (snd (prior (slow_demo slow_geo) true s)) = Fin r).
  { cbn in E. injection E as <-. repeat split. eexists. reflexivity. }
  destruct F as (V & S & r & P).
  split; [exact slow_confs_disjoint|]. split; [repeat constructor|]. split; [exact R|]. split; [exact E|].
  split; [apply slow_junk_fits|]. split; [rewrite V; reflexivity|]. split; [exact S|].
  do 3 eexists. split.
  - pose proof (C88_contributions (slow_demo slow_geo) disjoint_pars _ 1 s None slow_junk slow_confs_disjoint R E (slow_junk_fits slow_geo) I) as H.
    cbv zeta in H. rewrite V in H. exact H.
  - rewrite P. unfold log_pr, log_prior, spec_prior, only_cluster, with_only. cbn. rewrite V. cbn.
    destruct (fold_right _ _ _); discriminate.
Qed.
Print Assumptions C88_single_refuted.

(** C88. Logging disturbs no sample: whatever happened before ([ops]) and happens afterwards ([ops']), the values,
    versions and (unless whole arrays are replaced, C02) group versions of all samples are those of a program
    that does not log.  The copy made by the logger is the sample number [n]. *)
Theorem C88_isolated : forall (A : Type) (ops ops' : list (sop A)) s rows,
  let n := length (sys_samples (run ops)) in
  s < n ->
  let logged := ops ++ log_ops s n rows ++ map (@renumbered A n) ops' in
  without n (observe_values (run logged)) = observe_values (run (ops ++ ops')) /\
  (forallb (fun o => negb (is_set_value o)) (ops ++ ops') = true ->
   without n (observe (run logged)) = observe (run (ops ++ ops'))).
Proof.
  intros A ops ops' s rows n L logged.
  assert (N : n = length (spec_run ops)).
  { pose proof (f_equal (@length _) (samples_isolated ops)) as H. unfold observe_values, observe, spec_values in H.
    rewrite !map_length in H. exact H. }
  assert (H : without n (spec_run logged) = spec_run (ops ++ ops')).
  { unfold logged. rewrite N in *. apply log_isolated; auto. }
  split.
  - rewrite !samples_isolated. unfold spec_values. rewrite without_map, H. reflexivity.
  - intros F. rewrite !tracking_isolated; auto.
    + rewrite without_map, H. reflexivity.
    + unfold logged. rewrite forallb_app in F |- *. apply andb_prop in F as [F1 F2]. rewrite F1. cbn [andb].
      rewrite forallb_app. apply andb_true_intro. split.
      * unfold log_ops. cbn [forallb is_set_value negb andb]. clear. induction rows as [|[c e] rows IH]; auto.
      * clear - F2. induction ops' as [|o ops' IH]; auto. cbn [map forallb] in *. apply andb_prop in F2 as [F1 F2].
        rewrite IH by auto. rewrite andb_true_r. destruct o; auto.
Qed.
Print Assumptions C88_isolated.

(** Sample 0 (clusters, weights, cluster effect) is logged between two edits. *)
Example C88_isolated_case :
  let ops := [SNew [[1; 2]; [7]; [3; 4]]; SCopy 0; SParam 1 0 (EditGroup 0 (fun _ => 5))] in
  let ops' := [SParam 1 2 (EditGroup 1 (fun _ => 6)); SCopy 1] in
  length (sys_samples (run ops)) = 2 /\
  nth_error (observe_values (run (ops ++ log_ops 1 2 [(5, 3); (2, 4)] ++ map (@renumbered nat 2) ops'))) 2 =
    Some [Some ([2], 1%Z); Some ([7], 0%Z); Some ([4], 0%Z)] /\
  observe_values (run (ops ++ ops')) =
  [[Some ([1; 2], 0%Z); Some ([7], 0%Z); Some ([3; 4], 0%Z)];
   [Some ([5; 2], 1%Z); Some ([7], 0%Z); Some ([3; 6], 1%Z)];
   [Some ([5; 2], 1%Z); Some ([7], 0%Z); Some ([3; 6], 1%Z)]].
Proof. repeat split; reflexivity. Qed.
