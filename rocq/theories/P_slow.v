(** Property theorems C87: the sampler's model and the reference implementation [model_slow.py]. *)
From Verif Require Import M_cache S_cache L_cache S_slow L_slow P_cache.
From Coq Require Import Lra.
Close Scope R_scope.
Close Scope Q_scope.
Open Scope nat_scope.

(** C87. In every history of the samples of one model (C03), the reference implementation computes the same
    likelihoods of the observations as the cached implementation. *)
Theorem C87_observations : forall features nf confs size_fn geo_fn ss i s caching,
  let M := uniform_model features nf confs size_fn geo_fn in
  Forall disjoint_groups confs ->
  reachable (Fin 0) (Fin 1) M tracked_edit disjoint_pars ss -> nth_error ss i = Some s ->
  disjoint_pars (s_pars s) ->
  get_observation_lhs (slow_components features nf confs (s_pars s)) (slow_weights features confs (s_pars s))
    (option_map (@v_value _) (source (s_pars s))) = snd (likelihood M caching s).
Proof.
  intros features nf confs size_fn geo_fn ss i s caching M DC R E D.
  rewrite (C03_cached_likelihood_fresh _ _ _ M ss i s caching DC R E D). unfold spec_likelihood.
  rewrite (@slow_components_fast features nf confs size_fn geo_fn); auto.
  assert (Q : Forall (sample_inv M true) ss).
  { eapply (@reachable_inv xf (Fin 0) (Fin 1) M true); [| |exact R]; auto. intros e T; split; auto. apply tracked_prior; auto. }
  rewrite Forall_forall in Q. apply (Q s); auto. eapply nth_error_In; eauto.
Qed.
Print Assumptions C87_observations.

(** C87, full statement: in every such history the reference implementation either fails its assertion and the
    cached implementation returns NaN, or both return the same log-posterior up to the constant density of the
    uniform distributions of the confounding effects.

    Missing: the geo-prior must be that of the current clusters, which the cached implementation does not
    guarantee (C07; see C87_refuted).  It is if the geo-prior is constant or the evaluation uncached (C87_geo). *)
Theorem C87_posterior_partial : forall features nf confs size_fn geo_fn lnB applicable ss i s caching,
  let M := uniform_model features nf confs size_fn geo_fn in
  Forall disjoint_groups confs -> length applicable = nf ->
  reachable (Fin 0) (Fin 1) M tracked_edit disjoint_pars ss -> nth_error ss i = Some s ->
  disjoint_pars (s_pars s) -> effects_fit nf (s_pars s) ->
  t_geo (snd (prior M caching s)) = geo_fn (v_value (clusters (s_pars s))) ->
  let fast := xadd (log_sum (snd (likelihood M caching s))) (log_prior (snd (prior M caching s))) in
  match slow_model features nf confs size_fn geo_fn lnB applicable (s_pars s) with
  | None => fast = NaN
  | Some x => x = xadd fast (Fin (uniform_density lnB applicable nf (number_of_groups confs)))
  end.
Proof. intros. eapply slow_is_fast; eauto. Qed.
Print Assumptions C87_posterior_partial.

(** C87. Hence the two implementations accept the same proposals. *)
Theorem C87_accept_partial : forall features nf confs size_fn geo_fn lnB applicable ss i j s s' c c' l l' q qb u,
  let M := uniform_model features nf confs size_fn geo_fn in
  let slow_lh := slow_likelihood features nf confs in
  let slow_pr := slow_prior size_fn geo_fn lnB applicable in
  Forall disjoint_groups confs -> length applicable = nf ->
  reachable (Fin 0) (Fin 1) M tracked_edit disjoint_pars ss ->
  nth_error ss i = Some s -> nth_error ss j = Some s' ->
  disjoint_pars (s_pars s) -> disjoint_pars (s_pars s') ->
  effects_fit nf (s_pars s) -> effects_fit nf (s_pars s') ->
  t_geo (snd (prior M c s)) = geo_fn (v_value (clusters (s_pars s))) ->
  t_geo (snd (prior M c' s')) = geo_fn (v_value (clusters (s_pars s'))) ->
  slow_lh (s_pars s) = Some l -> slow_lh (s_pars s') = Some l' ->
  accept l' l (slow_pr (s_pars s')) (slow_pr (s_pars s)) q qb u =
  accept (log_sum (snd (likelihood M c' s'))) (log_sum (snd (likelihood M c s)))
    (log_prior (snd (prior M c' s'))) (log_prior (snd (prior M c s))) q qb u.
Proof.
  intros features nf confs size_fn geo_fn lnB applicable ss i j s s' c c' l l' q qb u M slow_lh slow_pr
    DC A R E E' D D' F F' G G' L L'.
  pose proof (C87_posterior_partial features nf confs size_fn geo_fn lnB applicable ss i s c DC A R E D F G) as H.
  pose proof (C87_posterior_partial features nf confs size_fn geo_fn lnB applicable ss j s' c' DC A R E' D' F' G') as H'.
  unfold slow_model in H, H'. unfold slow_lh in L, L'. rewrite L in H. rewrite L' in H'.
  eapply accept_shift; eauto.
Qed.
Print Assumptions C87_accept_partial.

(** When the geo-prior hypothesis of the two theorems holds. *)
Theorem C87_geo : forall features nf confs size_fn geo_fn,
  let M := uniform_model features nf confs size_fn geo_fn in
  (forall s, t_geo (snd (prior M false s)) = geo_fn (v_value (clusters (s_pars s)))) /\
  ((forall cl, geo_fn cl = Fin 0) -> forall ss i s caching,
    reachable (Fin 0) (Fin 1) M tracked_edit disjoint_pars ss -> nth_error ss i = Some s ->
    t_geo (snd (prior M caching s)) = geo_fn (v_value (clusters (s_pars s)))).
Proof.
  intros features nf confs size_fn geo_fn M. split; [reflexivity|].
  intros HZ ss i s caching R E.
  assert (G : forall s, n_val (k_geo (s_cache s)) = Fin 0 ->
    forall c, n_val (k_geo (s_cache (fst (prior M c s)))) = Fin 0 /\ t_geo (snd (prior M c s)) = Fin 0).
  { intros s0 H c. rewrite prior_geo_node. unfold prior, eval_node. cbn [snd t_geo].
    change (ver_geo (s_pars s0)) with (@nil Z).
    destruct (c && negb (is_outdated (k_geo (s_cache s0)) [])); [split; exact H|split; apply HZ]. }
  rewrite HZ. apply G.
  assert (F : Forall (fun s => n_val (k_geo (s_cache s)) = Fin 0) ss).
  { clear E. induction R as [|ss o R IH _]; [constructor|].
    destruct o as [cl w ce cf src junk|k|k e|k c|k c|k]; cbn [do_op].
    - apply Forall_app; split; auto.
    - destruct (nth_error ss k) as [s0|] eqn:E; auto. apply Forall_app; split; auto. constructor; auto.
      rewrite Forall_forall in IH. apply (IH s0). eapply nth_error_In; eauto.
    - apply Forall_upd; auto.
    - apply Forall_upd; auto. intros s0 H. unfold likelihood. cbn [fst s_cache].
      match goal with |- context [update_weights ?c0 ?p ?k0] =>
        destruct (update_weights_other c0 p k0) as (_ & _ & -> & _) end.
      destruct c; exact H.
    - apply Forall_upd; auto. intros s0 H. apply G; auto.
    - apply Forall_upd; auto. }
  rewrite Forall_forall in F. apply F. eapply nth_error_In; eauto.
Qed.
Print Assumptions C87_geo.

(** A model with three objects, two features (one observation missing) and a confounder with two groups; the
    geo-prior forbids object 2 in cluster 0. *)
Definition slow_features : cube :=
  [[[true; false]; [false; true]]; [[false; true]; [false; false]]; [[true; false]; [true; false]]].
Definition slow_confs : list bmat := [[[true; true; false]; [false; false; true]]].
Definition slow_geo (cl : bmat) : xf := if nth 2 (nth 0 cl []) false then NInf else Fin 0.
Definition slow_demo (geo : bmat -> xf) : mdl xf := uniform_model slow_features 2 slow_confs (fun _ => Fin 0) geo.
Definition slow_new (src : option cube) : op :=
  ONew [[true; false; false]; [false; true; false]]
       [[1#2; 1#2]; [1#3; 2#3]]%Q
       [[[1#4; 3#4]; [1#5; 4#5]]; [[1#2; 1#2]; [1#10; 9#10]]]%Q
       [[[[1#3; 2#3]; [1#2; 1#2]]; [[1#6; 5#6]; [1#7; 6#7]]]]%Q
       src [[[]; []; []]; [[]; []; []]].
Definition slow_source : cube :=
  [[[true; false]; [false; true]]; [[true; false]; [false; true]]; [[false; true]; [false; true]]].
Definition slow_history (src : option cube) : list op :=
  [slow_new src; OPrior 0 true; OLik 0 true; OCopy 0;
   OEdit 1 (EdClusters (EditGroup 0 (fun _ => [true; false; true])))].
Definition slow_run (geo : bmat -> xf) (src : option cube) : list (sample xf) :=
  fold_left (do_op (Fin 0) (Fin 1) (slow_demo geo)) (slow_history src) [].

Lemma slow_run_reachable geo src :
  reachable (Fin 0) (Fin 1) (slow_demo geo) tracked_edit disjoint_pars (slow_run geo src).
Proof.
  unfold slow_run, slow_history, slow_new. cbn [fold_left].
  repeat apply reach_step; try apply reach_init; try exact I.
  - repeat constructor.
  - intros s H. cbn in H. injection H as <-. unfold disjoint_pars. cbn. solve_disjoint.
Qed.

Ltac compute_list :=
  match goal with |- _ _ ?l => let v := eval vm_compute in l in replace l with v by (vm_compute; reflexivity) end.

(** The likelihoods of the observations and the weights of the sources before and after the change. *)
Lemma slow_run_before geo src : exists s, nth_error (slow_run geo src) 0 = Some s /\
  v_value (clusters (s_pars s)) = [[true; false; false]; [false; true; false]] /\
  disjoint_pars (s_pars s) /\ effects_fit 2 (s_pars s) /\ source (s_pars s) = option_map (@new_pval _) src /\
  (src = None -> exists r, log_sum (snd (likelihood (slow_demo geo) true s)) = Fin r).
Proof.
  eexists. split; [reflexivity|]. split; [reflexivity|]. split; [unfold disjoint_pars; cbn; solve_disjoint|].
  split; [repeat constructor|]. split; [reflexivity|]. intros ->. apply log_sum_pos.
  compute_list. repeat (constructor; [eexists; split; [reflexivity|reflexivity]|]). constructor.
Qed.
Lemma slow_run_after geo src : exists s, nth_error (slow_run geo src) 1 = Some s /\
  v_value (clusters (s_pars s)) = [[true; false; true]; [false; true; false]] /\
  disjoint_pars (s_pars s) /\ effects_fit 2 (s_pars s) /\ source (s_pars s) = option_map (@new_pval _) src /\
  (src = None -> exists r, log_sum (snd (likelihood (slow_demo geo) true s)) = Fin r) /\
  (src = Some slow_source -> (exists r, log_sum (snd (likelihood (slow_demo geo) true s)) = Fin r) /\
     exists r, log_sum (source_weights (slow_weights slow_features slow_confs (s_pars s)) slow_source) = Fin r /\ (r < 0)%R).
Proof.
  eexists. split; [reflexivity|]. split; [reflexivity|]. split; [unfold disjoint_pars; cbn; solve_disjoint|].
  split; [repeat constructor|]. split; [reflexivity|]. split.
  - intros ->. apply log_sum_pos.
    compute_list. repeat (constructor; [eexists; split; [reflexivity|reflexivity]|]). constructor.
  - intros ->. split; [apply log_sum_pos|apply log_sum_neg].
    + compute_list. repeat (constructor; [eexists; split; [reflexivity|reflexivity]|]). constructor.
    + compute_list. repeat (constructor; [eexists; split; [reflexivity|split; [reflexivity|vm_compute; discriminate]]|]). constructor.
    + compute_list. left. eexists; split; reflexivity.
Qed.

(** C87_observations, C87_posterior_partial and C87_accept_partial: all hypotheses hold for the two samples of a
    chain that moves an object into a cluster, with sources and a uniform geo-prior, and the likelihood of the
    second is finite in the reference implementation. *)
Example C87_case : let geo := fun _ => Fin 0 in exists s s' r,
  Forall disjoint_groups slow_confs /\
  reachable (Fin 0) (Fin 1) (slow_demo geo) tracked_edit disjoint_pars (slow_run geo (Some slow_source)) /\
  nth_error (slow_run geo (Some slow_source)) 0 = Some s /\ nth_error (slow_run geo (Some slow_source)) 1 = Some s' /\
  v_value (clusters (s_pars s)) <> v_value (clusters (s_pars s')) /\
  disjoint_pars (s_pars s) /\ effects_fit 2 (s_pars s) /\
  disjoint_pars (s_pars s') /\ effects_fit 2 (s_pars s') /\
  t_geo (snd (prior (slow_demo geo) true s')) = geo (v_value (clusters (s_pars s'))) /\
  slow_likelihood slow_features 2 slow_confs (s_pars s') = Some (Fin r).
Proof.
  intros geo. destruct (slow_run_before geo (Some slow_source)) as (s & E & V & D & F & _ & _).
  destruct (slow_run_after geo (Some slow_source)) as (s' & E' & V' & D' & F' & S & _ & H).
  destruct (H eq_refl) as ((r1 & H1) & r2 & H2 & _).
  assert (DC : Forall disjoint_groups slow_confs) by (repeat constructor; solve_disjoint).
  pose proof (slow_run_reachable geo (Some slow_source)) as R.
  exists s, s', (r1 + r2)%R. repeat (split; [solve [auto | congruence]|]). split.
  - unfold slow_demo in *. eapply C87_geo; eauto.
  - unfold slow_likelihood.
    rewrite (C87_observations _ _ _ (fun _ => Fin 0) geo _ _ s' true DC R E' D').
    fold (slow_demo geo). rewrite S. cbn [option_map v_value new_pval]. rewrite H1, H2. reflexivity.
Qed.

(** C87 is false with a geo-prior that depends on the clusters: a proposal that the reference implementation
    rejects, because it moves an object where it cannot be, is accepted by the cached implementation. *)
Theorem C87_refuted : exists features nf confs size_fn geo_fn lnB applicable ops s s' l l' u,
  let M := uniform_model features nf confs size_fn geo_fn in
  let ss := fold_left (do_op (Fin 0) (Fin 1) M) ops [] in
  Forall disjoint_groups confs /\ length applicable = nf /\ Forall chain_op ops /\
  reachable (Fin 0) (Fin 1) M tracked_edit disjoint_pars ss /\
  nth_error ss 0 = Some s /\ nth_error ss 1 = Some s' /\
  disjoint_pars (s_pars s) /\ disjoint_pars (s_pars s') /\ effects_fit nf (s_pars s) /\ effects_fit nf (s_pars s') /\
  slow_likelihood features nf confs (s_pars s) = Some l /\ slow_likelihood features nf confs (s_pars s') = Some l' /\
  (0 < u < 1)%R /\
  accept l' l (slow_prior size_fn geo_fn lnB applicable (s_pars s')) (slow_prior size_fn geo_fn lnB applicable (s_pars s))
    (Fin 0) (Fin 0) u = Ok false /\
  accept (log_sum (snd (likelihood M true s'))) (log_sum (snd (likelihood M true s)))
    (log_prior (snd (prior M true s'))) (log_prior (snd (prior M true s))) (Fin 0) (Fin 0) u = Ok true.
Proof.
  destruct (slow_run_before slow_geo None) as (s & E & V & D & F & S & H).
  destruct (slow_run_after slow_geo None) as (s' & E' & V' & D' & F' & S' & H' & _).
  destruct (H eq_refl) as (r & Hr). destruct (H' eq_refl) as (r' & Hr').
  assert (DC : Forall disjoint_groups slow_confs) by (repeat constructor; solve_disjoint).
  pose proof (slow_run_reachable slow_geo None) as R.
  set (u := exp (- Rabs (r' - r) - 1)).
  exists slow_features, 2, slow_confs, (fun _ => Fin 0), slow_geo, (fun _ => 0%R), [[true; true]; [true; true]],
    (slow_history None), s, s', (Fin r), (Fin r'), u.
  cbv zeta. fold (slow_demo slow_geo). fold (slow_run slow_geo None).
  assert (U : (0 < u < 1)%R).
  { unfold u. split; [apply exp_pos|]. apply Rlt_le_trans with (exp 0).
    - apply exp_increasing. pose proof (Rabs_pos (r' - r)). lra.
    - rewrite exp_0. lra. }
  assert (L : forall i t x, nth_error (slow_run slow_geo None) i = Some t -> disjoint_pars (s_pars t) ->
    source (s_pars t) = None -> log_sum (snd (likelihood (slow_demo slow_geo) true t)) = Fin x ->
    slow_likelihood slow_features 2 slow_confs (s_pars t) = Some (Fin x)).
  { intros i t x Et Dt St Ht. unfold slow_likelihood.
    rewrite (C87_observations _ _ _ (fun _ => Fin 0) slow_geo _ _ t true DC R Et Dt).
    fold (slow_demo slow_geo). rewrite Ht, St. reflexivity. }
  assert (P : forall i t, nth_error (slow_run slow_geo None) i = Some t -> source (s_pars t) = None ->
    log_prior (snd (prior (slow_demo slow_geo) true t)) = xadd (Fin 0) (t_geo (snd (prior (slow_demo slow_geo) true t)))).
  { intros i t Et St. unfold slow_demo. rewrite fast_log_prior.
    - rewrite St, xadd_0_r. reflexivity.
    - eapply prior_correct with (ok := true).
      assert (Q : Forall (sample_inv (slow_demo slow_geo) true) (slow_run slow_geo None)).
      { eapply (@reachable_inv xf (Fin 0) (Fin 1) _ true); [| |exact R]; auto. intros e T; split; auto. apply tracked_prior; auto. }
      rewrite Forall_forall in Q. apply Q. eapply nth_error_In; eauto. }
  assert (G : t_geo (snd (prior (slow_demo slow_geo) true s)) = Fin 0 /\ t_geo (snd (prior (slow_demo slow_geo) true s')) = Fin 0).
  { cbn in E, E'. injection E as <-. injection E' as <-. split; reflexivity. }
  destruct G as [G G'].
  repeat (split; [solve [auto | repeat constructor | eauto]|]). split.
  - assert (K : exists k, xsum (map (fun e => Fin (slow_confounding_prior (fun _ => 0%R) [[true; true]; [true; true]] (v_value e)))
      (confounding_effects (s_pars s))) = Fin k /\ xsum (map (fun e => Fin (slow_confounding_prior (fun _ => 0%R)
      [[true; true]; [true; true]] (v_value e))) (confounding_effects (s_pars s'))) = Fin k).
    { cbn in E, E'. injection E as <-. injection E' as <-. eexists; split; reflexivity. }
    destruct K as (k & K & K'). unfold slow_prior. rewrite K, K', V, V'.
    unfold accept, math_log. cbn [is_ninf]. destruct (Rlt_dec 0 u) as [_|N]; [|lra]. reflexivity.
  - rewrite (P 0 s E S), (P 1 s' E' S'), G, G', Hr, Hr'.
    unfold accept, math_log. cbn [is_ninf]. destruct (Rlt_dec 0 u) as [_|N]; [|lra]. cbn [rbind].
    rewrite ratio_sum. unfold xsub. cbn [xadd xopp xlt].
    match goal with |- context [Rlt_dec ?a ?b] => destruct (Rlt_dec a b) as [_|N]; [reflexivity|] end.
    exfalso; apply N. unfold u. rewrite ln_exp. pose proof (Rle_abs (- (r' - r))) as B. rewrite Rabs_Ropp in B. lra.
Qed.
Print Assumptions C87_refuted.

(** C87: with sources the likelihoods alone are different functions, because the reference implementation counts
    the weights of the sources as part of the likelihood; so tempered likelihoods differ as well. *)
Theorem C87_likelihood_refuted : exists features nf confs size_fn geo_fn ops s l,
  let M := uniform_model features nf confs size_fn geo_fn in
  let ss := fold_left (do_op (Fin 0) (Fin 1) M) ops [] in
  Forall disjoint_groups confs /\ Forall chain_op ops /\
  reachable (Fin 0) (Fin 1) M tracked_edit disjoint_pars ss /\
  nth_error ss 1 = Some s /\ disjoint_pars (s_pars s) /\
  slow_likelihood features nf confs (s_pars s) = Some l /\
  xlt l (log_sum (snd (likelihood M true s))) = true.
Proof.
  set (geo := fun _ : bmat => Fin 0).
  destruct (slow_run_after geo (Some slow_source)) as (s & E & V & D & F & S & _ & H).
  destruct (H eq_refl) as ((r1 & H1) & r2 & H2 & L).
  assert (DC : Forall disjoint_groups slow_confs) by (repeat constructor; solve_disjoint).
  pose proof (slow_run_reachable geo (Some slow_source)) as R.
  exists slow_features, 2, slow_confs, (fun _ => Fin 0), geo, (slow_history (Some slow_source)), s, (Fin (r1 + r2)).
  cbv zeta. fold (slow_demo geo). fold (slow_run geo (Some slow_source)).
  repeat (split; [solve [auto | repeat constructor]|]). split.
  - unfold slow_likelihood.
    rewrite (C87_observations _ _ _ (fun _ => Fin 0) geo _ _ s true DC R E D).
    fold (slow_demo geo). rewrite S. cbn [option_map v_value new_pval]. rewrite H1, H2. reflexivity.
  - rewrite H1. cbn [xlt]. destruct (Rlt_dec (r1 + r2) r1); auto. exfalso; lra.
Qed.
Print Assumptions C87_likelihood_refuted.
