(** Property theorems C101: with fixed weights and effects, the random runs of the program with its caches and copies
    converge to the posterior of clusters and sources (without a geo-prior that depends on the clusters). *)
From Coq Require Import Lra.
From Verif Require Import M_source M_conj M_gweights M_post S_model S_operators S_source S_params S_mcmc S_honest S_gsource S_ergodic S_collapsed
  S_sampler S_progress P_ergodic P_collapsed L_balance L_collapsed L_gsource2 L_doeblin L_reach3 L_averages L_averages2 L_sampler L_progress S_joint L_joint P_sampler P_joint
  S_tracked L_tracked L_tracked2 L_tracked4 P_tracked S_program L_program L_program2 L_program3 P_program S_limit L_limit L_limit2.
From Verif Require Import M_dist M_operators.
Open Scope R_scope.

(** C101, the uniform draw: a step depends on it only through its side of the acceptance probability. *)
Theorem C101_uniform_draw : forall su M bpdf dpdf checks ch o c u, 0 < u < 1 ->
  let a := accept_prob su M bpdf dpdf checks ch o c in
  let step v := t_step (tracked_propose su M bpdf dpdf) (t_eval su M checks) ch {| td_op := o; td_choice := c; td_u := v |} in
  0 <= a <= 1 /\ (u < a -> step u = step (a / 2)) /\ (a <= u -> step u = step ((1 + a) / 2)).
Proof.
  intros su M bpdf dpdf checks ch o c u Hu a step.
  assert (Ha : 0 <= a <= 1).
  { unfold a, accept_prob. destruct (tracked_propose _ _ _ _ _ _ _) as [[cur r]|]; [|lra]. destruct (t_eval _ _ _ _ _) as [[[z ll] pr]| | |]; try lra. apply acc_unit. }
  split; [exact Ha|]. unfold step, t_step. cbn [td_op td_choice td_u]. unfold a, accept_prob in *.
  destruct (tracked_propose su M bpdf dpdf o c (content (c_obj ch))) as [[cur r]|]; [|split; reflexivity].
  destruct (t_eval su M checks (i_step (c_obj ch)) (res_content cur r)) as [[[z ll] pr]| | |]; cbn [ebind]; try (split; reflexivity).
  set (b := acc_prob 1 ll (c_ll ch) pr (c_prior ch) (res_q r) (res_q_back r)) in *.
  split; intros H.
  - rewrite !accept_below by (fold b; lra). reflexivity.
  - rewrite !accept_above by (fold b; lra). reflexivity.
Qed.
Print Assumptions C101_uniform_draw.

Lemma chains_length propose eval i draws sm sm' : @t_step_all tsample propose eval i draws sm = Done sm' -> length (chains sm') = length (chains sm).
Proof.
  unfold t_step_all. destruct (t_step_chains propose eval i draws 0 (chains sm) (statistics sm)) as [[chs st]| | |] eqn:E; cbn [ebind]; try discriminate.
  intros H. injection H as <-. cbn [chains]. revert E. generalize 0%nat at 1 as c. generalize (statistics sm) as st0. revert chs st.
  induction (chains sm) as [|ch l IH]; intros chs st st0 c E; cbn [t_step_chains] in E; [injection E as <- _; reflexivity|].
  destruct (t_step propose eval ch (draws c)) as [[ch' b]| | |]; cbn [ebind] in E; try discriminate.
  destruct (t_step_chains propose eval i draws (S c) l _) as [[rest st']| | |] eqn:Er; cbn [ebind] in E; try discriminate.
  injection E as <- _. cbn [length]. f_equal. eapply IH. exact Er.
Qed.
Lemma loop_samples su M bpdf dpdf checks n_steps n_samples draws : forall todo i sm log last sm' log' last', chains sm <> [] ->
  t_loop (tracked_propose su M bpdf dpdf) (t_eval su M checks) n_steps n_samples draws todo i sm log last = Done (sm', log', last') ->
  exists l, step_samples su M bpdf dpdf checks draws todo i sm = Some l /\ length l = todo /\
    map (fun '(_, o) => Some (view (content o))) log' = map (fun '(_, o) => Some (view (content o))) log ++ kept (fun j => every (steps_per_sample n_steps n_samples) (i + j)) l.
Proof.
  induction todo as [|todo IH]; intros i sm log last sm' log' last' Hc E.
  - cbn [t_loop] in E. injection E as _ <- _. exists []. split; [reflexivity|]. split; [reflexivity|]. cbn [kept]. rewrite app_nil_r. reflexivity.
  - cbn [t_loop] in E. cbn [step_samples]. destruct (t_step_all _ _ i (draws i) sm) as [sm1| | |] eqn:Es; cbn [ebind] in E; try discriminate.
    destruct (n_steps - 1 =? 0)%nat; [discriminate|]. cbv zeta in E.
    pose proof (chains_length _ _ _ _ _ _ Es) as L. assert (Hc1 : chains sm1 <> []) by (intros C; rewrite C in L; destruct (chains sm); [contradiction|discriminate]).
    destruct (IH _ _ _ _ _ _ _ Hc1 E) as (l & E1 & E2 & E3). exists (first_sample sm1 :: l). rewrite E1. split; [reflexivity|]. split; [cbn [length]; lia|].
    rewrite E3. cbn [kept]. rewrite Nat.add_0_r.
    assert (Ek : kept (fun j => every (steps_per_sample n_steps n_samples) (S i + j)) l = kept (fun j => every (steps_per_sample n_steps n_samples) (i + S j)) l)
      by (apply kept_ext; intros j _; f_equal; lia).
    rewrite Ek. unfold every at 2. unfold first_sample. destruct (chains sm1) as [|ch chs] eqn:Ec; [contradiction|]. cbn [nth_error option_map].
    destruct (i mod steps_per_sample n_steps n_samples =? 0)%nat; [|reflexivity]. rewrite map_app, <- app_assoc. reflexivity.
Qed.
(** C101, the log: the samples that a run logs are the samples after every [steps_per_sample]-th step. *)
Theorem C101_log : forall su M bpdf dpdf checks ss n_steps n_samples draws sm' log last, ss <> [] ->
  tracked_run su M bpdf dpdf checks ss n_steps n_samples draws = Done (sm', log, last) ->
  exists sm l, t_init (t_eval su M checks) (length (operators su)) ss = Done sm /\
    step_samples su M bpdf dpdf checks draws n_steps 0 sm = Some l /\ length l = n_steps /\
    map (fun '(_, o) => Some (view (content o))) log = kept (every (steps_per_sample n_steps n_samples)) l.
Proof.
  intros su M bpdf dpdf checks ss n_steps n_samples draws sm' log last Hs E. unfold tracked_run, t_generate_samples in E.
  destruct (t_init (t_eval su M checks) (length (operators su)) ss) as [sm| | |] eqn:Ei; cbn [ebind] in E; try discriminate.
  assert (Hc : chains sm <> []).
  { unfold t_init in Ei. destruct ss as [|s ss]; [contradiction|]. cbn [t_init_chains] in Ei. destruct (t_eval su M checks 0 s) as [[[x ll] pr]| | |]; cbn [ebind] in Ei; try discriminate.
    destruct (t_init_chains (t_eval su M checks) ss) as [chs| | |]; cbn [ebind] in Ei; try discriminate. injection Ei as <-. discriminate. }
  destruct (loop_samples _ _ _ _ _ _ _ _ _ _ _ _ _ _ _ _ Hc E) as (l & E1 & E2 & E3). exists sm, l. split; [reflexivity|]. split; [exact E1|]. split; [exact E2|exact E3].
Qed.
Print Assumptions C101_log.

(** C101, total probability: with fixed weights and effects no run raises an exception, and the probabilities of the
    random choices add up to 1. *)
Theorem C101_total : forall su size geo lnB dpdf bpdf prs checks names cfg probs g sm ch n i c, joint_setting su dpdf prs (by_size size) ->
  (forall cl, exists r, size cl = Fin r) -> let M := configured_model su size geo lnB prs in
  fixed_parameters su cfg -> operator_probs su names cfg probs ->
  chains sm = [ch] -> running su M g ch -> safe geo checks g ->
  program_mean su M bpdf dpdf checks probs n i sm (fun _ => c) = c.
Proof.
  intros su size geo lnB dpdf bpdf prs checks names cfg probs g sm ch n i c JS Hz M FP OP Ec R S.
  set (s := view (content (c_obj ch))). assert (Ev : s = at_params (fs_params s) (fs_cstate s)) by (destruct s; reflexivity).
  pose proof (ru_sample R) as PS. fold s in PS. rewrite Ev in PS.
  destruct (finite_states (proj1 PS)) as (states & St).
  assert (Hs : forall cl, log_density (size cl)) by (intros cl; destruct (Hz cl) as [r ->]; exact I).
  rewrite (@program_path su size geo lnB dpdf bpdf prs checks JS Hs probs g (fs_params s) states S St n i sm ch _ R Ec eq_refl).
  apply pm_const.
  - exact (P0_stochastic lnB JS FP OP St PS).
  - apply St. exact (proj1 PS).
Qed.
Print Assumptions C101_total.

Lemma last_map A B (f : A -> B) l d : last (map f l) (f d) = f (last l d).
Proof. induction l as [|a l IH]; [reflexivity|]. destruct l as [|b l]; [reflexivity|exact IH]. Qed.
Lemma last_default A (l : list A) d d' : l <> [] -> last l d = last l d'.
Proof. intros H. induction l as [|a l IH]; [contradiction|]. destruct l as [|b l]; [reflexivity|]. apply IH. discriminate. Qed.
Lemma kept_map A B (f : A -> B) l : forall log, kept log (map f l) = map f (kept log l).
Proof. induction l as [|a l IH]; intros log; [reflexivity|]. cbn [map kept]. destruct (log 0%nat); cbn [map]; rewrite IH; reflexivity. Qed.
Lemma program_nstep su size geo lnB dpdf bpdf prs checks probs g sm ch n i y states (JS : joint_setting su dpdf prs (by_size size)) (Hs : forall cl, log_density (size cl)) :
  let M := configured_model su size geo lnB prs in let p := fs_params (view (content (c_obj ch))) in
  chains sm = [ch] -> running su M g ch -> safe geo checks g -> all_states su p states -> (0 < n)%nat ->
  program_prob su M bpdf dpdf checks probs n i sm (ends_in y) = nstep cstate_eq_dec (P0 su size lnB prs probs p states) states n (fs_cstate (view (content (c_obj ch)))) y.
Proof.
  intros M p Ec R S St Hn. unfold program_prob.
  rewrite (@program_path su size geo lnB dpdf bpdf prs checks JS Hs probs g p states S St n i sm ch _ R Ec eq_refl). fold (P0 su size lnB prs probs p states).
  set (x := fs_cstate (view (content (c_obj ch)))).
  rewrite <- (@path_last _ cstate_eq_dec _ states y (fun z => if cstate_eq_dec z y then true else false)).
  - apply pm_ext. intros l Hl. unfold ends_in. rewrite (last_default _ _ None (Some (at_params p x))) by (destruct l; [cbn in Hl; lia|discriminate]).
    rewrite (last_map _ _ (fun z => Some (at_params p z)) l x). replace (fs_cstate (at_params p (last l x))) with (last l x) by (destruct (last l x); reflexivity). reflexivity.
  - intros z. destruct (cstate_eq_dec z y); split; auto; discriminate.
Qed.

(** C101, limit: for all settings, all fixed parameters and all chains of a run, the probability that the program ends with
    the clusters and sources [y] converges geometrically fast to their posterior probability without the geo-prior.
    Missing for the configured posterior: the geo-prior (C101_refuted). *)
Theorem C101_limit_partial : forall su size geo lnB dpdf bpdf prs checks names cfg probs s states, joint_setting su dpdf prs (by_size size) ->
  (forall cl, exists r, size cl = Fin r) -> let M := configured_model su size geo lnB prs in
  fixed_parameters su cfg -> operator_probs su names cfg probs -> (su_k su * su_min su < su_n su)%nat ->
  positive_sample su s -> all_states su (fs_params s) states ->
  let dens x := joint_density su lnB prs (by_size size) (at_params (fs_params s) x) in let Z := S_mcmc.Rsum (map dens states) in
  0 < Z /\ exists m d, (0 < m)%nat /\ 0 < d <= 1 /\
    forall sm ch g, chains sm = [ch] -> running su M g ch -> safe geo checks g -> fs_params (view (content (c_obj ch))) = fs_params s ->
    forall n i y, (0 < n)%nat -> In y states ->
      Rabs (program_prob su M bpdf dpdf checks probs n i sm (ends_in y) - dens y / Z) <= (1 - d) ^ (n / m).
Proof.
  intros su size geo lnB dpdf bpdf prs checks names cfg probs s states JS Hz M FP OP Room PS St dens Z.
  assert (Ev : s = at_params (fs_params s) (fs_cstate s)) by (destruct s; reflexivity). rewrite Ev in PS.
  assert (Hs : forall cl, log_density (size cl)) by (intros cl; destruct (Hz cl) as [r ->]; exact I).
  destruct (converges_program lnB JS Hz FP OP Room St PS) as (HZ & _ & m & d & Hm & Hd & Conv). split; [exact HZ|]. exists m, d. split; [exact Hm|]. split; [exact Hd|].
  intros sm ch g Ec R S Ep n i y Hn Hy. unfold M. rewrite <- Ep in St.
  rewrite (program_nstep su size geo lnB dpdf bpdf prs checks probs g sm ch n i y states JS Hs Ec R S St Hn). rewrite Ep in *. apply Conv; auto.
  apply St. rewrite <- Ep. pose proof (proj1 (ru_sample R)) as V. destruct (view (content (c_obj ch))). exact V.
Qed.
Print Assumptions C101_limit_partial.

(** The same for the configured posterior if the geo-prior is the same for all clusters (as with [UNIFORM]). *)
Theorem C101_constant : forall su size geo lnB dpdf bpdf prs checks names cfg probs s states g, joint_setting su dpdf prs (by_size size) ->
  (forall cl, exists r, size cl = Fin r) -> (forall cl, geo cl = Fin g) -> let M := configured_model su size geo lnB prs in
  fixed_parameters su cfg -> operator_probs su names cfg probs -> (su_k su * su_min su < su_n su)%nat ->
  positive_sample su s -> all_states su (fs_params s) states ->
  let dens x := joint_density su lnB prs (by_size_and_geo size geo) (at_params (fs_params s) x) in let Z := S_mcmc.Rsum (map dens states) in
  0 < Z /\ exists m d, (0 < m)%nat /\ 0 < d <= 1 /\
    forall sm ch, chains sm = [ch] -> running su M g ch -> fs_params (view (content (c_obj ch))) = fs_params s ->
    forall n i y, (0 < n)%nat -> In y states ->
      Rabs (program_prob su M bpdf dpdf checks probs n i sm (ends_in y) - dens y / Z) <= (1 - d) ^ (n / m).
Proof.
  intros su size geo lnB dpdf bpdf prs checks names cfg probs s states g JS Hz Hg M FP OP Room PS St dens Z.
  destruct (C101_limit_partial su size geo lnB dpdf bpdf prs checks names cfg probs s states JS Hz FP OP Room PS St) as (HZ & m & d & Hm & Hd & Conv).
  set (dens0 := fun x => joint_density su lnB prs (by_size size) (at_params (fs_params s) x)) in *.
  assert (J : forall x, dens x = exp g * dens0 x).
  { intros x. unfold dens, dens0, joint_density, by_size_and_geo, by_size. rewrite Hg. cbn [S_mcmc.dens]. ring. }
  assert (EZ : Z = exp g * S_mcmc.Rsum (map dens0 states)) by (unfold Z; rewrite <- Rsum_scal; apply Rsum_ext; intros; apply J).
  pose proof (exp_pos g) as Eg. split; [rewrite EZ; apply Rmult_lt_0_compat; auto|]. exists m, d. split; [exact Hm|]. split; [exact Hd|].
  intros sm ch Ec R Ep n i y Hn Hy. replace (dens y / Z) with (dens0 y / S_mcmc.Rsum (map dens0 states)).
  - apply (Conv sm ch g Ec R (or_intror Hg) Ep n i y Hn Hy).
  - rewrite J, EZ. field. lra.
Qed.
Print Assumptions C101_constant.

(** C101, averages: the average of a bounded function over the logged samples after a burn-in of [b] samples is close to its
    posterior expectation with high probability; the number of samples needed depends neither on the function nor on the
    start, the steps between samples, or the burn-in. *)
Theorem C101_averages_partial : forall su size geo lnB dpdf bpdf prs checks names cfg probs s states, joint_setting su dpdf prs (by_size size) ->
  (forall cl, exists r, size cl = Fin r) -> let M := configured_model su size geo lnB prs in
  fixed_parameters su cfg -> operator_probs su names cfg probs -> (su_k su * su_min su < su_n su)%nat ->
  positive_sample su s -> all_states su (fs_params s) states ->
  let dens x := joint_density su lnB prs (by_size size) (at_params (fs_params s) x) in
  let expectation f := S_mcmc.Rsum (map (fun x => dens x * f x) states) / S_mcmc.Rsum (map dens states) in
  forall eps eta, 0 < eps -> 0 < eta -> exists N, forall f, (forall x, In x states -> 0 <= f x <= 1) ->
    forall sm ch g, chains sm = [ch] -> running su M g ch -> safe geo checks g -> fs_params (view (content (c_obj ch))) = fs_params s ->
    forall samples every_s b, (0 < every_s)%nat -> (N + b <= samples)%nat ->
      program_prob su M bpdf dpdf checks probs (samples * every_s) 0 sm
        (fun l => far eps (average (of_state f) (skipn b (kept (every every_s) l))) (expectation f)) <= eta.
Proof.
  intros su size geo lnB dpdf bpdf prs checks names cfg probs s states JS Hz M FP OP Room PS St dens expectation eps eta He Ht.
  assert (Ev : s = at_params (fs_params s) (fs_cstate s)) by (destruct s; reflexivity). rewrite Ev in PS.
  assert (Hs : forall cl, log_density (size cl)) by (intros cl; destruct (Hz cl) as [r ->]; exact I).
  destruct (converges_program lnB JS Hz FP OP Room St PS) as (HZ & Hd0 & m & d & Hm & Hd & Conv).
  change (dens0 su size lnB prs (fs_params s)) with dens in *. set (Z := S_mcmc.Rsum (map dens states)) in *.
  destruct (@logged_consistent _ cstate_eq_dec states (proj1 St) (P0 su size lnB prs probs (fs_params s) states) (P0_stochastic lnB JS FP OP St PS)
     m d (fun y => dens y / Z) Hm Hd Conv) with (eps := eps) (eta := eta) as (N & HN); auto.
  { intros x Hx. apply Rmult_le_pos; [apply Hd0; auto|]. apply Rlt_le, Rinv_0_lt_compat. exact HZ. }
  { rewrite (@Rsum_ext _ _ (fun y => / Z * dens y)) by (intros; unfold Rdiv; ring). rewrite Rsum_scal. fold Z. field. lra. }
  exists N. intros f Hf sm ch g Ec R S Ep samples es b Hes Hle. unfold M. rewrite <- Ep in St. unfold program_prob.
  rewrite (@program_path su size geo lnB dpdf bpdf prs checks JS Hs probs g _ states S St _ 0%nat sm ch _ R Ec eq_refl). rewrite Ep in *.
  fold (P0 su size lnB prs probs (fs_params s) states).
  eapply Rle_trans; [|apply (HN f Hf (fs_cstate (view (content (c_obj ch)))) samples es b); auto].
  2:{ apply St. rewrite <- Ep. pose proof (proj1 (ru_sample R)) as V. destruct (view (content (c_obj ch))). exact V. }
  apply Req_le. unfold path_prob. apply pm_ext. intros l _. rewrite kept_map, skipn_map.
  assert (Ea : average (of_state f) (map (fun y => Some (at_params (fs_params s) y)) (skipn b (kept (every es) l))) = average f (skipn b (kept (every es) l))).
  { unfold average. rewrite map_length, map_map. f_equal. apply Rsum_ext. intros y _. unfold of_state. destruct y; reflexivity. }
  rewrite Ea. assert (Ex : expectation f = S_mcmc.Rsum (map (fun y => dens y / Z * f y) states)).
  { unfold expectation. fold Z. unfold Rdiv. rewrite Rmult_comm, <- Rsum_scal. apply Rsum_ext. intros y _. ring. }
  rewrite Ex. reflexivity.
Qed.
Print Assumptions C101_averages_partial.

(** The setting of C100 with frequency 0 for weights and effects: a run that starts with [pg_s]; its first chain and the
    probabilities of the operators meet the hypotheses, and two states of different clusters are possible. *)
Definition li_cfg : operators_config := {| oc_clusters := 2; oc_weights := 0; oc_cluster_effect := 0; oc_confounding_effects := 0; oc_source := 3 |}%Q.
Definition li_probs : list R := map (fun '(_, w) => Q2R w)
  (match M_post.get_operators true [[]] li_cfg with Some ops => ops | None => [] end).
Definition li_x (cl : bmat) (src : cube) : cstate := {| x_clusters := cl; x_source := Some src |}.
Opaque pg_s t_eval t_step tracked_warm_up.
Example C101_case : exists sm ch states, joint_setting (demo_su 1) demo_dpdf demo_prior (by_size pg_size) /\ (forall cl, exists r, pg_size cl = Fin r) /\
  fixed_parameters (demo_su 1) li_cfg /\ operator_probs (demo_su 1) [[]] li_cfg li_probs /\ li_probs = map Q2R [1 # 5; 1 # 5; 3 # 5; 0; 0; 0]%Q /\
  (su_k (demo_su 1) * su_min (demo_su 1) < su_n (demo_su 1))%nat /\ t_starts (demo_su 1) pg_M None pg_s /\
  tracked_warm_up (demo_su 1) pg_M tr_pdf demo_dpdf true [pg_s] 0 pg_draws = Done (best_sample (chains sm), sm) /\ chains sm = [ch] /\
  running (demo_su 1) pg_M 2 ch /\ safe (fun _ => Fin 2) true 2 /\ positive_sample (demo_su 1) demo_sample /\ view (content (c_obj ch)) = demo_sample /\
  all_states (demo_su 1) (fs_params demo_sample) states /\
  In (li_x [[true; false]] [[[true; false]]; [[false; true]]]) states /\ In (li_x [[false; true]] [[[false; true]]; [[true; false]]]) states.
Proof.
  assert (JS : joint_setting (demo_su 1) demo_dpdf demo_prior (by_size pg_size)) by (eapply any_size, demo_joint).
  destruct C100_case as (sm & ch & _ & _ & _ & _ & St & Vs & E & Ec & Sf & R & Vc & _).
  pose proof (ru_sample R) as PS. rewrite Vc in PS.
  destruct (@finite_states (demo_su 1) (fs_params demo_sample) (fs_cstate demo_sample)) as (states & Hst); [exact (proj1 PS)|].
  exists sm, ch, states. split; [exact JS|]. split; [intros cl; eexists; reflexivity|].
  split; [constructor; reflexivity|].
  split; [split; [reflexivity|]; eexists; split; reflexivity|].
  split.
  { unfold li_probs. match goal with |- map _ ?x = _ => remember x as ops eqn:Eo end. vm_compute in Eo. subst ops. cbn [map].
    repeat (apply f_equal2; [apply Qeq_eqR; reflexivity|]). reflexivity. }
  split; [cbn; lia|]. split; [exact St|]. split; [exact E|]. split; [exact Ec|]. split; [exact R|]. split; [exact Sf|]. split; [exact PS|]. split; [exact Vc|]. split; [exact Hst|].
  destruct PS as [[V1 V2 V3 V4 V5 V6 V7] _].
  assert (One : forall a b c d, (a = true /\ b = false \/ a = false /\ b = true) -> (c = true /\ d = false \/ c = false /\ d = true) -> one_source 2 1 2 [[[a; b]]; [[c; d]]]).
  { intros a b c d H1 H2. split; [reflexivity|]. intros o row Ho.
    assert (Hr : exists u v, row = [[u; v]] /\ (u = true /\ v = false \/ u = false /\ v = true)).
    { destruct o as [|[|o]]; cbn in Ho; try (destruct o; discriminate); injection Ho as <-; eauto. }
    destruct Hr as (u & v & -> & Hb). split; [reflexivity|]. intros [|[|f]] w Hw; cbn in Hw; try discriminate. injection Hw as <-. split; [reflexivity|].
    destruct Hb as [[-> ->]|[-> ->]]; [exists 0%nat|exists 1%nat]; (split; [reflexivity|]); intros [|[|[|k]]] Hk; cbn in Hk; try discriminate; try reflexivity. }
  split; apply Hst; (constructor; cbn [li_x at_params fs_clusters fs_params fs_source x_source x_clusters];
    [split; [reflexivity|repeat constructor]|apply one_disjoint|repeat constructor|exact V4|exact V5|exact V6|split; [reflexivity|apply One; auto]]).
Qed.
Transparent pg_s t_eval t_step tracked_warm_up.

(** C101, refuted with a geo-prior that depends on the clusters: the random runs do not converge to the configured
    posterior (without the assertions, which are also off after 1000 steps, and with the constant geo-prior they do). *)
Lemma limit_of u l m d : (0 < m)%nat -> 0 < d <= 1 -> (forall n, (0 < n)%nat -> Rabs (u n - l) <= (1 - d) ^ (n / m)) -> Un_cv u l.
Proof.
  intros Hm Hd H. intros eps He. destruct (pow_lt_1_zero (1 - d)) with (y := eps) as (N & HN); auto.
  { rewrite Rabs_pos_eq; lra. }
  exists (S (N * m)). intros n Hge. unfold R_dist. eapply Rle_lt_trans; [apply H; lia|].
  assert (Hle : (N <= n / m)%nat) by (apply Nat.div_le_lower_bound; lia).
  specialize (HN (n / m)%nat Hle). rewrite Rabs_pos_eq in HN; auto. apply pow_le. lra.
Qed.
Definition li_cfg0 : operators_config := {| oc_clusters := 1; oc_weights := 0; oc_cluster_effect := 0; oc_confounding_effects := 0; oc_source := 0 |}%Q.
Definition li_probs0 : list R := map (fun '(_, w) => Q2R w)
  (match M_post.get_operators false [[]] (validate_operators false li_cfg0) with Some ops => ops | None => [] end).
Opaque rf_s t_eval t_step tracked_warm_up.
Theorem C101_refuted : exists su size geo lnB dpdf bpdf prs names cfg probs s sm ch d states, joint_setting su dpdf prs (by_size size) /\
  (forall cl, exists r, size cl = Fin r) /\ (forall cl, exists r, geo cl = Fin r) /\
  let M := configured_model su size geo lnB prs in t_starts su M None s /\
  tracked_warm_up su M bpdf dpdf false [s] 0 (fun _ _ => d) = Done (best_sample (chains sm), sm) /\ chains sm = [ch] /\
  fixed_parameters su cfg /\ operator_probs su names cfg probs /\ (su_k su * su_min su < su_n su)%nat /\
  let p := fs_params (view s) in all_states su p states /\ positive_sample su (view s) /\
  let dens x := joint_density su lnB prs (by_size_and_geo size geo) (at_params p x) in let Z := S_mcmc.Rsum (map dens states) in 0 < Z /\
  ~ forall y, In y states -> Un_cv (fun n => program_prob su M bpdf dpdf false probs n 0 sm (ends_in y)) (dens y / Z).
Proof.
  pose proof rf_joint as JS. assert (Hz : forall cl, exists r, rf_size cl = Fin r) by (intros; eexists; reflexivity).
  assert (Hs : forall cl, log_density (rf_size cl)) by (intros; exact I).
  assert (Hgeo : forall cl, exists r, rf_geo cl = Fin r).
  { intros cl. unfold rf_geo. repeat match goal with |- context [match ?x with _ => _ end] => destruct x end; eauto. }
  set (d := {| td_op := 0; td_choice := CNth 0; td_u := 1 / 2 |}).
  destruct (C100_running (geo_su false) rf_size rf_geo (fun _ => 0) tr_dpdf tr_pdf rf_prior false None 1 [rf_s] 0 0 1 (fun _ _ => d) JS Hs I)
    as ((sm & E & L & Fi) & _ & _).
  { constructor; [exact rf_starts|constructor]. }
  { intros s _. destruct (Hgeo (fs_clusters (view s))) as [r Hr]. exists r. split; [exact Hr|left; reflexivity]. }
  { intros i c. split; [|exact I]. intros k Ek. cbn in Ek. injection Ek as <-. exact I. }
  fold rf_M in E, Fi. destruct (chains sm) as [|ch [|]] eqn:Ec; cbn in L; try lia. apply Forall_cons_iff in Fi as [(g & Sg & R) _].
  set (p := fs_params (geo_p [[true; false; false]])). set (x1 := rf_x [[true; false; false]]). set (x2 := rf_x [[true; true; false]]).
  assert (Vc : view (content (c_obj ch)) = geo_p [[true; false; false]]).
  { destruct (@t_starts_spec (geo_su false) rf_M rf_fits None 1%nat rf_s (geo_valid false) I rf_starts) as (_ & HP & _).
    rewrite <- rf_view. exact (init_view rf_fits HP E Ec). }
  destruct rf_positive as [PS1 PS2].
  destruct (@finite_states (geo_su false) p x1) as (states & Hst); [exact (proj1 PS1)|].
  assert (FP : fixed_parameters (geo_su false) li_cfg0) by (constructor; try reflexivity; cbn; split; [lia|reflexivity]).
  assert (OP : operator_probs (geo_su false) [[]] li_cfg0 li_probs0) by (split; [reflexivity|]; eexists; split; reflexivity).
  assert (Room : (su_k (geo_su false) * su_min (geo_su false) < su_n (geo_su false))%nat) by (cbn; lia).
  destruct (C101_limit_partial (geo_su false) rf_size rf_geo (fun _ => 0) tr_dpdf tr_pdf rf_prior false [[]] li_cfg0 li_probs0 (geo_p [[true; false; false]]) states JS Hz FP OP Room PS1 Hst)
    as (HZ & m & dd & Hm & Hd & Conv).
  fold rf_M in Conv. set (D := fun x => joint_density (geo_su false) (fun _ => 0) rf_prior (by_size rf_size) (at_params (fs_params (geo_p [[true; false; false]])) x)) in *.
  set (Z := S_mcmc.Rsum (map D states)) in *.
  exists (geo_su false), rf_size, rf_geo, (fun _ => 0), tr_dpdf, tr_pdf, rf_prior, [[]], li_cfg0, li_probs0, rf_s, sm, ch, d, states.
  split; [exact JS|]. split; [exact Hz|]. split; [exact Hgeo|]. cbv zeta. fold rf_M. split; [exact rf_starts|]. rewrite Ec. split; [exact E|]. split; [reflexivity|].
  split; [exact FP|]. split; [exact OP|]. split; [exact Room|]. rewrite rf_view. split; [exact Hst|]. split; [exact PS1|].
  set (D' := fun x => joint_density (geo_su false) (fun _ => 0) rf_prior (by_size_and_geo rf_size rf_geo) (at_params (fs_params (geo_p [[true; false; false]])) x)).
  assert (J1 : forall x, D' x = D x * dens (rf_geo (x_clusters x))).
  { intros x. unfold D, D', joint_density, by_size_and_geo, by_size. cbn [at_params fs_clusters]. ring. }
  assert (In1 : In x1 states) by (apply Hst; exact (proj1 PS1)). assert (In2 : In x2 states) by (apply Hst; exact (proj1 PS2)).
  assert (Pd : forall x, In x states -> 0 <= D x) by exact (proj1 (proj2 (converges_program (fun _ => 0) JS Hz FP OP Room (xs := x1) Hst PS1))).
  assert (Pos : forall cl, In cl [[[true; false; false]]; [[true; true; false]]] -> 0 < D (rf_x cl)).
  { intros cl Hc. unfold D, joint_density. apply Rmult_lt_0_compat; [|apply exp_pos]. apply Rmult_lt_0_compat; [|apply exp_pos].
    assert (Ed : Q2R (data_density (env_of (geo_su false) (fs_params (at_params (fs_params (geo_p [[true; false; false]])) (rf_x cl)))) (fs_cstate (at_params (fs_params (geo_p [[true; false; false]])) (rf_x cl)))) = 1).
    { rewrite <- RMicromega.Q2R_1. apply Qeq_eqR. destruct Hc as [<-|[<-|[]]]; vm_compute; reflexivity. }
    rewrite Ed. lra. }
  pose proof (Pos _ (or_introl eq_refl)) as P1. pose proof (Pos _ (or_intror (or_introl eq_refl))) as P2. fold x1 in P1. fold x2 in P2.
  split.
  { apply nonneg_sum with (x := x1); auto.
    - intros y Hy. change (0 <= D' y). rewrite J1. apply Rmult_le_pos; [apply Pd; auto|apply dens_nonneg].
    - change (0 < D' x1). rewrite J1. apply Rmult_lt_0_compat; auto. cbn. apply exp_pos. }
  intros Lim. change (forall y, In y states -> Un_cv (fun n => program_prob (geo_su false) rf_M tr_pdf tr_dpdf false li_probs0 n 0 sm (ends_in y)) (D' y / S_mcmc.Rsum (map D' states))) in Lim.
  assert (Same : forall y, In y states -> D' y / S_mcmc.Rsum (map D' states) = D y / Z).
  { intros y Hy. apply (UL_sequence _ _ _ (Lim y Hy)). apply (limit_of _ _ m dd Hm Hd). intros n Hn.
    apply (Conv sm ch g Ec R Sg); auto. rewrite Vc. reflexivity. }
  pose proof (Same x1 In1) as S1. pose proof (Same x2 In2) as S2. rewrite J1 in S1, S2. unfold x1, x2 in S1, S2. cbn [x_clusters rf_x rf_geo dens] in S1, S2. fold x1 in S1. fold x2 in S2.
  set (b := / S_mcmc.Rsum (map D' states)) in *. unfold Rdiv in S1, S2. fold b in S1, S2.
  assert (E1 : b = / Z).
  { rewrite exp_0, Rmult_1_r in S1. apply Rmult_eq_reg_l with (D x1); [exact S1|lra]. }
  assert (E2 : exp (-1) * b = / Z).
  { apply Rmult_eq_reg_l with (D x2); [rewrite <- Rmult_assoc; exact S2|lra]. }
  assert (Zp : 0 < / Z) by (apply Rinv_0_lt_compat; exact HZ).
  assert (E3 : exp (-1) < 1) by (rewrite <- exp_0; apply exp_increasing; lra). rewrite E1 in E2. nra.
Qed.
Print Assumptions C101_refuted.
Transparent rf_s t_eval t_step tracked_warm_up.

(** C101_log: the second run of C98_whole_case logs its three samples. *)
Example C101_log_case : exists sm log last, tracked_run (demo_su 1) tr_M tr_pdf tr_dpdf true [tr_s2] 3 3 tr_draws = Done (sm, log, last) /\ length log = 3%nat.
Proof. destruct C98_whole_case as (_ & _ & sm & log & last & _ & _ & E). exists sm, log, last. exact E. Qed.
