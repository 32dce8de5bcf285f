(** Lemmas for C100: the values from scratch are the log-densities of C95. *)
From Coq Require Import Lra.
From Verif Require Import M_source M_conj M_gweights S_model S_operators S_source S_params S_mcmc S_honest S_gsource S_ergodic S_collapsed
  S_sampler S_progress P_conj P_gweights L_model L_cache L_operators L_source L_params L_balance L_honest L_honest2 L_gsource L_gsource2 L_collapsed L_sampler L_progress S_joint L_joint L_joint2
  L_tracked L_tracked2 S_program.
From Verif Require Import M_dist M_operators.
Set Implicit Arguments.
Unset Strict Implicit.
Open Scope R_scope.

(** * Sums of logarithms *)
Lemma np_log_xln (q : Q) : (0 <= q)%Q -> M_lhlog.np_log (Some q) = xln (Q2R q).
Proof.
  intros H. unfold M_lhlog.np_log, xln. destruct (Qlt_le_dec 0 q) as [L|L].
  - destruct (Rlt_dec 0 (Q2R q)) as [_|N]; [reflexivity|]. exfalso. apply N. apply Q2R_pos. auto.
  - assert (E : (q == 0)%Q) by (apply Qle_antisym; auto). rewrite (proj2 (Qeq_bool_iff q 0) E).
    destruct (Rlt_dec 0 (Q2R q)) as [N|_]; [|reflexivity]. exfalso. apply Qeq_eqR in E. rewrite RMicromega.Q2R_0 in E. lra.
Qed.
Lemma xln_mult a b : 0 <= a -> 0 <= b -> xadd (xln a) (xln b) = xln (a * b).
Proof.
  intros Ha Hb. unfold xln. destruct (Rlt_dec 0 a) as [A|A], (Rlt_dec 0 b) as [B|B]; cbn [xadd].
  - destruct (Rlt_dec 0 (a * b)) as [_|N]; [rewrite ln_mult by auto; reflexivity|]. exfalso. apply N. apply Rmult_lt_0_compat; auto.
  - replace b with 0 by lra. rewrite Rmult_0_r. destruct (Rlt_dec 0 0); [lra|reflexivity].
  - replace a with 0 by lra. rewrite Rmult_0_l. destruct (Rlt_dec 0 0); [lra|reflexivity].
  - replace a with 0 by lra. rewrite Rmult_0_l. destruct (Rlt_dec 0 0); [lra|reflexivity].
Qed.
Lemma log_sum_oprod l : forall q, oprod l = Some q -> (forall v, In (Some v) l -> (0 <= v)%Q) -> log_sum l = xln (Q2R q).
Proof.
  unfold oprod. induction l as [|[v|] l IH]; cbn [S_model.all_some option_map]; intros q H Hl.
  - injection H as <-. match goal with |- _ = xln (Q2R ?x) => assert (E : Q2R x = 1) by exact RMicromega.Q2R_1; rewrite E end. unfold xln. destruct (Rlt_dec 0 1); [|lra]. rewrite ln_1. reflexivity.
  - destruct (S_model.all_some l) as [l'|] eqn:E; [|discriminate]. cbn [option_map] in H. injection H as <-. change (Qprod (v :: l')) with (v * Qprod l')%Q.
    change (log_sum (Some v :: l)) with (xadd (M_lhlog.np_log (Some v)) (log_sum l)). cbn [option_map] in IH. rewrite (IH (Qprod l')) by (auto; intros w Hw; apply Hl; right; auto).
    assert (Hv : (0 <= v)%Q) by (apply Hl; left; auto). rewrite np_log_xln by auto. rewrite Q2R_mult. apply xln_mult.
    + apply Qle_Rle in Hv. rewrite RMicromega.Q2R_0 in Hv. auto.
    + assert (N : (0 <= Qprod l')%Q). { apply (@oprod_nonneg l); [unfold oprod; rewrite E; reflexivity|]. intros w Hw. apply Hl. right. auto. }
      apply Qle_Rle in N. rewrite RMicromega.Q2R_0 in N. auto.
  - discriminate.
Qed.
Lemma xln_dens x : log_density x -> xln (dens x) = x.
Proof.
  destruct x; cbn; try contradiction; intros _.
  - unfold xln. destruct (Rlt_dec 0 (exp r)) as [_|N]; [rewrite ln_exp; reflexivity|]. exfalso. apply N, exp_pos.
  - unfold xln. destruct (Rlt_dec 0 0); [lra|reflexivity].
Qed.
Lemma dens_nonneg x : 0 <= dens x.
Proof. destruct x; cbn; try lra. left. apply exp_pos. Qed.
Lemma xln_exp a : xln (exp a) = Fin a.
Proof. exact (@xln_dens (Fin a) I). Qed.

Section Values.
Variable su : setup.
Variables (size geo : bmat -> xf).
Variable lnB : list R -> R.
Variable prs : nat -> nat -> effect_prior.
Hypothesis CS : complete_setup su.
Hypothesis Hsize : forall cl, log_density (size cl).
Notation M := (configured_model su size geo lnB prs).
Notation r0 := (by_size size).

Lemma configured_fits : fits su M.
Proof.
  constructor; try reflexivity. pose proof (co_conf CS) as [_ H]. eapply Forall_impl; [|exact H]. intros gs [_ D]. exact D.
Qed.
Lemma scratch_components s : valid_sample su s ->
  spec_components M (fresh_pars s) = component_lhs (env_of su (fs_params s)) (fs_clusters s).
Proof.
  intros V. unfold spec_components, component_lhs, fresh_pars. cbn [configured_model m_features m_nfeatures m_conf cluster_effect clusters confounding_effects new_pval v_value env_of e_ce e_cf e_conf].
  f_equal.
  - symmetry. apply component_scratch; [|apply V]. rewrite (vs_ce V). symmetry. apply (vs_shape V).
  - pose proof (vs_cf V) as L. pose proof (ft_disjoint configured_fits) as D. revert L D. generalize (su_conf su) (p_cf (fs_params s)).
    intros gs es L. induction L as [|e g es gs H L IH]; intros D; [reflexivity|]. inversion D; subst. cbn [map map2]. f_equal; [|apply IH; auto].
    symmetry. apply component_scratch; auto.
Qed.
Lemma scratch_weights s : spec_weights M (fresh_pars s) = state_weights (env_of su (fs_params s)) (fs_clusters s).
Proof. reflexivity. Qed.

Lemma source_lists s src : positive_sample su s -> fs_source s = Some src -> let e := env_of su (fs_params s) in
  (exists a, oprod (source_weights (state_weights e (fs_clusters s)) src) = Some a /\ (0 <= a)%Q) /\
  log_sum (source_weights (state_weights e (fs_clusters s)) src) = (match oprod (source_weights (state_weights e (fs_clusters s)) src) with Some q => xln (Q2R q) | None => NInf end) /\
  log_sum (source_lhs (component_lhs e (fs_clusters s)) src) = (match oprod (source_lhs (component_lhs e (fs_clusters s)) src) with Some q => xln (Q2R q) | None => NInf end).
Proof.
  intros PS Hs e. pose proof (env_positive CS PS) as P. pose proof (valid_good (proj1 PS)) as G. fold e in P, G.
  assert (Hk : length (e_ce e) = su_k su) by apply (proj1 PS). destruct (good_clusters Hk G) as [Hd Hl]. pose proof (good_valid Hk G Hs) as V.
  cbn [fs_cstate x_clusters] in Hd, Hl. unfold state_weights. rewrite (weights_W P Hd Hl).
  destruct (@source_prod (component_lhs e (fs_clusters s)) (W e (fs_clusters s)) (n_objects e) (e_nf e) (n_comps e) (W_length e (fs_clusters s)) (W_shape P Hd Hl) src V) as (a & b & Ha & Hb & _).
  assert (Na : forall v, In (Some v) (source_weights (map (map Some) (W e (fs_clusters s))) src) -> (0 <= v)%Q).
  { intros v Hv. unfold source_weights in Hv. apply in_map_iff in Hv as ([[o f] c] & Hv & _).
    destruct (nth f (nth o _ []) None) as [w|] eqn:E; [|discriminate]. injection Hv as <-.
    assert (Hw : Forall (fun q => (0 <= q)%Q) w).
    { destruct (Nat.lt_ge_cases o (n_objects e)) as [Ho|Ho].
      - unfold W in E. rewrite map_map, nth_map_seq in E by auto. rewrite map_map in E.
        destruct (Nat.lt_ge_cases f (e_nf e)) as [Hf|Hf].
        + rewrite nth_map_seq in E by auto. injection E as <-. apply wrow_nonneg; auto.
        + rewrite nth_overflow in E by (rewrite map_length, seq_length; auto). discriminate.
      - rewrite (nth_overflow (map _ _)) in E by (rewrite map_length, W_length; auto). destruct f; discriminate. }
    destruct (nth_in_or_default c w 0%Q) as [H| ->]; [|discriminate]. rewrite Forall_forall in Hw. auto. }
  assert (Nb : forall v, In (Some v) (source_lhs (component_lhs e (fs_clusters s)) src) -> (0 <= v)%Q).
  { intros v Hv. unfold source_lhs in Hv. apply in_map_iff in Hv as ([[o f] c] & [= <-] & Hp).
    destruct (in_positions V Hp) as [Ho Hf]. apply lh_nonneg; auto. }
  split; [|split].
  - exists a. split; auto. apply (oprod_nonneg Ha Na).
  - rewrite (log_sum_oprod Ha Na), Ha. reflexivity.
  - rewrite (log_sum_oprod Hb Nb), Hb. reflexivity.
Qed.
Lemma mixture_list s : positive_sample su s -> let e := env_of su (fs_params s) in
  log_sum (mixture_lhs (component_lhs e (fs_clusters s)) (state_weights e (fs_clusters s))) =
  match oprod (mixture_lhs (component_lhs e (fs_clusters s)) (state_weights e (fs_clusters s))) with Some q => xln (Q2R q) | None => NInf end.
Proof.
  intros PS e. pose proof (env_positive CS PS) as P. pose proof (valid_good (proj1 PS)) as G. fold e in P, G.
  assert (Hk : length (e_ce e) = su_k su) by apply (proj1 PS). destruct (good_clusters Hk G) as [Hd Hl].
  cbn [fs_cstate x_clusters] in Hd, Hl. unfold state_weights. rewrite (weights_W P Hd Hl).
  destruct (@mixture_prod (component_lhs e (fs_clusters s)) (W e (fs_clusters s)) (n_objects e) (e_nf e) (n_comps e)) as (m & Em & _); [apply W_length|apply W_shape; auto|].
  rewrite Em. apply (log_sum_oprod Em). intros v Hv. unfold mixture_lhs in Hv. apply in_concat in Hv as (l1 & H1 & Hv).
  apply In_nth_error in H1 as (o & H1). rewrite nth_error_mapi, nth_error_map in H1. destruct (nth_error (W e (fs_clusters s)) o) as [row|] eqn:Er; [|discriminate]. cbn [option_map] in H1. injection H1 as <-.
  apply In_nth_error in Hv as (f & Hv). rewrite nth_error_mapi, nth_error_map in Hv. destruct (nth_error row f) as [w|] eqn:Ew; [|discriminate]. cbn [option_map] in Hv. injection Hv as <-.
  assert (Ho : (o < n_objects e)%nat) by (rewrite <- (W_length e (fs_clusters s)); apply nth_error_Some; congruence).
  unfold W in Er. rewrite nth_error_map, (nth_error_nth' _ 0%nat) in Er by (rewrite seq_length; auto). rewrite seq_nth in Er by auto. cbn [option_map plus] in Er. injection Er as <-.
  assert (Hf : (f < e_nf e)%nat). { assert (N : (f < length (map (wrow e (fs_clusters s) o) (seq 0 (su_nf su))))%nat) by (apply nth_error_Some; rewrite Ew; discriminate). rewrite map_length, seq_length in N. exact N. }
  rewrite nth_error_map, (nth_error_nth' _ 0%nat) in Ew by (rewrite seq_length; exact Hf). rewrite seq_nth in Ew by exact Hf. cbn [option_map plus] in Ew. injection Ew as <-.
  pose proof (wrow_nonneg P Hd Hl Ho Hf) as N. apply L_model.Qsum_nonneg. apply Forall_forall. intros q Hq. apply In_nth_error in Hq as (c & Hc). rewrite nth_error_mapi in Hc.
  destruct (nth_error (wrow e (fs_clusters s) o f) c) as [x|] eqn:Ex; [|discriminate]. cbn [option_map] in Hc. injection Hc as <-.
  rewrite Forall_forall in N. apply Qmult_le_0_compat; [apply N; eapply nth_error_In; eauto|apply lh_nonneg; auto].
Qed.

Lemma ll_value s : positive_sample su s -> (if su_from_prior su then Fin 0 else scratch_ll M s) = full_ll su (fs_params s) (fs_cstate s).
Proof.
  intros PS. unfold full_ll, S_gsource.log_lh, log_mix. cbn [fs_cstate x_source x_clusters env_of e_from_prior].
  destruct (su_from_prior su) eqn:Ef; [destruct (fs_source s); reflexivity|].
  unfold scratch_ll, spec_likelihood. rewrite (scratch_components (proj1 PS)), scratch_weights.
  unfold get_observation_lhs. cbn [fresh_pars source]. destruct (fs_source s) as [src|] eqn:Es; cbn [option_map new_pval v_value].
  - apply (source_lists PS Es).
  - apply (mixture_list PS).
Qed.

(** The sum of the effect priors. *)
Lemma xsum_fin l : xsum (map Fin l) = Fin (M_conj.Rsum l).
Proof. induction l as [|x l IH]; [reflexivity|]. cbn [map]. change (xsum (Fin x :: map Fin l)) with (xadd (Fin x) (xsum (map Fin l))). rewrite IH. reflexivity. Qed.
Lemma conf_value s : xsum (map xsum (t_conf (spec_prior M (fresh_pars s)))) = Fin (log_prior_effects su lnB prs (fs_params s)).
Proof.
  unfold spec_prior, log_prior_effects. cbn [t_conf fresh_pars confounding_effects configured_model conf_fn]. rewrite <- xsum_fin. f_equal.
  apply nth_error_ext. intros k. rewrite !nth_error_map, !nth_error_mapi, !nth_error_map. destruct (nth_error (p_cf (fs_params s)) k) as [ps|]; [|reflexivity]. cbn [option_map new_pval v_value]. f_equal.
  rewrite <- xsum_fin. f_equal. apply nth_error_ext. intros g. rewrite !nth_error_map, !nth_error_mapi. destruct (nth_error ps g); reflexivity.
Qed.
Lemma prior_value s g : positive_sample su s -> prior_with M (Fin g) s = xadd (full_prior su lnB prs r0 (fs_params s) (fs_cstate s)) (Fin g).
Proof.
  intros PS. unfold prior_with, log_prior. cbn [t_size t_geo t_weights t_ce t_conf t_src]. rewrite conf_value.
  unfold spec_prior. cbn [t_size t_weights t_ce t_src configured_model size_fn weights_fn ce_fn src_fn fresh_pars clusters source new_pval v_value].
  rewrite scratch_weights. set (p := fs_params s). unfold full_prior, S_gsource.log_prior, log_cluster_prior. cbn [fs_cstate x_source x_clusters]. set (b := log_prior_effects su lnB prs p).
  assert (Ex : size (fs_clusters s) = xln (r0 (fs_clusters s))) by (unfold by_size; rewrite xln_dens by auto; reflexivity).
  assert (N : 0 <= r0 (fs_clusters s)) by apply dens_nonneg.
  assert (Ec : xln (r0 (fs_clusters s) * exp b) = xadd (xln (r0 (fs_clusters s))) (Fin b)).
  { rewrite <- (xln_exp b). symmetry. apply xln_mult; auto. left. apply exp_pos. }
  rewrite Ex. destruct (fs_source s) as [src|] eqn:Es; cbn [option_map new_pval v_value].
  - destruct (source_lists PS Es) as [(a & Ea & Na) [E1 _]]. cbv zeta in Ea, E1. fold p in Ea, E1. rewrite E1, Ea.
    apply Qle_Rle in Na. rewrite RMicromega.Q2R_0 in Na. rewrite <- xln_mult; auto.
    2:{ apply Rmult_le_pos; auto. left. apply exp_pos. }
    rewrite Ec. unfold xln. destruct (Rlt_dec 0 (Q2R a)), (Rlt_dec 0 (r0 (fs_clusters s))); cbn [xadd]; try reflexivity. f_equal. ring.
  - rewrite Ec. unfold xln. destruct (Rlt_dec 0 (r0 (fs_clusters s))); cbn [xadd]; try reflexivity. f_equal. ring.
Qed.
Lemma scratch_prior_value s g : positive_sample su s -> geo (fs_clusters s) = Fin g -> scratch_prior M s = xadd (full_prior su lnB prs r0 (fs_params s) (fs_cstate s)) (Fin g).
Proof.
  intros PS E. rewrite <- prior_value by auto. unfold scratch_prior, prior_with. f_equal. rewrite <- E. reflexivity.
Qed.
End Values.
