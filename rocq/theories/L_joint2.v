(** Lemmas for C95: values and detailed balance of the single moves. *)
From Coq Require Import Lra.
From Verif Require Import M_source M_conj M_gweights S_model S_operators S_source S_params S_mcmc S_honest S_gsource S_ergodic S_collapsed
  S_sampler S_progress P_conj P_gweights L_model L_operators L_source L_params L_balance L_honest L_honest2 L_gsource L_gsource2 L_collapsed L_sampler L_progress P_honest P_gsource S_joint L_joint.
Set Implicit Arguments.
Unset Strict Implicit.
Open Scope R_scope.

Section Joint.
Variable su : setup.
Variable lnB : list R -> R.
Variable dpdf : list Q -> list Q -> R.
Variable bpdf : R -> R -> R -> R.
Variable prs : nat -> nat -> effect_prior.
Variable r : bmat -> R.
Hypothesis JS : joint_setting su dpdf prs r.
Notation env p := (env_of su p).
Notation joint_ := (joint_density su lnB prs r).

Lemma scaled_nonneg p cl : 0 <= r cl * exp (log_prior_effects su lnB prs p).
Proof. apply Rmult_le_pos; [apply (js_prior JS)|left; apply exp_pos]. Qed.
Lemma full_ll_density p x : log_density (full_ll su p x).
Proof.
  unfold full_ll. destruct (x_source x); [apply log_lh_density|]. unfold log_mix. destruct (e_from_prior _); simpl; auto. destruct (oprod _); simpl; auto. apply xln_density.
Qed.
Lemma full_prior_density p x : log_density (full_prior su lnB prs r p x).
Proof. unfold full_prior. destruct (x_source x); [apply log_prior_density|apply xln_density]. Qed.
Lemma sample_value s : positive_sample su s ->
  target_density 1 (full_ll su (fs_params s)) (full_prior su lnB prs r (fs_params s)) (fs_cstate s) = joint_ s.
Proof.
  intros PS. pose proof (env_positive (js_setup JS) PS) as P. pose proof (valid_good (proj1 PS)) as G.
  assert (Hk : length (e_ce (env (fs_params s))) = su_k su) by apply (proj1 PS).
  unfold target_density. rewrite xscale_one. unfold joint_density, data_density, full_ll, full_prior. destruct (x_source (fs_cstate s)) as [src|] eqn:E.
  - assert (G' : good_src (env (fs_params s)) (su_k su) (fs_cstate s)) by (split; eauto).
    pose proof (@posterior_value _ _ (fun cl => r cl * exp (log_prior_effects su lnB prs (fs_params s))) _ P Hk (fun cl => scaled_nonneg (fs_params s) cl) G') as V.
    unfold target_density in V. rewrite xscale_one in V. rewrite V. unfold S_gsource.posterior. cbn [x_clusters fs_cstate]. ring.
  - rewrite (log_mix_finite P Hk G). unfold log_cluster_prior. rewrite dens_xln by apply scaled_nonneg. cbn [dens].
    rewrite exp_ln by (apply Q2R_pos; eapply mixture_positive; eauto). cbn [x_clusters fs_cstate]. ring.
Qed.
Lemma sample_value' s : positive_sample su s ->
  dens (full_ll su (fs_params s) (fs_cstate s)) * dens (full_prior su lnB prs r (fs_params s) (fs_cstate s)) = joint_ s.
Proof. intros PS. rewrite <- (sample_value PS). unfold target_density. rewrite xscale_one. reflexivity. Qed.

(** * Cluster and source operators *)
Lemma kernel_local T (dec : forall a b : T, {a = b} + {a <> b}) (ll ll' pr pr' : T -> xf) props x y :
  ll x = ll' x -> ll y = ll' y -> pr x = pr' x -> pr y = pr' y ->
  kernel dec 1 ll pr props x y = kernel dec 1 ll' pr' props x y.
Proof.
  intros H1 H2 H3 H4. unfold kernel. f_equal. apply map_ext. intros [out p]. rewrite H1, H2, H3, H4. reflexivity.
Qed.
Lemma discrete_balance m y s : positive_sample su s -> positive_sample su (target su (Discrete m y) s) ->
  joint_ s * density su lnB dpdf bpdf prs r (Discrete m y) s =
  joint_ (target su (Discrete m y) s) * density su lnB dpdf bpdf prs r (reverse su (Discrete m y) s) (target su (Discrete m y) s).
Proof.
  intros PS PS'. set (s' := target su (Discrete m y) s) in *. cbn [density reverse].
  assert (Ey : fs_cstate s' = y) by (destruct y; reflexivity). assert (Ep : fs_params s' = fs_params s) by reflexivity.
  rewrite Ey, Ep. pose proof (env_positive (js_setup JS) PS) as P. pose proof (valid_good (proj1 PS)) as G. pose proof (valid_good (proj1 PS')) as G'. rewrite Ey, Ep in G'.
  assert (Hk : length (e_ce (env (fs_params s))) = su_k su) by apply (proj1 PS).
  rewrite <- (sample_value PS), <- (sample_value PS'). rewrite Ey, Ep. set (p := fs_params s) in *. set (x := fs_cstate s) in *.
  assert (Hs : x_source y = None <-> x_source x = None).
  { pose proof (vs_source (proj1 PS)) as V. pose proof (vs_source (proj1 PS')) as V'. unfold x. cbn [fs_cstate x_source] in *. unfold s' in V'. cbn [target fs_source] in V'.
    destruct (fs_source s), (x_source y); split; intros; auto; try discriminate; try (destruct V; congruence); destruct V'; congruence. }
  set (r' := fun cl => r cl * exp (log_prior_effects su lnB prs p)). assert (Hr' : forall cl, 0 <= r' cl) by (intros cl; apply scaled_nonneg).
  destruct (x_source x) as [src|] eqn:Ex.
  - destruct (x_source y) as [src'|] eqn:Ey'; [|exfalso; destruct Hs as [Hs _]; specialize (Hs eq_refl); discriminate].
    assert (Gx : good_src (env p) (su_k su) x) by (split; eauto). assert (Gy : good_src (env p) (su_k su) y) by (split; eauto).
    assert (L : forall z w, x_source z = Some w -> full_ll su p z = S_gsource.log_lh (env p) z /\ full_prior su lnB prs r p z = S_gsource.log_prior (env p) r' z)
      by (intros z w Hz; unfold full_ll, full_prior; rewrite Hz; auto).
    destruct (L x _ Ex) as [L1 L2]. destruct (L y _ Ey') as [L3 L4].
    rewrite (@kernel_local _ cstate_eq_dec (full_ll su p) (S_gsource.log_lh (env p)) (full_prior su lnB prs r p) (S_gsource.log_prior (env p) r') _ x y) by auto.
    rewrite (@kernel_local _ cstate_eq_dec (full_ll su p) (S_gsource.log_lh (env p)) (full_prior su lnB prs r p) (S_gsource.log_prior (env p) r') _ y x) by auto.
    unfold target_density. rewrite L1, L2, L3, L4.
    apply (@move_balance (env p) (su_k su) P (js_pconn JS) Hk (S_gsource.log_lh (env p)) (S_gsource.log_prior (env p) r') r'); auto using log_lh_density, log_prior_density.
    intros z Hz. apply (posterior_value P Hk Hr' Hz).
  - assert (Ey' : x_source y = None) by (apply Hs; auto).
    destruct m as [o|].
    + apply (@C63_detailed_balance (env p) (su_k su) o 1 (full_ll su p) (full_prior su lnB prs r p) x y); auto.
      * apply positive_valid; auto. apply (js_pconn JS).
      * lra.
      * intros z. apply full_ll_density.
      * intros z. apply full_prior_density.
    + assert (K : forall z w, x_source z = None -> kernel cstate_eq_dec 1 (full_ll su p) (full_prior su lnB prs r p) (move_props (env p) Source) z w = 0).
      { intros z w Hz. unfold kernel, move_props. simpl run_move. unfold gibbs_source. rewrite Hz. simpl. lra. }
      rewrite !K by auto. lra.
Qed.

(** * Metropolis-Hastings steps *)
Lemma mh_balance ll ll' pr pr' q qb : log_density ll -> log_density ll' -> log_density pr -> log_density pr' ->
  dens ll * dens pr * (exp q * acc_prob 1 ll' ll pr' pr (Fin q) (Fin qb)) = dens ll' * dens pr' * (exp qb * acc_prob 1 ll ll' pr pr' (Fin qb) (Fin q)).
Proof.
  intros H1 H2 H3 H4. unfold acc_prob, metropolis_hastings_ratio. rewrite !xscale_one.
  destruct ll as [a| | |]; try contradiction; destruct ll' as [a'| | |]; try contradiction; destruct pr as [b| | |]; try contradiction; destruct pr' as [b'| | |]; try contradiction;
    cbn [is_ninf xsub xopp xadd dens]; try lra.
  replace (a' + - a + - (q + - qb) + (b' + - b)) with ((a' + b' + qb) - (a + b + q)) by ring.
  replace (a + - a' + - (qb + - q) + (b + - b')) with ((a + b + q) - (a' + b' + qb)) by ring.
  rewrite <- !Rmult_assoc, <- !exp_plus. apply exp_balance.
Qed.
Lemma proposal_balance s s' s'' row row' q qb : positive_sample su s -> positive_sample su s' -> same_sample s'' s ->
  joint_ s * proposal_density su lnB prs r s s' (Some (row, q, qb)) = joint_ s' * proposal_density su lnB prs r s' s'' (Some (row', qb, q)).
Proof.
  intros PS PS' (SP & Ec & Es). cbn [proposal_density]. replace (fs_cstate s'') with (fs_cstate s) by (unfold fs_cstate; congruence).
  rewrite (full_ll_eq su SP), (full_prior_eq su SP). rewrite <- (sample_value' PS), <- (sample_value' PS'). apply mh_balance; auto using full_ll_density, full_prior_density.
Qed.
End Joint.
