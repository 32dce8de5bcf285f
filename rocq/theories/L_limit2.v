(** Lemmas for C101: the random runs of the program converge to the posterior of clusters and sources. *)
From Coq Require Import Lra.
From Coq Require Lqa.
From Verif Require Import M_source M_conj M_gweights M_post S_model S_operators S_source S_params S_mcmc S_honest S_gsource S_ergodic S_collapsed
  S_sampler S_progress P_ergodic P_collapsed L_model L_operators L_source L_params L_balance L_honest L_honest2 L_gsource L_gsource2 L_collapsed L_doeblin L_reach3 L_averages L_averages2 L_sampler L_progress S_joint L_joint L_joint2
  L_tracked L_tracked2 L_tracked4 S_program L_program L_program2 L_program3 S_limit L_limit.
From Verif Require Import M_dist M_operators.
Set Implicit Arguments.
Unset Strict Implicit.
Open Scope R_scope.

Lemma finite_states su p x : valid_sample su (at_params p x) -> exists states, all_states su p states.
Proof.
  intros [_ _ _ V4 V5 V6 _]. destruct (su_source su) eqn:E.
  - destruct (good_src_finite (env_of su p) (su_k su)) as (states & Hn & Hs). exists states. split; [exact Hn|]. intros y. rewrite Hs. split.
    + intros [(G1 & G2 & G3 & G4) (c & Ec)]. constructor; auto; cbn [at_params fs_source fs_clusters]. rewrite Ec. split; auto.
      destruct y as [xc src]. cbn [x_source] in Ec. subst src. apply source_ok_one in G4. exact G4.
    + intros V. split; [exact (valid_good V)|]. destruct V as [_ _ _ _ _ _ V7]. cbn in V7. destruct (x_source y) as [c|]; [eauto|congruence].
  - destruct (good_none_finite (env_of su p) (su_k su)) as (states & Hn & Hs). exists states. split; [exact Hn|]. intros y. rewrite Hs. split.
    + intros [(G1 & G2 & G3 & G4) Ec]. constructor; auto; cbn [at_params fs_source fs_clusters]. rewrite Ec. exact E.
    + intros V. split; [exact (valid_good V)|]. destruct V as [_ _ _ _ _ _ V7]. cbn in V7. destruct (x_source y) as [c|]; [|reflexivity]. destruct V7. congruence.
Qed.

(** * Matrices that agree on the states *)
Lemma sampler_matrix_ext e moves ll prior ll' prior' states x y : (forall z, In z states -> ll z = ll' z /\ prior z = prior' z) -> In x states -> In y states ->
  sampler_matrix e moves ll prior states x y = sampler_matrix e moves ll' prior' states x y.
Proof.
  intros H Hx Hy. unfold sampler_matrix. apply Rsum_ext. intros [w m] _. f_equal. unfold move_matrix, matrix.
  assert (K : forall z, In z states -> kernel cstate_eq_dec 1 ll prior (move_props e m) x z = kernel cstate_eq_dec 1 ll' prior' (move_props e m) x z).
  { intros z Hz. unfold kernel. destruct (H x Hx) as [-> ->]. destruct (H z Hz) as [-> ->]. reflexivity. }
  destruct (cstate_eq_dec x y); [|apply K; auto]. f_equal. apply Rsum_ext. intros z Hz. destruct (cstate_eq_dec x z); auto.
Qed.
Lemma path_mean_ext T (P P' : T -> T -> R) states : (forall x y, In x states -> In y states -> P x y = P' x y) ->
  forall n x F, In x states -> path_mean P states n x F = path_mean P' states n x F.
Proof.
  intros H. induction n as [|n IH]; intros x F Hx; [reflexivity|]. cbn [path_mean]. apply Rsum_ext. intros y Hy. rewrite (H x y Hx Hy), (IH y _ Hy). reflexivity.
Qed.
Lemma nstep_ext T dec (P P' : T -> T -> R) states : (forall x y, In x states -> In y states -> P x y = P' x y) ->
  forall n x y, In x states -> nstep dec P states n x y = nstep dec P' states n x y.
Proof.
  intros H. induction n as [|n IH]; intros x y Hx; [reflexivity|]. cbn [nstep]. apply Rsum_ext. intros z Hz. rewrite (H x z Hx Hz), (IH z y Hz). reflexivity.
Qed.
(** The state after the last step. *)
Lemma path_last T (dec : forall x y : T, {x = y} + {x <> y}) (P : T -> T -> R) states y (o : T -> bool) : (forall z, o z = true <-> z = y) ->
  forall n x, path_mean P states n x (fun l => if o (last l x) then 1 else 0) = nstep dec P states n x y.
Proof.
  intros Ho. induction n as [|n IH]; intros x; cbn [path_mean nstep].
  - cbn [last]. destruct (dec x y) as [E|E].
    + rewrite (proj2 (Ho x) E). reflexivity.
    + destruct (o x) eqn:Eo; [|reflexivity]. apply Ho in Eo. contradiction.
  - apply Rsum_ext. intros z _. rewrite <- (IH z). f_equal. apply pm_ext. intros l _.
    replace (last (z :: l) x) with (last l z); [reflexivity|]. revert z. induction l as [|a l IHl]; intros z; [reflexivity|].
    cbn [last]. destruct l as [|b l]; [reflexivity|]. exact (IHl z).
Qed.

Section Fixed.
Variables (su : setup) (size geo : bmat -> xf) (lnB : list R -> R) (dpdf : list Q -> list Q -> R) (bpdf : R -> R -> R -> R) (prs : nat -> nat -> effect_prior).
Variable checks : bool.
Notation M := (configured_model su size geo lnB prs).
Notation r0 := (by_size size).
Hypothesis JS : joint_setting su dpdf prs r0.
Hypothesis Hsize : forall cl, exists r, size cl = Fin r.
Variables (names : list str) (cfg : operators_config) (probs : list R).
Hypothesis FP : fixed_parameters su cfg.
Hypothesis OP : operator_probs su names cfg probs.
Hypothesis Room : (su_k su * su_min su < su_n su)%nat.
Variables (pp : params) (states : list cstate) (xs : cstate).
Hypothesis Hst : all_states su pp states.
Hypothesis Hxs : positive_sample su (at_params pp xs).
Notation e := (env_of su pp).
Notation r1 := (fun cl => r0 cl * exp (log_prior_effects su lnB prs pp)).
Notation moves := (moves_of su probs).
Definition P0 := sampler_matrix e moves (full_ll su pp) (full_prior su lnB prs r0 pp) states.
Definition dens0 (x : cstate) : R := joint_density su lnB prs r0 (at_params pp x).

Lemma xs_env : positive_env e.
Proof. exact (@env_positive su (at_params pp xs) (js_setup JS) Hxs). Qed.
Lemma r1_pos cl : 0 < r1 cl.
Proof. apply Rmult_lt_0_compat; [|apply exp_pos]. unfold by_size. destruct (Hsize cl) as [r ->]. apply exp_pos. Qed.
Lemma moves_sources : su_source su = true -> moves = [(nth 0 probs 0, Cluster OpGibbsish); (nth 1 probs 0, Cluster OpGibbsish2); (nth 2 probs 0, Source)].
Proof.
  intros E. unfold moves_of, operators. rewrite E. cbn [app]. unfold mapi. cbn [mapi_from kind_move concat app].
  assert (G : forall (l : list bmat) i j, concat (mapi_from i (fun o k => match kind_move k with Some m => [(nth o probs 0, m)] | None => [] end) (mapi_from j (fun k (_ : bmat) => KGibbsEffect (Some k)) l)) = []).
  { induction l as [|a l IH]; intros i j; [reflexivity|]. cbn [mapi_from kind_move concat app]. apply IH. }
  rewrite G. reflexivity.
Qed.
Lemma moves_plain : su_source su = false -> moves = [(nth 0 probs 0, Cluster OpAlter)].
Proof.
  intros E. unfold moves_of, operators. rewrite E. cbn [app]. unfold mapi. cbn [mapi_from kind_move concat app].
  assert (G : forall (l : list bmat) i j, concat (mapi_from i (fun o k => match kind_move k with Some m => [(nth o probs 0, m)] | None => [] end) (mapi_from j (fun k (_ : bmat) => KAlterEffect (Some k)) l)) = []).
  { induction l as [|a l IH]; intros i j; [reflexivity|]. cbn [mapi_from kind_move concat app]. apply IH. }
  rewrite G. reflexivity.
Qed.
Lemma zero_sum r (l : list str) pre : (oc_confounding_effects cfg == 0)%Q ->
  (Qsum (map snd (map (fun k => (pre ++ k, (r * oc_confounding_effects cfg)%Q)) l)) == 0)%Q.
Proof. intros H. induction l as [|a l IH]; cbn [map Qsum fold_right snd]; [reflexivity|]. unfold Qsum in *. cbn [map fold_right snd]. rewrite IH, H. ring. Qed.
Lemma probs_sources : su_source su = true -> exists a b, 0 < a /\ 0 < b /\ a + a + b = 1 /\ nth 0 probs 0 = a /\ nth 1 probs 0 = a /\ nth 2 probs 0 = b.
Proof.
  intros E. destruct OP as (_ & ops & G & Ep). destruct FP as [F1 F2 F3 F4 F5]. rewrite E in F5, G.
  unfold M_post.get_operators, validate_operators, raw_operators in G. destruct (length names =? 0)%nat; [discriminate|].
  unfold normalize_operator_weights in G. match goal with H : (if Qeq_bool ?t 0 then _ else _) = _ |- _ => set (total := t) in *; destruct (Qeq_bool total 0); [discriminate|] end.
  assert (T : (total == oc_clusters cfg + oc_source cfg)%Q).
  { unfold total, operator_list. cbn [app map snd]. unfold Qsum. cbn [fold_right].
    pose proof (@zero_sum (1 / inject_Z (Z.of_nat (length names)))%Q names (s_ "gibbs_sample_confounding_effects_") F3) as Z. unfold Qsum in Z. rewrite Z, F1, F2. ring. }
  injection G as G. subst ops. unfold operator_list in Ep. cbn [app map] in Ep.
  assert (Tp : (0 < total)%Q) by (rewrite T; Lqa.lra).
  exists (Q2R ((1 # 2) * oc_clusters cfg / total)), (Q2R (oc_source cfg / total)). subst probs. cbn [nth].
  split; [|split; [|split; [|auto]]].
  - rewrite <- RMicromega.Q2R_0. apply Qlt_Rlt. apply Qlt_shift_div_l; auto. rewrite Qmult_0_l. Lqa.lra.
  - rewrite <- RMicromega.Q2R_0. apply Qlt_Rlt. apply Qlt_shift_div_l; auto. rewrite Qmult_0_l. auto.
  - rewrite <- !Q2R_plus. rewrite <- RMicromega.Q2R_1. apply Qeq_eqR. rewrite T. field. rewrite <- T. intros C. rewrite C in Tp. discriminate.
Qed.
Lemma probs_plain : su_source su = false -> nth 0 probs 0 = 1.
Proof.
  intros E. destruct OP as (_ & ops & G & Ep). destruct FP as [F1 F2 F3 F4 F5]. rewrite E in F5, G.
  unfold M_post.get_operators, validate_operators, raw_operators in G. destruct (length names =? 0)%nat; [discriminate|].
  unfold normalize_operator_weights in G. match goal with H : (if Qeq_bool ?t 0 then _ else _) = _ |- _ => set (total := t) in *; destruct (Qeq_bool total 0); [discriminate|] end.
  assert (T : (total == oc_clusters cfg)%Q).
  { unfold total, operator_list. cbn [app map snd oc_clusters oc_weights oc_cluster_effect oc_confounding_effects]. unfold Qsum. cbn [fold_right].
    pose proof (@zero_sum (1 / inject_Z (Z.of_nat (length names)))%Q names (s_ "alter_confounding_effects_") F3) as Z. unfold Qsum in Z. rewrite Z, F1, F2. ring. }
  injection G as G. subst ops. unfold operator_list in Ep. cbn [app map oc_clusters] in Ep. subst probs. cbn [nth].
  rewrite <- RMicromega.Q2R_1. apply Qeq_eqR. rewrite T. field. intros C. rewrite C in F4. discriminate.
Qed.

(** * The states of the two samplers *)
Lemma states_sources x : su_source su = true -> (In x states <-> good_src e (su_k su) x).
Proof.
  intros E. destruct Hst as [_ H]. rewrite H. destruct Hxs as [[_ _ _ V4 V5 V6 _] _]. split.
  - intros V. split; [exact (valid_good V)|]. destruct V as [_ _ _ _ _ _ V7]. cbn in V7. destruct (x_source x) as [c|]; [eauto|congruence].
  - intros [(G1 & G2 & G3 & G4) (c & Ec)]. constructor; auto; cbn [at_params fs_source fs_clusters]. rewrite Ec. split; auto.
    destruct x as [xc src]. cbn [x_source] in Ec. subst src. apply source_ok_one in G4. exact G4.
Qed.
Lemma states_plain x : su_source su = false -> (In x states <-> good_none e (su_k su) x).
Proof.
  intros E. destruct Hst as [_ H]. rewrite H. destruct Hxs as [[_ _ _ V4 V5 V6 _] _]. split.
  - intros V. split; [exact (valid_good V)|]. destruct V as [_ _ _ _ _ _ V7]. cbn in V7. destruct (x_source x) as [c|]; [|reflexivity]. destruct V7. congruence.
  - intros [(G1 & G2 & G3 & G4) Ec]. constructor; auto; cbn [at_params fs_source fs_clusters]. rewrite Ec. exact E.
Qed.
Lemma ce_length : length (e_ce e) = su_k su.
Proof. exact (vs_ce (proj1 Hxs)). Qed.
Lemma moves_ok : S_mcmc.Rsum (map fst moves) = 1 /\ forall w m, In (w, m) moves -> 0 <= w.
Proof.
  destruct (su_source su) eqn:E.
  - rewrite (moves_sources E). destruct (probs_sources E) as (a & b & Ha & Hb & Hs & -> & -> & ->). split; [unfold S_mcmc.Rsum; cbn; lra|].
    intros w m [H|[H|[H|[]]]]; injection H as <- _; lra.
  - rewrite (moves_plain E), (probs_plain E). split; [unfold S_mcmc.Rsum; cbn; lra|]. intros w m [H|[]]; injection H as <- _; lra.
Qed.
Lemma P0_stochastic : stochastic states P0.
Proof.
  destruct moves_ok as [H1 H2]. unfold P0. apply sampler_stochastic; auto; [|apply Hst]. exact (positive_valid xs_env (js_pconn JS)).
Qed.

Lemma converges_program : let Z := S_mcmc.Rsum (map dens0 states) in 0 < Z /\ (forall y, In y states -> 0 <= dens0 y) /\
  exists m d, (0 < m)%nat /\ 0 < d <= 1 /\ forall n x y, In x states -> In y states -> Rabs (nstep cstate_eq_dec P0 states n x y - dens0 y / Z) <= (1 - d) ^ (n / m).
Proof.
  cbv zeta. destruct Hst as [Hnd _]. pose proof (proj2 (proj2 Hst xs) (proj1 Hxs)) as Hx.
  destruct (su_source su) eqn:E.
  - assert (Ed : forall y, In y states -> dens0 y = S_gsource.posterior e r1 y).
    { intros y Hy. apply (states_sources y E) in Hy as [_ (c & Ec)]. unfold dens0, joint_density, data_density, S_gsource.posterior. cbn [fs_cstate at_params fs_params fs_clusters fs_source x_source x_clusters].
      rewrite Ec. replace (fs_cstate (at_params pp y)) with y by (destruct y; reflexivity). ring. }
    assert (Sc : full_schedule e moves).
    { destruct moves_ok as [M1 M2]. rewrite (moves_sources E) in *. destruct (probs_sources E) as (a & b & Ha & Hb & Hs & E0 & E1 & E2). rewrite E0, E1, E2 in *.
      split; [exact M1|]. split; [exact M2|]. split; [exists b; split; [right; right; left; reflexivity|auto]|]. exists a, OpGibbsish2. split; [right; left; reflexivity|split; [auto|exact I]]. }
    destruct (@C76_convergence e (su_k su) moves r1 states xs xs_env (js_pconn JS) ce_length E r1_pos Sc Room Hnd (fun x => states_sources x E)
       (proj1 (states_sources xs E) Hx)) as (HZ & (m & d & Hm & Hd & Conv) & (Sn & _) & _).
    assert (EZ : S_mcmc.Rsum (map dens0 states) = S_mcmc.Rsum (map (S_gsource.posterior e r1) states)) by (apply Rsum_ext; auto). rewrite EZ. set (Z0 := S_mcmc.Rsum (map (S_gsource.posterior e r1) states)) in *.
    split; [exact HZ|]. split.
    + intros y Hy. rewrite (Ed y Hy). specialize (Sn y Hy). cbv beta in Sn. apply Rmult_le_compat_r with (r := Z0) in Sn; [|lra]. unfold Rdiv in Sn. rewrite Rmult_assoc, Rinv_l, Rmult_0_l, Rmult_1_r in Sn by lra. exact Sn.
    + exists m, d. split; [exact Hm|]. split; [exact Hd|]. intros n x y Hx' Hy. rewrite (Ed y Hy).
      rewrite (@nstep_ext _ cstate_eq_dec P0 (sampler_matrix e moves (S_gsource.log_lh e) (S_gsource.log_prior e r1) states) states); auto.
      * apply Conv; apply states_sources; auto.
      * intros u v Hu Hv. apply sampler_matrix_ext; auto. intros z Hz. apply (states_sources z E) in Hz as [_ (c & Ec)]. unfold full_ll, full_prior. rewrite Ec. split; reflexivity.
  - assert (Ed : forall y, In y states -> dens0 y = collapsed e r1 (x_clusters y)).
    { intros y Hy. apply (states_plain y E) in Hy as [_ Ec]. unfold dens0, joint_density, data_density, collapsed. cbn [fs_cstate at_params fs_params fs_clusters fs_source x_source x_clusters].
      rewrite Ec. ring. }
    assert (Sc : cluster_schedule e moves).
    { destruct moves_ok as [M1 M2]. rewrite (moves_plain E), (probs_plain E) in *. pose proof (fp_source FP) as F5. rewrite E in F5.
      split; [exact M1|]. split; [exact M2|]. split; [intros w m [H|[]]; injection H as _ <-; discriminate|].
      exists 1, OpAlter. split; [left; reflexivity|]. split; [lra|exact F5]. }
    assert (Hk : (0 < su_k su)%nat) by (apply (co_valid (js_setup JS))).
    destruct (@C78_convergence e (su_k su) moves r1 states xs xs_env (js_pconn JS) ce_length Hk E r1_pos Sc Room Hnd (fun x => states_plain x E)
       (proj1 (states_plain xs E) Hx)) as (HZ & (m & d & Hm & Hd & Conv) & (Sn & _) & _).
    assert (EZ : S_mcmc.Rsum (map dens0 states) = S_mcmc.Rsum (map (fun y => collapsed e r1 (x_clusters y)) states)) by (apply Rsum_ext; auto). rewrite EZ. set (Z0 := S_mcmc.Rsum (map (fun y => collapsed e r1 (x_clusters y)) states)) in *.
    split; [exact HZ|]. split.
    + intros y Hy. rewrite (Ed y Hy). specialize (Sn y Hy). cbv beta in Sn. apply Rmult_le_compat_r with (r := Z0) in Sn; [|lra]. unfold Rdiv in Sn. rewrite Rmult_assoc, Rinv_l, Rmult_0_l, Rmult_1_r in Sn by lra. exact Sn.
    + exists m, d. split; [exact Hm|]. split; [exact Hd|]. intros n x y Hx' Hy. rewrite (Ed y Hy).
      rewrite (@nstep_ext _ cstate_eq_dec P0 (sampler_matrix e moves (log_mix e) (log_cluster_prior r1) states) states); auto.
      * apply Conv; apply states_plain; auto.
      * intros u v Hu Hv. apply sampler_matrix_ext; auto. intros z Hz. apply (states_plain z E) in Hz as [_ Ec]. unfold full_ll, full_prior. rewrite Ec. split; reflexivity.
Qed.
End Fixed.
