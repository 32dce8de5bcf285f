(** Property theorems C78: the sampler without sources samples the clusters from the same distribution as the
    sampler with sources. *)
From Coq Require Import Reals Qreals Lra.
From Verif Require Import M_source S_model S_operators S_source S_mcmc S_honest S_gsource S_ergodic S_averages S_collapsed
  L_operators L_balance L_honest2 L_gsource2 L_doeblin L_reach1 L_reach2 L_reach3 L_reach4 L_averages L_averages2 L_collapsed P_operators P_source P_honest P_gsource P_ergodic P_averages.
Open Scope R_scope.

(** C78. The posterior of clusters and sources, summed over all source arrays, is the posterior of the clusters
    under the mixture likelihood. *)
Theorem C78_marginal : forall e k r states cl, positive_env e -> length (e_ce e) = k ->
  NoDup states -> (forall x, In x states <-> good_src e k x) -> good_none e k (alone cl) ->
  Rsum (map (fun y => if bmat_dec (x_clusters y) cl then posterior e r y else 0) states) = collapsed e r cl /\ (0 < mixture e cl)%Q.
Proof.
  intros e k r states cl P Hk Hn Hs [G _]. split; [apply (@marginal_sum e k r P Hk states cl Hn Hs G)|].
  apply (@mixture_positive e k P Hk (alone cl) G).
Qed.
Print Assumptions C78_marginal.

(** For all settings with positive weights and effects and at least one object more than the clusters need, all
    schedules with a capable cluster operator and all cluster priors without zeros: the chain of clusters without sources
    reaches every state from every state, and its distribution converges to the posterior geometrically fast. *)
Theorem C78_irreducible : forall e k moves r states x y, positive_env e -> (0 <= e_pconn e <= 1)%Q -> length (e_ce e) = k ->
  e_resample e = false -> (forall cl, 0 < r cl) -> cluster_schedule e moves -> (k * e_min e < n_objects e)%nat ->
  NoDup states -> (forall x, In x states <-> good_none e k x) -> good_none e k x -> good_none e k y ->
  exists n, 0 < nstep cstate_eq_dec (sampler_matrix e moves (log_mix e) (log_cluster_prior r) states) states n x y.
Proof.
  intros e k moves r states x y P Hp Hk Hres Hr Hf Hn Hnd Hs Gx Gy.
  apply (@none_irreducible e k moves (log_mix e) (log_cluster_prior r) states P Hp Hk Hres) with (x := x) (y := y); auto.
  intros z [Gz _]. rewrite (log_mix_finite P Hk Gz). unfold log_cluster_prior. rewrite xln_pos by auto. eauto.
Qed.
Print Assumptions C78_irreducible.
Theorem C78_convergence : forall e k moves r states x0, positive_env e -> (0 <= e_pconn e <= 1)%Q -> length (e_ce e) = k -> (0 < k)%nat ->
  e_resample e = false -> (forall cl, 0 < r cl) -> cluster_schedule e moves -> (k * e_min e < n_objects e)%nat ->
  NoDup states -> (forall x, In x states <-> good_none e k x) -> good_none e k x0 ->
  let P := sampler_matrix e moves (log_mix e) (log_cluster_prior r) states in
  let post y := collapsed e r (x_clusters y) in
  let Z := Rsum (map post states) in
  0 < Z /\
  (exists m d, (0 < m)%nat /\ 0 < d <= 1 /\ forall n x y, good_none e k x -> good_none e k y ->
     Rabs (nstep cstate_eq_dec P states n x y - post y / Z) <= (1 - d) ^ (n / m)) /\
  stationary_distribution P states (fun y => post y / Z) /\
  (forall nu, stationary_distribution P states nu -> forall y, good_none e k y -> nu y = post y / Z).
Proof.
  intros e k moves r states x0 Pe Hp Hk Hk0 Hres Hr Hf Hn Hnd Hs G0 P post Z.
  assert (Pos : forall y, In y states -> 0 < post y) by (intros y Hy; apply Hs in Hy as [Gy _]; apply (@collapsed_positive e k r Pe Hk Hr y Gy)).
  assert (HZ : 0 < Z).
  { apply Rlt_le_trans with (post x0); [apply Pos, Hs; auto|]. apply Rsum_term; [|apply Hs; auto]. intros b Hb. apply Rlt_le. auto. }
  assert (Sd : stationary_distribution P states (fun y => post y / Z)).
  { unfold stationary_distribution. conj.
    - intros x Hx. apply Rlt_le, Rdiv_lt_0_compat; auto.
    - rewrite (@Rsum_ext _ _ (fun y => / Z * post y)) by (intros; unfold Rdiv; ring). rewrite Rsum_scal. fold Z. field. lra.
    - intros y Hy. rewrite (@Rsum_ext _ _ (fun x => / Z * (post x * P x y))) by (intros; unfold Rdiv; ring).
      rewrite Rsum_scal. unfold P, post. rewrite (@none_stationary e k r Pe Hp Hk Hr moves states y Hf Hnd Hs); [unfold Rdiv; ring|apply Hs; auto]. }
  assert (St : stochastic states P) by (apply sampler_stochastic; auto; [apply (positive_valid Pe Hp)|apply Hf|apply Hf]).
  destruct (@none_loop e k moves (log_mix e) (log_cluster_prior r) states Pe Hp Hk Hf Hnd Hs x0 Hk0 G0) as (y0 & Gy0 & Loop).
  destruct (@converges _ cstate_eq_dec states Hnd P St y0 (fun y => post y / Z)) as (m & d & Hm & Hd & Conv & Uniq); auto.
  - apply Hs. auto.
  - intros x Hx. apply Hs in Hx. eapply C78_irreducible; eauto.
  - conj; auto.
    + exists m, d. conj; auto; try apply Hd. intros n x y Gx Gy. apply Conv; apply Hs; auto.
    + intros nu Hnu y Gy. apply Uniq; auto. apply Hs. auto.
Qed.
Print Assumptions C78_convergence.

Lemma rate_limit u l m d : (0 < m)%nat -> 0 < d <= 1 -> (forall n, Rabs (u n - l) <= (1 - d) ^ (n / m)) -> Un_cv u l.
Proof.
  intros Hm Hd H eps He. destruct (pow_lt_1_zero (1 - d)) with (y := eps) as (N & HN); auto.
  { rewrite Rabs_pos_eq; lra. }
  exists (N * m)%nat. intros n Hge. unfold R_dist. eapply Rle_lt_trans; [apply H|].
  assert (Hle : (N <= n / m)%nat) by (apply Nat.div_le_lower_bound; lia).
  specialize (HN (n / m)%nat Hle). rewrite Rabs_pos_eq in HN; auto. apply pow_le. lra.
Qed.
Lemma positive_resample b e : positive_env e -> positive_env (set_resample b e).
Proof. intros []. constructor; assumption. Qed.

(** Therefore both samplers visit the clusters with the same limiting probabilities, from all initial states and for all
    schedules of the two samplers. *)
Theorem C78_same_clusters : forall e k moves moves' r states states' x x' cl,
  let e1 := set_resample true e in let e0 := set_resample false e in
  positive_env e -> (0 <= e_pconn e <= 1)%Q -> length (e_ce e) = k -> (0 < k)%nat ->
  (forall cl, 0 < r cl) -> full_schedule e1 moves -> cluster_schedule e0 moves' -> (k * e_min e < n_objects e)%nat ->
  NoDup states -> (forall x, In x states <-> good_src e1 k x) -> NoDup states' -> (forall x, In x states' <-> good_none e0 k x) ->
  good_src e1 k x -> good_none e0 k x' -> good_none e0 k (alone cl) ->
  let p := collapsed e r cl / Rsum (map (fun y => collapsed e r (x_clusters y)) states') in
  0 < p <= 1 /\
  Un_cv (fun n => clusters_prob (sampler_matrix e1 moves (log_lh e1) (log_prior e1 r) states) states n x cl) p /\
  Un_cv (fun n => clusters_prob (sampler_matrix e0 moves' (log_mix e0) (log_cluster_prior r) states') states' n x' cl) p.
Proof.
  intros e k moves moves' r states states' x x' cl e1 e0 Pe Hp Hk Hk0 Hr Hf Hf' Hn Hnd Hs Hnd' Hs' Gx Gx' Gcl p.
  assert (P1 : positive_env e1) by (apply positive_resample; auto). assert (P0 : positive_env e0) by (apply positive_resample; auto).
  destruct (@C78_convergence e0 k moves' r states' x' P0 Hp Hk Hk0 eq_refl Hr Hf' Hn Hnd' Hs' Gx') as (HZ & (m & d & Hm & Hd & Conv) & _).
  change (fun y => collapsed e0 r (x_clusters y)) with (fun y => collapsed e r (x_clusters y)) in HZ.
  assert (Pos : forall y, In y states' -> 0 < collapsed e r (x_clusters y)).
  { intros y Hy. apply Hs' in Hy as [Gy _]. apply (@collapsed_positive e0 k r P0 Hk Hr y Gy). }
  assert (Hcl : In (alone cl) states') by (apply Hs'; auto).
  conj.
  - apply Rdiv_lt_0_compat; auto. apply (Pos _ Hcl).
  - apply Rmult_le_reg_r with (Rsum (map (fun y => collapsed e r (x_clusters y)) states')); auto. unfold p, Rdiv. rewrite Rmult_assoc, Rinv_l by lra. rewrite Rmult_1_r, Rmult_1_l.
    apply (@Rsum_term _ (fun y => collapsed e r (x_clusters y)) states' (alone cl)); auto. intros b Hb. apply Rlt_le. auto.
  - assert (E : p = Rsum (map (fun y => if bmat_dec (x_clusters y) cl then posterior e1 r y / Rsum (map (posterior e1 r) states) else 0) states)).
    { rewrite (@Rsum_ext _ _ (fun y => / Rsum (map (posterior e1 r) states) * (if bmat_dec (x_clusters y) cl then posterior e1 r y else 0))).
      - rewrite Rsum_scal. rewrite (proj1 (@C78_marginal e1 k r states cl P1 Hk Hnd Hs Gcl)).
        rewrite (@marginal_total e1 k r P1 Hk states states' Hnd Hs Hnd' Hs'). unfold p, Rdiv. rewrite Rmult_comm. reflexivity.
      - intros y _. destruct (bmat_dec _ _); unfold Rdiv; ring. }
    rewrite E. unfold clusters_prob. apply (@Un_cv_sum cstate). intros y Hy. destruct (bmat_dec (x_clusters y) cl) as [Ey|Ey].
    + apply (@C76_limit e1 k); auto. apply Hs; auto.
    + intros eps He. exists 0%nat. intros n _. unfold R_dist. rewrite Rminus_0_r, Rabs_R0. exact He.
  - apply rate_limit with m d; auto. intros n. unfold clusters_prob.
    rewrite (@Rsum_ext _ _ (fun y => if cstate_eq_dec y (alone cl) then
       nstep cstate_eq_dec (sampler_matrix e0 moves' (log_mix e0) (log_cluster_prior r) states') states' n x' (alone cl) else 0)).
    + rewrite Rsum_single by auto. apply (Conv n x' (alone cl) Gx' Gcl).
    + intros y Hy. apply Hs' in Hy as [_ N]. destruct (bmat_dec (x_clusters y) cl) as [E1|E1], (cstate_eq_dec y (alone cl)) as [E2|E2]; [rewrite E2; reflexivity| | |reflexivity]; exfalso.
      * apply E2. destruct y; simpl in *. unfold alone. congruence.
      * apply E1. rewrite E2. reflexivity.
Qed.
Print Assumptions C78_same_clusters.

(** Averages over logged samples estimate the same posterior expectations in both samplers: for every quantity [f] of the
    clusters between 0 and 1, any spacing [s] and burn-in [b], both averages are within [eps] of the expectation with
    probability [1 - eta] once the number of samples is large enough. *)
Theorem C78_averages : forall e k moves moves' r states states',
  let e1 := set_resample true e in let e0 := set_resample false e in
  positive_env e -> (0 <= e_pconn e <= 1)%Q -> length (e_ce e) = k -> (0 < k)%nat ->
  (forall cl, 0 < r cl) -> full_schedule e1 moves -> cluster_schedule e0 moves' -> (k * e_min e < n_objects e)%nat ->
  NoDup states -> (forall x, In x states <-> good_src e1 k x) -> NoDup states' -> (forall x, In x states' <-> good_none e0 k x) ->
  let expectation f := Rsum (map (fun y => collapsed e r (x_clusters y) * f (x_clusters y)) states') / Rsum (map (fun y => collapsed e r (x_clusters y)) states') in
  forall eps eta, 0 < eps -> 0 < eta -> exists N, forall f, (forall cl, good_none e0 k (alone cl) -> 0 <= f cl <= 1) ->
  forall x x' samples s b, good_src e1 k x -> good_none e0 k x' -> (0 < s)%nat -> (N + b <= samples)%nat ->
    path_prob (sampler_matrix e1 moves (log_lh e1) (log_prior e1 r) states) states (samples * s) x
      (fun l => far eps (average (fun y => f (x_clusters y)) (skipn b (kept (every s) l))) (expectation f)) <= eta /\
    path_prob (sampler_matrix e0 moves' (log_mix e0) (log_cluster_prior r) states') states' (samples * s) x'
      (fun l => far eps (average (fun y => f (x_clusters y)) (skipn b (kept (every s) l))) (expectation f)) <= eta.
Proof.
  intros e k moves moves' r states states' e1 e0 Pe Hp Hk Hk0 Hr Hf Hf' Hn Hnd Hs Hnd' Hs' expectation eps eta He Ht.
  assert (P1 : positive_env e1) by (apply positive_resample; auto). assert (P0 : positive_env e0) by (apply positive_resample; auto).
  destruct (@C77_logged e1 k moves r states P1 Hp Hk eq_refl Hr Hf Hn Hnd Hs eps eta He Ht) as (N1 & B1).
  assert (D : (exists x0, In x0 states') \/ (forall x, ~ In x states')) by (destruct states' as [|z zs]; [right; auto|left; exists z; left; reflexivity]).
  destruct D as [(x0 & G0)|D].
  2:{ exists 0%nat. intros f _ x x' samples s b _ Gx'. apply Hs' in Gx'. destruct (D x' Gx'). }
  apply Hs' in G0.
  destruct (@C78_convergence e0 k moves' r states' x0 P0 Hp Hk Hk0 eq_refl Hr Hf' Hn Hnd' Hs' G0) as (HZ & (m & d & Hm & Hd & Conv) & (S1 & S2 & _) & _).
  change (collapsed e0 r) with (collapsed e r) in *.
  set (P := sampler_matrix e0 moves' (log_mix e0) (log_cluster_prior r) states') in *.
  set (Z := Rsum (map (fun y => collapsed e r (x_clusters y)) states')) in *. set (mu := fun y => collapsed e r (x_clusters y) / Z) in *.
  assert (sto : stochastic states' P) by (apply sampler_stochastic; auto; [apply (positive_valid P0 Hp)|apply Hf'|apply Hf']).
  assert (rate : forall n x y, In x states' -> In y states' -> Rabs (nstep cstate_eq_dec P states' n x y - mu y) <= (1 - d) ^ (n / m)).
  { intros n0 x1 y Hx Hy. apply Conv; apply Hs'; auto. }
  destruct (@logged_consistent _ cstate_eq_dec states' Hnd' P sto m d mu Hm Hd rate S1 S2 eps eta He Ht) as (N0 & B0).
  assert (E0 : forall f, expectation f = Rsum (map (fun y => mu y * f (x_clusters y)) states')).
  { intros f. unfold expectation. fold Z. unfold Rdiv at 1. rewrite Rmult_comm, <- Rsum_scal. apply Rsum_ext. intros y _. unfold mu, Rdiv. ring. }
  assert (E1 : forall f, expectation f = Rsum (map (fun y => posterior e1 r y * f (x_clusters y)) states) / Rsum (map (posterior e1 r) states)).
  { intros f. unfold expectation. rewrite (@marginal_total e1 k r P1 Hk states states' Hnd Hs Hnd' Hs'). f_equal.
    rewrite (@Rsum_ext _ _ (posterior e1 (fun cl => r cl * f cl)) states) by (intros; unfold posterior; ring).
    rewrite (@marginal_total e1 k (fun cl => r cl * f cl) P1 Hk states states' Hnd Hs Hnd' Hs'). apply Rsum_ext. intros y _. unfold collapsed.
    change (mixture e1 (x_clusters y)) with (mixture e (x_clusters y)). ring. }
  assert (Gn : forall y, good e1 k y -> good_none e0 k (alone (x_clusters y))).
  { intros y (A & B & C & _). split; [|reflexivity]. unfold good. conj; auto. exact I. }
  exists (Nat.max N1 N0). intros f Hfb x x' samples s b Gx Gx' Hs0 HN. split.
  - rewrite E1. apply (B1 (fun y => f (x_clusters y))); auto; [|lia]. intros y [Gy _]. apply Hfb. auto.
  - rewrite E0. apply (B0 (fun y => f (x_clusters y))); auto; [|apply Hs'; auto|lia]. intros y Hy. apply Hs' in Hy as [Gy _]. apply Hfb. auto.
Qed.
Print Assumptions C78_averages.

(** The setting of C13, C64 and C75 with and without sources, with [AlterCluster] as the only operator of the sampler
    without sources (sbayes_sampling.py:433-441); the clusters of [demo_x] and [demo_y] are two different states. *)
Definition alter_only : list (R * move) := [(1, Cluster OpAlter)].
Example C78_case : let e1 := set_resample true demo_env in let e0 := set_resample false demo_env in
  positive_env demo_env /\ (0 <= e_pconn demo_env <= 1)%Q /\ length (e_ce demo_env) = 2%nat /\ (forall cl, 0 < demo_prior cl) /\
  full_schedule e1 all_moves /\ cluster_schedule e0 alter_only /\ (2 * e_min demo_env < n_objects demo_env)%nat /\
  (exists states, NoDup states /\ forall x, In x states <-> good_src e1 2 x) /\
  (exists states, NoDup states /\ forall x, In x states <-> good_none e0 2 x) /\
  good_src e1 2 demo_x /\ good_none e0 2 (alone (x_clusters demo_x)) /\ good_none e0 2 (alone (x_clusters demo_y)) /\
  x_clusters demo_x <> x_clusters demo_y /\
  (forall cl, 0 <= in_first (alone cl) <= 1) /\ in_first (alone (x_clusters demo_x)) = 0 /\ in_first (alone (x_clusters demo_y)) = 1.
Proof.
  intros e1 e0. destruct C75_case as (H1 & H2 & H3 & _ & H5 & H6 & H7 & _ & Gx & Gy & Hne & _).
  assert (N : forall x, good_src demo_env 2 x -> good_none e0 2 (alone (x_clusters x))).
  { intros x [(A & B & C & _) _]. split; [|reflexivity]. unfold good. conj; auto. exact I. }
  conj; auto; try apply H2.
  - unfold cluster_schedule, alter_only. conj.
    + unfold Rsum; simpl. ring.
    + intros w m [E|[]]. injection E as <- _. lra.
    + intros w m [E|[]]. injection E as _ <-. discriminate.
    + exists 1, OpAlter. conj; [left; reflexivity|lra|]. split; [apply Nat.ltb_lt|]; reflexivity.
  - apply good_src_finite.
  - apply good_none_finite.
  - intros cl. unfold in_first. destruct (nth _ _ _); lra.
Qed.
