(** Property theorems C64: the source operator samples the full conditional, and the sampler of clusters
    and sources leaves the posterior invariant. *)
From Coq Require Import Reals Qreals Lra.
From Verif Require Import M_source S_model S_operators S_source S_mcmc S_honest S_gsource
  L_operators L_source L_balance L_honest2 L_gsource L_gsource2 P_operators P_source P_honest.
Open Scope Q_scope.

(** C64. For all settings with positive weights and positive effects, all states [x] of the chain and all
    source arrays [s]: the probability that [GibbsSampleSource] draws [s], times the sum of (source prior
    x likelihood) over all source arrays, is (source prior x likelihood) of [s]; the clusters stay. *)
Theorem C64_full_conditional : forall e k x s, positive_env e -> length (e_ce e) = k -> good_src e k x ->
  valid_source (n_objects e) (e_nf e) (n_comps e) s ->
  let at_ s := {| x_clusters := x_clusters x; x_source := Some s |} in
  let all := Qsum (map (fun s => source_density e (at_ s)) (all_sources (n_objects e) (e_nf e) (n_comps e))) in
  0 < all /\ mass (gibbs_source e x) (at_ s) == source_density e (at_ s) / all /\
  forall y q qb, supp (gibbs_source e x) (Propose y q qb) -> x_clusters y = x_clusters x /\ q = Some 0 /\ qb = Some 1.
Proof.
  intros e k x s P Hk [G (s0 & Hs)] V at_ all. destruct (good_clusters Hk G) as [Hd Hl].
  pose proof (evidence_sum P Hd Hl) as E. fold (at_ s) in *. change (evidence e (x_clusters x) == all) in E.
  pose proof (good_valid Hk G Hs) as V0.
  assert (Hpos : 0 < all).
  { rewrite <- E. unfold evidence, state_weights. destruct (e_from_prior e) eqn:Ef; [reflexivity|]. rewrite (weights_W P Hd Hl).
    destruct (@full_conditional e _ P Hd Hl x s0 s Ef eq_refl Hs (proj1 V0) V) as (a & m & _ & -> & Hm & _). exact Hm. }
  conj; auto.
  - rewrite <- E. unfold at_, source_density, evidence, state_weights. simpl. rewrite (weights_W P Hd Hl). destruct (e_from_prior e) eqn:Ef.
    + destruct (@from_prior e _ P Hd Hl x s0 s Ef eq_refl Hs (proj1 V0) V) as (a & -> & ->). field.
    + destruct (@full_conditional e _ P Hd Hl x s0 s Ef eq_refl Hs (proj1 V0) V) as (a & m & -> & -> & Hm & ->). reflexivity.
  - intros y q qb H. unfold gibbs_source in H. rewrite Hs in H. cbv zeta in H.
    apply supp_bind in H as (rows & _ & H). apply supp_ret in H. injection H as -> -> ->. auto.
Qed.
Print Assumptions C64_full_conditional.

Open Scope R_scope.
(** Detailed balance of every step of the sampler of clusters and sources with respect to
    (source prior x likelihood x cluster prior), for every cluster prior [r]. *)
Theorem C64_detailed_balance : forall e k m r x y, positive_env e -> (0 <= e_pconn e <= 1)%Q -> length (e_ce e) = k ->
  (forall cl, 0 <= r cl) -> good_src e k x -> good_src e k y ->
  posterior e r x * kernel cstate_eq_dec 1 (log_lh e) (log_prior e r) (move_props e m) x y =
  posterior e r y * kernel cstate_eq_dec 1 (log_lh e) (log_prior e r) (move_props e m) y x.
Proof.
  intros e k m r x y P Hp Hk Hr Gx Gy. rewrite <- !(posterior_value P Hk Hr) by auto.
  apply (@move_balance e k P Hp Hk (log_lh e) (log_prior e r) r); auto using log_lh_density, log_prior_density.
  intros z Hz. apply (posterior_value P Hk Hr Hz).
Qed.
Print Assumptions C64_detailed_balance.

(** The states with sources form a finite set that no step leaves. *)
Theorem C64_state_space : forall e k,
  (exists states, NoDup states /\ forall x, In x states <-> good_src e k x) /\
  (forall m x y q qb, e_resample e = true -> good_src e k x -> supp (run_move e m x) (Propose y q qb) -> good_src e k y).
Proof. intros e k. split; [apply good_src_finite|]. intros m x y q qb. apply good_src_closed. Qed.
Print Assumptions C64_state_space.

(** On this set the posterior is invariant under steps with cluster and source operators drawn with any
    fixed probabilities. *)
Theorem C64_stationary : forall e k moves r states y, positive_env e -> (0 <= e_pconn e <= 1)%Q -> length (e_ce e) = k ->
  (forall cl, 0 <= r cl) -> Rsum (map fst moves) = 1 -> NoDup states -> (forall x, In x states <-> good_src e k x) -> good_src e k y ->
  Rsum (map (fun x => posterior e r x * sampler_matrix e moves (log_lh e) (log_prior e r) states x y) states) = posterior e r y.
Proof.
  intros e k moves r states y P Hp Hk Hr Hw Hn Hs Gy. rewrite <- (posterior_value P Hk Hr Gy).
  rewrite <- (@sampler_stationary e k P Hp Hk (log_lh e) (log_prior e r) r) with (moves := moves) (states := states);
    auto using log_lh_density, log_prior_density.
  - apply Rsum_ext. intros x Hx. rewrite (posterior_value P Hk Hr) by (apply Hs; auto). reflexivity.
  - intros z Hz. apply (posterior_value P Hk Hr Hz).
Qed.
Print Assumptions C64_stationary.

(** The setting of C13 with all operators: both states of the chain have positive posterior density, and the
    source operator draws one of the 1024 source arrays. *)
Definition demo_prior : bmat -> R := fun cl => / INR (S (length cl)).
Example C64_case : positive_env demo_env /\ (0 <= e_pconn demo_env <= 1)%Q /\ length (e_ce demo_env) = 2%nat /\
  (forall cl, 0 <= demo_prior cl) /\ good_src demo_env 2 demo_x /\ e_resample demo_env = true /\
  (0 < source_density demo_env demo_x)%Q /\ 0 < posterior demo_env demo_prior demo_x /\
  length (all_sources (n_objects demo_env) (e_nf demo_env) (n_comps demo_env)) = 1024%nat /\
  Rsum (map fst [(1/4, Cluster OpAlter); (1/4, Cluster OpGibbsish); (1/4, Cluster OpGibbsish2); (1/4, Source)]) = 1.
Proof.
  assert (D : (0 < source_density demo_env demo_x)%Q) by (vm_compute; reflexivity).
  assert (I : forall n, 0 < / INR (S n)) by (intros n; apply Rinv_0_lt_compat, lt_0_INR; lia).
  conj; auto.
  - exact demo_positive.
  - vm_compute; discriminate.
  - vm_compute; discriminate.
  - intros cl. apply Rlt_le, I.
  - split; [exact demo_good|]. unfold demo_x. simpl. eauto.
  - apply Qlt_Rlt in D. rewrite RMicromega.Q2R_0 in D. apply Rmult_lt_0_compat; auto. apply I.
  - unfold Rsum; simpl. lra.
Qed.
