(** Property theorems C75 and C76: the sampler of clusters and sources reaches all states of positive
    posterior density, and its distribution converges to the posterior. *)
From Coq Require Import Reals Qreals Lra.
From Verif Require Import M_source S_model S_operators S_source S_mcmc S_honest S_gsource S_ergodic
  L_operators L_balance L_gsource2 L_doeblin L_reach1 L_reach2 L_reach3 L_reach4 L_reach5 P_operators P_source P_honest P_gsource.
Open Scope R_scope.

(** C75. For all settings with positive weights and effects and at least one object more than the clusters
    need, all schedules with the source operator and a capable cluster operator, all cluster priors without
    zeros: from every state of the chain every state with positive posterior density is reached with
    positive probability after some number of steps. *)
Theorem C75_irreducible : forall e k moves r states x y, positive_env e -> (0 <= e_pconn e <= 1)%Q -> length (e_ce e) = k ->
  e_resample e = true -> (forall cl, 0 < r cl) -> full_schedule e moves -> (k * e_min e < n_objects e)%nat ->
  NoDup states -> (forall x, In x states <-> good_src e k x) -> good_src e k x -> good_src e k y -> 0 < posterior e r y ->
  exists n, 0 < nstep cstate_eq_dec (sampler_matrix e moves (log_lh e) (log_prior e r) states) states n x y.
Proof.
  intros e k moves r states x y P Hp Hk Hres Hr Hf Hn Hnd Hs Gx Gy Hy.
  exact (@irreducible e k moves r states P Hp Hk Hres Hr Hf Hnd Hs x y Hn Gx Gy Hy).
Qed.
Print Assumptions C75_irreducible.

(** The clusters of a setting without a spare object ([k * min_size] objects) never change, whatever the
    operators and their probabilities. *)
Theorem C75_full : forall e k moves ll prior states n x y, (k * e_min e = n_objects e)%nat ->
  (forall x, In x states <-> good_src e k x) -> good_src e k x -> good_src e k y ->
  nstep cstate_eq_dec (sampler_matrix e moves ll prior states) states n x y <> 0 -> x_clusters y = x_clusters x.
Proof.
  intros e k moves ll prior states n x y Hk Hs Gx Gy H.
  apply (@nstep_invariant e moves ll prior states (fun y => x_clusters y = x_clusters x)) with (n := n) (x := x); try apply Hs; auto.
  intros x0 y0 w m q qb Hx0 _ Ix Hm _ S. destruct m as [o|]; simpl in S.
  - rewrite <- Ix. eapply full_stuck; eauto. apply Hs in Hx0. apply Hx0.
  - rewrite <- Ix. eapply source_same; eauto.
Qed.
Print Assumptions C75_full.
(** If all clusters must have the same size, the clusters never change without the second Gibbs-ish operator. *)
Theorem C75_one_size : forall e k moves ll prior states n x y, e_min e = e_max e -> (forall w, ~ In (w, Cluster OpGibbsish2) moves) ->
  (forall x, In x states <-> good_src e k x) -> good_src e k x -> good_src e k y ->
  nstep cstate_eq_dec (sampler_matrix e moves ll prior states) states n x y <> 0 -> x_clusters y = x_clusters x.
Proof.
  intros e k moves ll prior states n x y Hk Hno Hs Gx Gy H.
  apply (@nstep_invariant e moves ll prior states (fun y => x_clusters y = x_clusters x)) with (n := n) (x := x); try apply Hs; auto.
  intros x0 y0 w m q qb Hx0 _ Ix Hm _ S. destruct m as [o|]; simpl in S.
  - exfalso. apply (@one_size_stuck e k o x0 y0 q qb); auto; [apply Hs; auto|]. intros ->. apply (Hno w). auto.
  - rewrite <- Ix. eapply source_same; eauto.
Qed.
Print Assumptions C75_one_size.
(** If [AlterCluster] is the only cluster operator and grows only to neighbours, no cluster leaves a set of
    objects that has no edges to the others. *)
Theorem C75_confined : forall e k moves ll prior states (A : nat -> bool) i n x y, (e_pconn e == 1)%Q ->
  (forall w o, In (w, Cluster o) moves -> o = OpAlter) ->
  (forall a b, nth b (nth a (e_adj e) []) false = true -> A b = true -> A a = true) ->
  (forall x, In x states <-> good_src e k x) -> good_src e k x -> good_src e k y ->
  (forall o, nth o (nth i (x_clusters x) []) false = true -> A o = true) ->
  nstep cstate_eq_dec (sampler_matrix e moves ll prior states) states n x y <> 0 ->
  forall o, nth o (nth i (x_clusters y) []) false = true -> A o = true.
Proof.
  intros e k moves ll prior states A i n x y Hp Hops Hcl Hs Gx Gy Hx H.
  apply (@nstep_invariant e moves ll prior states (fun y => forall o, nth o (nth i (x_clusters y) []) false = true -> A o = true)) with (n := n) (x := x);
    try apply Hs; auto.
  intros x0 y0 w m q qb Hx0 _ Ix Hm _ S. destruct m as [o|]; simpl in S.
  - assert (o = OpAlter) as -> by (eapply Hops; eauto). eapply confined_step; eauto.
  - apply source_same in S. rewrite S. auto.
Qed.
Print Assumptions C75_confined.

(** So the spare object is needed: two objects in two clusters of at least one object, with all three cluster
    operators.  The clustering with the two clusters exchanged has a positive posterior and is never reached. *)
Definition pair_env : env :=
  {| e_features := [ [[true; false]]; [[false; true]] ]; e_nf := 1; e_conf := [ [[true; true]] ]; e_weights := [[1#3; 2#3]];
     e_ce := [ [[1#4; 3#4]]; [[1#5; 4#5]] ]; e_cf := [ [ [[1#2; 1#2]] ] ]; e_adj := [[false; true]; [true; false]];
     e_pconn := 4#5; e_min := 1; e_max := 2; e_resample := true; e_from_prior := false |}.
Definition pair_x : cstate := {| x_clusters := [[true; false]; [false; true]]; x_source := Some [[[true; false]]; [[true; false]]] |}.
Definition pair_y : cstate := {| x_clusters := [[false; true]; [true; false]]; x_source := Some [[[true; false]]; [[true; false]]] |}.
Definition all_moves : list (R * move) := [(1/4, Cluster OpAlter); (1/4, Cluster OpGibbsish); (1/4, Cluster OpGibbsish2); (1/4, Source)].
Lemma all_moves_full e : (e_min e < e_max e)%nat -> (e_pconn e < 1)%Q -> full_schedule e all_moves.
Proof.
  intros H1 H2. unfold full_schedule, all_moves. conj.
  - unfold Rsum; simpl. lra.
  - intros w m H. simpl in H. destruct H as [E|[E|[E|[E|[]]]]]; injection E as <- _; lra.
  - exists (1/4). split; [simpl; auto|lra].
  - exists (1/4), OpAlter. conj; [simpl; auto|lra|split; auto].
Qed.
Lemma pair_positive : positive_env pair_env.
Proof.
  constructor; try reflexivity.
  - repeat first [apply Forall_cons | apply Forall_nil | apply conj]; reflexivity.
  - repeat first [apply Forall_cons | apply Forall_nil | reflexivity].
  - intros [|k] gs ps; simpl; [|destruct k; discriminate]. intros [= <-] [= <-]. reflexivity.
  - intros p Hp. assert (Hin : In p (e_ce pair_env ++ concat (e_cf pair_env))).
    { apply in_or_app. destruct Hp as [Hp|(ps & H1 & H2)]; [left; auto|right]. apply in_concat. eauto. }
    clear Hp. simpl in Hin.
    assert (F : length p = 1%nat /\ (forall f s, (0 <= nth s (nth f p []) 0)%Q) /\
      forall f s, (f < 1)%nat -> (s < 2)%nat -> (0 < nth s (nth f p []) 0)%Q).
    { repeat (destruct Hin as [<-|Hin]); try contradiction; (split; [reflexivity|split]);
        intros f s; destruct f as [|[|f]]; destruct s as [|[|[|s]]]; intros; try lia; vm_compute; try reflexivity; discriminate. }
    destruct F as (F1 & F2 & F3). conj; auto. intros o f s H. apply F3; revert H;
      destruct o as [|[|[|o]]]; destruct f as [|[|f]]; destruct s as [|[|[|s]]]; cbn; intros; try discriminate; lia.
  - repeat constructor. intros o i j. destruct o as [|[|[|o]]]; destruct i as [|[|i]]; destruct j as [|[|j]]; simpl; intros; try discriminate; auto.
  - intros o Ho. exists [[true; true]], [true; true]. unfold n_objects in Ho. simpl in Ho. simpl. destruct o as [|[|o]]; auto; lia.
Qed.
Lemma pair_good x : x = pair_x \/ x = pair_y -> good_src pair_env 2 x.
Proof.
  intros H. split; [|destruct H as [->| ->]; eexists; reflexivity]. unfold good. conj.
  - destruct H as [->| ->]; (split; [reflexivity|repeat constructor]).
  - destruct H as [->| ->]; intros o i j; destruct o as [|[|[|o]]], i as [|[|[|i]]], j as [|[|[|j]]]; simpl; intros; try discriminate; auto.
  - destruct H as [->| ->]; repeat constructor.
  - destruct H as [->| ->]; (split; [reflexivity|]); repeat first [apply Forall_cons | apply Forall_nil | apply conj | reflexivity]; exists 0%nat; split; auto; vm_compute; lia.
Qed.
Theorem C75_without_spare_refuted : exists e k moves r states x y, positive_env e /\ (0 <= e_pconn e <= 1)%Q /\ length (e_ce e) = k /\
  e_resample e = true /\ (forall cl, 0 < r cl) /\ full_schedule e moves /\ (k * e_min e <= n_objects e)%nat /\
  NoDup states /\ (forall x, In x states <-> good_src e k x) /\ good_src e k x /\ good_src e k y /\ 0 < posterior e r y /\
  forall n, nstep cstate_eq_dec (sampler_matrix e moves (log_lh e) (log_prior e r) states) states n x y = 0.
Proof.
  destruct (good_src_finite pair_env 2) as (states & Hn & Hs).
  exists pair_env, 2%nat, all_moves, demo_prior, states, pair_x, pair_y.
  assert (I : forall n, 0 < / INR (S n)) by (intros n; apply Rinv_0_lt_compat, lt_0_INR; lia).
  conj; auto using pair_positive, pair_good.
  - vm_compute; discriminate.
  - vm_compute; discriminate.
  - intros cl. apply I.
  - apply all_moves_full; [apply Nat.ltb_lt|]; reflexivity.
  - unfold posterior. apply Rmult_lt_0_compat; [|apply I]. assert (D : (0 < source_density pair_env pair_y)%Q) by (vm_compute; reflexivity).
    apply Qlt_Rlt in D. rewrite RMicromega.Q2R_0 in D. exact D.
  - intros n. match goal with |- ?a = 0 => destruct (Req_dec a 0) as [E|E]; auto end. exfalso.
    apply C75_full with (k := 2%nat) in E; auto using pair_good. discriminate.
Qed.
Print Assumptions C75_without_spare_refuted.

(** C75 in the setting of C13, C14 and C64 with all operators: the state [demo_x] and the state [demo_y] with an
    object more in the first cluster. *)
Example C75_case : positive_env demo_env /\ (0 <= e_pconn demo_env <= 1)%Q /\ length (e_ce demo_env) = 2%nat /\ e_resample demo_env = true /\
  (forall cl, 0 < demo_prior cl) /\ full_schedule demo_env all_moves /\ (2 * e_min demo_env < n_objects demo_env)%nat /\
  (exists states, NoDup states /\ forall x, In x states <-> good_src demo_env 2 x) /\
  good_src demo_env 2 demo_x /\ good_src demo_env 2 demo_y /\ x_clusters demo_x <> x_clusters demo_y /\ 0 < posterior demo_env demo_prior demo_y.
Proof.
  assert (I : forall n, 0 < / INR (S n)) by (intros n; apply Rinv_0_lt_compat, lt_0_INR; lia).
  destruct C64_case as (H1 & H2 & H3 & _ & H5 & H6 & _). conj; auto; try apply H2.
  - intros cl. apply I.
  - apply all_moves_full; [apply Nat.ltb_lt|]; reflexivity.
  - apply Nat.ltb_lt. reflexivity.
  - apply good_src_finite.
  - split; [|eexists; reflexivity]. unfold good. conj.
    + split; [reflexivity|repeat constructor].
    + intros o i j; destruct o as [|[|[|[|[|[|o]]]]]], i as [|[|[|i]]], j as [|[|[|j]]]; simpl; intros; try discriminate; auto.
    + repeat constructor.
    + split; [reflexivity|]. unfold demo_y, src1, src0. simpl.
      repeat first [apply Forall_cons | apply Forall_nil | apply conj | reflexivity];
        first [exists 0%nat; split; [vm_compute; lia|reflexivity] | exists 1%nat; split; [vm_compute; lia|reflexivity]].
  - discriminate.
  - unfold posterior. apply Rmult_lt_0_compat; [|apply I]. assert (D : (0 < source_density demo_env demo_y)%Q) by (vm_compute; reflexivity).
    apply Qlt_Rlt in D. rewrite RMicromega.Q2R_0 in D. exact D.
Qed.
(** The hypotheses of the three theorems on what is not reached: [pair_env] has no spare object; with
    [e_max = 1] it has one size only; without edges nothing is reached by [AlterCluster] alone. *)
Definition set_sizes (mn mx : nat) (e : env) : env :=
  {| e_features := e_features e; e_nf := e_nf e; e_conf := e_conf e; e_weights := e_weights e; e_ce := e_ce e; e_cf := e_cf e; e_adj := e_adj e;
     e_pconn := e_pconn e; e_min := mn; e_max := mx; e_resample := e_resample e; e_from_prior := e_from_prior e |}.
Definition no_edges (e : env) : env :=
  {| e_features := e_features e; e_nf := e_nf e; e_conf := e_conf e; e_weights := e_weights e; e_ce := e_ce e; e_cf := e_cf e;
     e_adj := map (map (fun _ => false)) (e_adj e);
     e_pconn := 1; e_min := e_min e; e_max := e_max e; e_resample := e_resample e; e_from_prior := e_from_prior e |}.
Definition one_x : cstate :=
  {| x_clusters := [[true; false; false; false; false]; [false; false; false; false; true]]; x_source := Some [src1; src0; src0; src0; src1] |}.
Definition one_y : cstate :=
  {| x_clusters := [[false; true; false; false; false]; [false; false; false; false; true]]; x_source := Some [src0; src1; src0; src0; src1] |}.
Lemma one_good x : x = one_x \/ x = one_y -> good_src (set_sizes 1 1 demo_env) 2 x.
Proof.
  intros H. split; [|destruct H as [->| ->]; eexists; reflexivity]. unfold good. conj.
  - destruct H as [->| ->]; (split; [reflexivity|repeat constructor]).
  - destruct H as [->| ->]; intros o i j; destruct o as [|[|[|[|[|[|o]]]]]], i as [|[|[|i]]], j as [|[|[|j]]]; simpl; intros; try discriminate; auto.
  - destruct H as [->| ->]; repeat constructor.
  - destruct H as [->| ->]; (split; [reflexivity|]); unfold one_x, one_y, src1, src0; simpl;
      repeat first [apply Forall_cons | apply Forall_nil | apply conj | reflexivity];
        first [exists 0%nat; split; [vm_compute; lia|reflexivity] | exists 1%nat; split; [vm_compute; lia|reflexivity]].
Qed.
Example C75_stuck_cases :
  ((2 * e_min pair_env = n_objects pair_env)%nat /\ good_src pair_env 2 pair_x /\ good_src pair_env 2 pair_y /\ x_clusters pair_x <> x_clusters pair_y) /\
  (e_min (set_sizes 1 1 demo_env) = e_max (set_sizes 1 1 demo_env) /\ (2 * 1 < n_objects (set_sizes 1 1 demo_env))%nat /\
   (forall w, ~ In (w, Cluster OpGibbsish2) [(1/2, Cluster OpGibbsish); (1/2, Source)]) /\
   good_src (set_sizes 1 1 demo_env) 2 one_x /\ good_src (set_sizes 1 1 demo_env) 2 one_y /\ x_clusters one_x <> x_clusters one_y) /\
  ((e_pconn (no_edges demo_env) == 1)%Q /\ good_src (no_edges demo_env) 2 demo_x /\
   (forall a b, nth b (nth a (e_adj (no_edges demo_env)) []) false = true -> Nat.ltb b 2 = true -> Nat.ltb a 2 = true) /\
   (forall o, nth o (nth 0 (x_clusters demo_x) []) false = true -> Nat.ltb o 2 = true)).
Proof.
  conj.
  - reflexivity.
  - apply pair_good. auto.
  - apply pair_good. auto.
  - discriminate.
  - reflexivity.
  - apply Nat.ltb_lt. reflexivity.
  - intros w H. simpl in H. destruct H as [H|[H|[]]]; discriminate.
  - apply one_good. auto.
  - apply one_good. auto.
  - discriminate.
  - reflexivity.
  - destruct C75_case as (_ & _ & _ & _ & _ & _ & _ & _ & G & _). exact G.
  - intros a b H. exfalso. revert H. destruct a as [|[|[|[|[|[|a]]]]]]; destruct b as [|[|[|[|[|[|b]]]]]]; simpl; discriminate.
  - intros o; destruct o as [|[|[|[|[|[|o]]]]]]; simpl; intros; try discriminate; reflexivity.
Qed.

(** C76. Under the same hypotheses the distribution of the state after [n] steps converges to the posterior
    distribution geometrically fast, uniformly in the initial state, and the posterior distribution is the only
    stationary distribution. *)
Theorem C76_convergence : forall e k moves r states x0, positive_env e -> (0 <= e_pconn e <= 1)%Q -> length (e_ce e) = k ->
  e_resample e = true -> (forall cl, 0 < r cl) -> full_schedule e moves -> (k * e_min e < n_objects e)%nat ->
  NoDup states -> (forall x, In x states <-> good_src e k x) -> good_src e k x0 ->
  let P := sampler_matrix e moves (log_lh e) (log_prior e r) states in
  let Z := Rsum (map (posterior e r) states) in
  0 < Z /\
  (exists m d, (0 < m)%nat /\ 0 < d <= 1 /\ forall n x y, good_src e k x -> good_src e k y ->
     Rabs (nstep cstate_eq_dec P states n x y - posterior e r y / Z) <= (1 - d) ^ (n / m)) /\
  stationary_distribution P states (fun y => posterior e r y / Z) /\
  (forall nu, stationary_distribution P states nu -> forall y, good_src e k y -> nu y = posterior e r y / Z).
Proof.
  intros e k moves r states x0 Pe Hp Hk Hres Hr Hf Hn Hnd Hs G0 P Z.
  pose proof (fun cl => Rlt_le _ _ (Hr cl)) as Hr0.
  destruct (source_step Pe Hk G0) as (y0 & q & qb & S0 & _ & A0).
  assert (Gy0 : good_src e k y0) by (apply (@good_src_closed e k Source x0 y0 q qb); auto).
  assert (Pos0 : 0 < posterior e r y0) by (apply (@adm_positive e k r Pe Hk Hr y0 Gy0 A0)).
  assert (Pos : forall y, In y states -> 0 <= posterior e r y).
  { intros y Hy. apply Hs in Hy. rewrite <- (posterior_value Pe Hk Hr0 Hy). unfold target_density.
    apply Rmult_le_pos; [destruct (xscale 1 (log_lh e y))|destruct (log_prior e r y)]; simpl; try lra; apply Rlt_le, exp_pos. }
  assert (HZ : 0 < Z).
  { apply Rlt_le_trans with (posterior e r y0); auto. apply Rsum_term; auto. apply Hs; auto. }
  assert (Sd : stationary_distribution P states (fun y => posterior e r y / Z)).
  { unfold stationary_distribution. conj.
    - intros x Hx. apply Rmult_le_pos; [auto|]. apply Rlt_le, Rinv_0_lt_compat. auto.
    - rewrite (@Rsum_ext _ _ (fun y => / Z * posterior e r y)) by (intros; unfold Rdiv; ring). rewrite Rsum_scal. fold Z. field. lra.
    - intros y Hy. rewrite (@Rsum_ext _ _ (fun x => / Z * (posterior e r x * P x y))) by (intros; unfold Rdiv; ring).
      rewrite Rsum_scal. unfold P. rewrite (@C64_stationary e k); auto; [unfold Rdiv; ring|apply Hf|apply Hs; auto]. }
  assert (St : stochastic states P) by (apply sampler_stochastic; auto; [apply (positive_valid Pe Hp)|apply Hf|apply Hf]).
  destruct (@converges _ cstate_eq_dec states Hnd P St y0 (fun y => posterior e r y / Z)) as (m & d & Hm & Hd & Conv & Uniq); auto.
  - apply Hs. auto.
  - apply (@self_loop e k moves r states Pe Hp Hk Hf Hnd Hs y0 Gy0 A0).
  - intros x Hx. apply Hs in Hx. eapply C75_irreducible; eauto.
  - conj; auto.
    + exists m, d. conj; auto; try apply Hd. intros n x y Gx Gy. apply Conv; apply Hs; auto.
    + intros nu Hnu y Gy. apply Uniq; auto. apply Hs. auto.
Qed.
Print Assumptions C76_convergence.
(** Consequently the probability of being in [y] after [n] steps tends to its posterior probability. *)
Theorem C76_limit : forall e k moves r states x y, positive_env e -> (0 <= e_pconn e <= 1)%Q -> length (e_ce e) = k ->
  e_resample e = true -> (forall cl, 0 < r cl) -> full_schedule e moves -> (k * e_min e < n_objects e)%nat ->
  NoDup states -> (forall x, In x states <-> good_src e k x) -> good_src e k x -> good_src e k y ->
  Un_cv (fun n => nstep cstate_eq_dec (sampler_matrix e moves (log_lh e) (log_prior e r) states) states n x y)
    (posterior e r y / Rsum (map (posterior e r) states)).
Proof.
  intros e k moves r states x y Pe Hp Hk Hres Hr Hf Hn Hnd Hs Gx Gy.
  destruct (@C76_convergence e k moves r states x Pe Hp Hk Hres Hr Hf Hn Hnd Hs Gx) as (HZ & (m & d & Hm & Hd & Conv) & _).
  intros eps He. destruct (pow_lt_1_zero (1 - d)) with (y := eps) as (N & HN); auto.
  { rewrite Rabs_pos_eq; lra. }
  exists (N * m)%nat. intros n Hge. unfold R_dist. eapply Rle_lt_trans; [apply Conv; auto|].
  assert (N <= n / m)%nat by (apply Nat.div_le_lower_bound; lia).
  specialize (HN (n / m)%nat H). rewrite Rabs_pos_eq in HN; auto. apply pow_le. lra.
Qed.
Print Assumptions C76_limit.
(** The hypotheses hold in the setting of C75; the chain has at least the two states [demo_x] and [demo_y]. *)
Example C76_case : exists states, NoDup states /\ (forall x, In x states <-> good_src demo_env 2 x) /\ In demo_x states /\ In demo_y states /\
  full_schedule demo_env all_moves /\ (2 * e_min demo_env < n_objects demo_env)%nat.
Proof.
  destruct C75_case as (_ & _ & _ & _ & _ & F & N & (states & Hn & Hs) & Gx & Gy & _). exists states. conj; auto; apply Hs; auto.
Qed.
