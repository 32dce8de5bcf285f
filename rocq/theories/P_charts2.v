(** C81, continued: the charts of long runs show the posterior. *)
From Coq Require Import Reals Qreals Lra.
From Verif Require Import M_source S_model S_operators S_source S_mcmc S_honest S_gsource S_ergodic S_averages S_collapsed
  L_operators L_balance L_honest2 L_gsource2 L_doeblin L_reach1 L_reach2 L_reach3 L_reach4 L_averages L_averages2 L_collapsed P_operators P_source P_honest P_gsource P_ergodic P_averages P_collapsed.
From Verif Require Import S_loggers M_charts S_plot L_plot S_charts L_charts P_charts.
Open Scope R_scope.

Lemma path_mono T (P : T -> T -> R) states (A B : list T -> bool) : (forall x y, In x states -> In y states -> 0 <= P x y) ->
  forall n x, In x states -> (forall l, length l = n -> Forall (fun y => In y states) l -> A l = true -> B l = true) -> path_prob P states n x A <= path_prob P states n x B.
Proof.
  intros Hp n. revert A B. unfold path_prob. induction n as [|n IH]; intros A B x Hx H; cbn [path_mean].
  - specialize (H [] eq_refl (Forall_nil _)). destruct (A []); [rewrite H by auto; lra|]. destruct (B []); lra.
  - apply Rsum_le. intros y Hy. apply Rmult_le_compat_l; [auto|]. apply (IH (fun l => A (y :: l)) (fun l => B (y :: l))); auto.
    intros l Hl Hf. apply H; [simpl; congruence|constructor; auto].
Qed.
Lemma rounded_down_unique b n i i' : rounded_down b n i -> rounded_down b n i' -> i = i'.
Proof.
  intros [A B] [C D]. apply Nat2Z.inj. apply Z.le_antisymm; apply Zlt_succ_le; rewrite Zlt_Qlt; unfold Z.succ; rewrite inject_Z_plus; eapply Qle_lt_trans; eauto.
Qed.
Lemma rounded_up_unique b n i i' : rounded_up b n i -> rounded_up b n i' -> i = i'.
Proof.
  assert (G : forall u v, rounded_up b n u -> rounded_up b n v -> (Z.of_nat u <= Z.of_nat v)%Z).
  { intros u v [_ B] [C _]. assert (Z.of_nat u - 1 < Z.of_nat v)%Z; [|lia]. rewrite Zlt_Qlt. unfold Z.sub. rewrite inject_Z_plus. eapply Qlt_le_trans; [exact B|exact C]. }
  intros H H'. apply Nat2Z.inj. apply Z.le_antisymm; apply G; auto.
Qed.
Lemma Rsum_number A (f : A -> bool) l : Rsum (map (fun x => if f x then 1 else 0) l) = INR (number f l).
Proof. induction l as [|x r IH]; auto. cbn [map number]. change (Rsum ((if f x then 1 else 0) :: map (fun x => if f x then 1 else 0) r)) with ((if f x then 1 else 0) + Rsum (map (fun x => if f x then 1 else 0) r)).
  rewrite IH, plus_INR. destruct (f x); reflexivity. Qed.
Lemma skipn_map' A B (f : A -> B) b : forall l, skipn b (map f l) = map f (skipn b l).
Proof. induction b as [|b IH]; intros [|x l]; simpl; auto. Qed.
Lemma kept_in A (l : list A) : forall log x, In x (kept log l) -> In x l.
Proof. induction l as [|y r IH]; intros log x H; cbn [kept] in H; auto. destruct (log 0%nat); [destruct H as [<-|H]; [left; auto|]|]; right; eapply IH; eauto. Qed.

(** What holds of every run of states with disjoint clusters. *)
Lemma run_charts (k n : nat) disk smp mb pb n_col names s samples (l : list cstate) :
  (0 < k)%nat -> (0 < s)%nat -> (0 < samples)%nat -> length l = (samples * s)%nat ->
  Forall (fun y => cluster_shape k n (x_clusters y) /\ disjoint_groups (x_clusters y)) l ->
  (forall y, ls_clusters (smp y) = x_clusters y /\ length (ls_ce (smp y)) = k) ->
  (0 <= mb)%Q -> (mb <= 1)%Q -> (0 <= pb)%Q -> (pb <= 1)%Q -> length names = n -> (2 <= n_col)%nat -> (n_col < n)%nat ->
  exists i j pies, (i + j <= samples)%nat /\ rounded_down mb samples i /\ rounded_up pb (samples - i) j /\
    pies_of_run mb pb n_col names disk (map smp (kept (every s) l)) = Some pies /\ length pies = n /\
    forall o p, nth_error pies o = Some p ->
      IZR (nth k (p_slices p) 0%Z) / IZR (fold_right Z.add 0%Z (p_slices p)) =
      average (fun y => if free o (x_clusters y) then 1 else 0) (skipn (i + j) (kept (every s) l)).
Proof.
  intros Hk Hs Hsa Hl Hg Hsmp M0 M1 B0 B1 Ln Hc Hlt.
  assert (Lk : length (kept (every s) l) = samples) by (rewrite kept_length, Hl; apply n_logged_every; auto).
  assert (Gk : Forall (fun y => cluster_shape k n (x_clusters y) /\ disjoint_groups (x_clusters y)) (kept (every s) l)).
  { apply Forall_forall. intros y Hy. rewrite Forall_forall in Hg. apply Hg. eapply kept_in; eauto. }
  set (ys := kept (every s) l) in *. clearbody ys. destruct ys as [|y0 ys]; [simpl in Lk; lia|].
  destruct (@C81_charts k n disk (smp y0) (map smp ys) mb pb n_col names) as (i & j & pies & Hij & Ri & Rj & Ep & Lp & H); auto.
  - change (smp y0 :: map smp ys) with (map smp (y0 :: ys)). rewrite Forall_map. eapply Forall_impl; [|exact Gk]. intros y [[E1 E2] _]. destruct (Hsmp y) as [E3 E4].
    unfold wf_sample, wf_clusters. rewrite E3. conj; auto.
  - change (smp y0 :: map smp ys) with (map smp (y0 :: ys)). rewrite Forall_map. eapply Forall_impl; [|exact Gk]. intros y [_ D]. destruct (Hsmp y) as [E3 _]. rewrite E3. exact D.
  - change (smp y0 :: map smp ys) with (map smp (y0 :: ys)) in *. rewrite map_length, Lk in *. exists i, j, pies. conj; auto.
    intros o p Hp. destruct (H o p Hp) as [E1 E2]. rewrite E1, E2, <- !INR_IZR_INZ. unfold average.
    rewrite (Rsum_number _ (fun y => free o (x_clusters y))), skipn_length, Lk. f_equal. f_equal. rewrite skipn_map', number_map.
    apply number_ext. intros y _. destruct (Hsmp y) as [-> _]. reflexivity.
Qed.

(** For all settings of C78, both samplers, all burn-ins below 1, all objects, spacings and initial states: if the run is
    long enough, the share of grey in the chart of the object is near the posterior probability that the object is in no
    cluster, up to an event of small probability. *)
Theorem C81_shares : forall e k moves moves' r states states' mb pb n_col names,
  let e1 := set_resample true e in let e0 := set_resample false e in
  positive_env e -> (0 <= e_pconn e <= 1)%Q -> length (e_ce e) = k -> (0 < k)%nat ->
  (forall cl, 0 < r cl) -> full_schedule e1 moves -> cluster_schedule e0 moves' -> (k * e_min e < n_objects e)%nat ->
  NoDup states -> (forall x, In x states <-> good_src e1 k x) -> NoDup states' -> (forall x, In x states' <-> good_none e0 k x) ->
  (0 <= mb < 1)%Q -> (0 <= pb < 1)%Q -> length names = n_objects e -> (2 <= n_col)%nat -> (n_col < n_objects e)%nat ->
  let probability (A : bmat -> bool) := Rsum (map (fun y => if A (x_clusters y) then collapsed e r (x_clusters y) else 0) states') / Rsum (map (fun y => collapsed e r (x_clusters y)) states') in
  forall eps eta, 0 < eps -> 0 < eta -> exists N, forall o smp disk x x' samples s, (o < n_objects e)%nat ->
  (forall y, ls_clusters (smp y) = x_clusters y /\ length (ls_ce (smp y)) = k) ->
  good_src e1 k x -> good_none e0 k x' -> (0 < s)%nat -> (N <= samples)%nat ->
  let near l := exists pies p, pies_of_run mb pb n_col names disk (map smp (kept (every s) l)) = Some pies /\ nth_error pies o = Some p /\
    Rabs (IZR (nth k (p_slices p) 0%Z) / IZR (fold_right Z.add 0%Z (p_slices p)) - probability (free o)) < eps in
  forall A, (forall l, A l = true -> ~ near l) ->
    path_prob (sampler_matrix e1 moves (log_lh e1) (log_prior e1 r) states) states (samples * s) x A <= eta /\
    path_prob (sampler_matrix e0 moves' (log_mix e0) (log_cluster_prior r) states') states' (samples * s) x' A <= eta.
Proof.
  intros e k moves moves' r states states' mb pb n_col names e1 e0 Pe Hp Hk Hk0 Hr Hf Hf' Hn Hnd Hs Hnd' Hs' [M0 M1] [B0 B1] Ln Hc Hlt probability eps eta He Ht.
  destruct (@C78_averages e k moves moves' r states states' Pe Hp Hk Hk0 Hr Hf Hf' Hn Hnd Hs Hnd' Hs' eps eta He Ht) as (N & Av). fold e1 e0 in Av.
  destruct (@burn_in_room mb pb N M0 M1 B0 B1) as (N' & Room). exists (Nat.max N' 1).
  intros o smp disk x x' samples s Ho Hsmp Gx Gx' Hs0 HN near A HA.
  destruct (L_names.burnin_index (q := mb) samples M0 (Qlt_le_weak _ _ M1)) as (i & _ & Hi & Lo & Hi2).
  assert (Ri : rounded_down mb samples i) by (unfold rounded_down; rewrite inject_Z_plus in Hi2; split; auto).
  destruct (@ceil_index pb (samples - i) B0 (Qlt_le_weak _ _ B1)) as (j & _ & Hj & Rj).
  pose proof (Room samples i j ltac:(lia) Ri Rj) as Hb.
  set (f := fun cl => if free o cl then 1 else 0).
  destruct (Av f) with (x := x) (x' := x') (samples := samples) (s := s) (b := (i + j)%nat) as [A1 A0]; auto.
  { intros cl _. unfold f. destruct (free o cl); lra. }
  match type of A1 with path_prob _ _ _ _ (fun l => far _ _ ?E) <= _ => assert (EE : E = probability (free o)) end.
  { unfold probability. f_equal. f_equal. apply map_ext. intros y. unfold f. destruct (free o (x_clusters y)); ring. }
  rewrite EE in A1, A0.
  assert (Far : forall l, length l = (samples * s)%nat -> Forall (fun y => cluster_shape k (n_objects e) (x_clusters y) /\ disjoint_groups (x_clusters y)) l ->
    A l = true -> far eps (average (fun y => f (x_clusters y)) (skipn (i + j) (kept (every s) l))) (probability (free o)) = true).
  { intros l Hl Hg Al. unfold far. destruct (Rlt_dec _ _) as [Hlt'|]; auto. exfalso. apply (HA l Al).
    destruct (@run_charts k (n_objects e) disk smp mb pb n_col names s samples l Hk0 Hs0 ltac:(lia) Hl Hg Hsmp M0 (Qlt_le_weak _ _ M1) B0 (Qlt_le_weak _ _ B1) Ln Hc Hlt)
      as (i' & j' & pies & Hij & Ri' & Rj' & Ep & Lp & H).
    assert (i' = i) by (eapply rounded_down_unique; eauto). subst i'. assert (j' = j) by (eapply rounded_up_unique; eauto). subst j'.
    destruct (nth_error pies o) as [p|] eqn:Eo; [|apply nth_error_None in Eo; lia].
    exists pies, p. conj; auto. rewrite (H o p Eo). exact Hlt'. }
  assert (P1 : positive_env e1) by (apply positive_resample; auto). assert (P0 : positive_env e0) by (apply positive_resample; auto).
  split.
  - eapply Rle_trans; [|exact A1]. apply path_mono; [|apply Hs; auto|].
    + assert (sto : stochastic states (sampler_matrix e1 moves (log_lh e1) (log_prior e1 r) states)) by (apply sampler_stochastic; auto; [apply (positive_valid P1 Hp)|apply Hf|apply Hf]).
      apply sto.
    + intros l Hl Hg. apply Far; auto. eapply Forall_impl; [|exact Hg]. intros y Hy. apply Hs in Hy as [(Y1 & Y2 & _) _]. auto.
  - eapply Rle_trans; [|exact A0]. apply path_mono; [|apply Hs'; auto|].
    + assert (sto : stochastic states' (sampler_matrix e0 moves' (log_mix e0) (log_cluster_prior r) states')) by (apply sampler_stochastic; auto; [apply (positive_valid P0 Hp)|apply Hf'|apply Hf']).
      apply sto.
    + intros l Hl Hg. apply Far; auto. eapply Forall_impl; [|exact Hg]. intros y Hy. apply Hs' in Hy as [(Y1 & Y2 & _) _]. auto.
Qed.
Print Assumptions C81_shares.

(** The same for pairs: the weights of the lines of two objects on the density maps, summed over the clusters, are near the
    posterior probability that the two are in the same cluster. *)
Lemma run_pairs (k n : nat) disk smp b delaunay locations s samples (l : list cstate) p q :
  (0 < k)%nat -> (0 < s)%nat -> (0 < samples)%nat -> length l = (samples * s)%nat ->
  Forall (fun y => cluster_shape k n (x_clusters y) /\ disjoint_groups (x_clusters y)) l ->
  (forall y, ls_clusters (smp y) = x_clusters y /\ length (ls_ce (smp y)) = k) ->
  (0 <= b)%Q -> (b <= 1)%Q -> length locations = n -> (p < q)%nat -> (q < n)%nat ->
  exists i j gs, rounded_down b samples i /\ rounded_up b (samples - i) j /\
    density_of_run delaunay b locations disk (map smp (kept (every s) l)) = Some gs /\
    ((i + j < samples)%nat -> exists ws, Forall2 (fun g w => In (p, q, Some w) (snd g)) gs ws /\
      Q2R (Qsum ws) = average (fun y => if together p q (x_clusters y) then 1 else 0) (skipn (i + j) (kept (every s) l))).
Proof.
  intros Hk Hs Hsa Hl Hg Hsmp B0 B1 Ln Hpq Hq.
  assert (Lk : length (kept (every s) l) = samples) by (rewrite kept_length, Hl; apply n_logged_every; auto).
  assert (Gk : Forall (fun y => cluster_shape k n (x_clusters y) /\ disjoint_groups (x_clusters y)) (kept (every s) l)).
  { apply Forall_forall. intros y Hy. rewrite Forall_forall in Hg. apply Hg. eapply kept_in; eauto. }
  set (ys := kept (every s) l) in *. clearbody ys. destruct ys as [|y0 ys]; [simpl in Lk; lia|].
  destruct (@C81_pairs k n disk (smp y0) (map smp ys) b delaunay locations) as (i & j & gs & Hij & Ri & Rj & Ep & Lp & H); auto.
  - lia.
  - change (smp y0 :: map smp ys) with (map smp (y0 :: ys)). rewrite Forall_map. eapply Forall_impl; [|exact Gk]. intros y [[E1 E2] _]. destruct (Hsmp y) as [E3 E4].
    unfold wf_sample, wf_clusters. rewrite E3. conj; auto.
  - change (smp y0 :: map smp ys) with (map smp (y0 :: ys)). rewrite Forall_map. eapply Forall_impl; [|exact Gk]. intros y [_ D]. destruct (Hsmp y) as [E3 _]. rewrite E3. exact D.
  - change (smp y0 :: map smp ys) with (map smp (y0 :: ys)) in *. rewrite map_length, Lk in *. exists i, j, gs. conj; auto.
    intros Hlt. destruct (H p q Hpq Hq Hlt) as (ws & F & E). exists ws. split; auto. rewrite (Qeq_eqR _ _ E). unfold frequency, average.
    rewrite (Rsum_number _ (fun y => together p q (x_clusters y))), Q2R_div.
    + rewrite skipn_map', number_map, map_length. f_equal.
      * rewrite INR_IZR_INZ. unfold Q2R, inject_Z. cbn [Qnum Qden]. rewrite Rinv_1, Rmult_1_r. f_equal. f_equal. apply number_ext. intros y _. destruct (Hsmp y) as [-> _]. reflexivity.
      * rewrite INR_IZR_INZ. unfold Q2R, inject_Z. cbn [Qnum Qden]. rewrite Rinv_1, Rmult_1_r. reflexivity.
    + rewrite skipn_length, map_length, Lk. change 0%Q with (inject_Z 0). rewrite inject_Z_injective. lia.
Qed.
Theorem C81_pair_weights : forall e k moves moves' r states states' b delaunay locations,
  let e1 := set_resample true e in let e0 := set_resample false e in
  positive_env e -> (0 <= e_pconn e <= 1)%Q -> length (e_ce e) = k -> (0 < k)%nat ->
  (forall cl, 0 < r cl) -> full_schedule e1 moves -> cluster_schedule e0 moves' -> (k * e_min e < n_objects e)%nat ->
  NoDup states -> (forall x, In x states <-> good_src e1 k x) -> NoDup states' -> (forall x, In x states' <-> good_none e0 k x) ->
  (0 <= b < 1)%Q -> length locations = n_objects e ->
  let probability (A : bmat -> bool) := Rsum (map (fun y => if A (x_clusters y) then collapsed e r (x_clusters y) else 0) states') / Rsum (map (fun y => collapsed e r (x_clusters y)) states') in
  forall eps eta, 0 < eps -> 0 < eta -> exists N, forall p q smp disk x x' samples s, (p < q)%nat -> (q < n_objects e)%nat ->
  (forall y, ls_clusters (smp y) = x_clusters y /\ length (ls_ce (smp y)) = k) ->
  good_src e1 k x -> good_none e0 k x' -> (0 < s)%nat -> (N <= samples)%nat ->
  let near l := exists gs ws, density_of_run delaunay b locations disk (map smp (kept (every s) l)) = Some gs /\
    Forall2 (fun g w => In (p, q, Some w) (snd g)) gs ws /\ Rabs (Q2R (Qsum ws) - probability (together p q)) < eps in
  forall A, (forall l, A l = true -> ~ near l) ->
    path_prob (sampler_matrix e1 moves (log_lh e1) (log_prior e1 r) states) states (samples * s) x A <= eta /\
    path_prob (sampler_matrix e0 moves' (log_mix e0) (log_cluster_prior r) states') states' (samples * s) x' A <= eta.
Proof.
  intros e k moves moves' r states states' b delaunay locations e1 e0 Pe Hp Hk Hk0 Hr Hf Hf' Hn Hnd Hs Hnd' Hs' [B0 B1] Ln probability eps eta He Ht.
  destruct (@C78_averages e k moves moves' r states states' Pe Hp Hk Hk0 Hr Hf Hf' Hn Hnd Hs Hnd' Hs' eps eta He Ht) as (N & Av). fold e1 e0 in Av.
  destruct (@burn_in_room b b (Nat.max N 1) B0 B1 B0 B1) as (N' & Room). exists (Nat.max N' 1).
  intros p q smp disk x x' samples s Hpq Hq Hsmp Gx Gx' Hs0 HN near A HA.
  destruct (L_names.burnin_index (q := b) samples B0 (Qlt_le_weak _ _ B1)) as (i & _ & Hi & Lo & Hi2).
  assert (Ri : rounded_down b samples i) by (unfold rounded_down; rewrite inject_Z_plus in Hi2; split; auto).
  destruct (@ceil_index b (samples - i) B0 (Qlt_le_weak _ _ B1)) as (j & _ & Hj & Rj).
  pose proof (Room samples i j ltac:(lia) Ri Rj) as Hb.
  set (f := fun cl => if together p q cl then 1 else 0).
  destruct (Av f) with (x := x) (x' := x') (samples := samples) (s := s) (b := (i + j)%nat) as [A1 A0]; auto; [|lia|].
  { intros cl _. unfold f. destruct (together p q cl); lra. }
  match type of A1 with path_prob _ _ _ _ (fun l => far _ _ ?E) <= _ => assert (EE : E = probability (together p q)) end.
  { unfold probability. f_equal. f_equal. apply map_ext. intros y. unfold f. destruct (together p q (x_clusters y)); ring. }
  rewrite EE in A1, A0.
  assert (Far : forall l, length l = (samples * s)%nat -> Forall (fun y => cluster_shape k (n_objects e) (x_clusters y) /\ disjoint_groups (x_clusters y)) l ->
    A l = true -> far eps (average (fun y => f (x_clusters y)) (skipn (i + j) (kept (every s) l))) (probability (together p q)) = true).
  { intros l Hl Hg Al. unfold far. destruct (Rlt_dec _ _) as [Hlt'|]; auto. exfalso. apply (HA l Al).
    destruct (@run_pairs k (n_objects e) disk smp b delaunay locations s samples l p q Hk0 Hs0 ltac:(lia) Hl Hg Hsmp B0 (Qlt_le_weak _ _ B1) Ln Hpq Hq)
      as (i' & j' & gs & Ri' & Rj' & Ep & H).
    assert (i' = i) by (eapply rounded_down_unique; eauto). subst i'. assert (j' = j) by (eapply rounded_up_unique; eauto). subst j'.
    destruct H as (ws & F & E); [lia|]. exists gs, ws. conj; auto. rewrite E. exact Hlt'. }
  assert (P1 : positive_env e1) by (apply positive_resample; auto). assert (P0 : positive_env e0) by (apply positive_resample; auto).
  split.
  - eapply Rle_trans; [|exact A1]. apply path_mono; [|apply Hs; auto|].
    + assert (sto : stochastic states (sampler_matrix e1 moves (log_lh e1) (log_prior e1 r) states)) by (apply sampler_stochastic; auto; [apply (positive_valid P1 Hp)|apply Hf|apply Hf]).
      apply sto.
    + intros l Hl Hg. apply Far; auto. eapply Forall_impl; [|exact Hg]. intros y Hy. apply Hs in Hy as [(Y1 & Y2 & _) _]. auto.
  - eapply Rle_trans; [|exact A0]. apply path_mono; [|apply Hs'; auto|].
    + assert (sto : stochastic states' (sampler_matrix e0 moves' (log_mix e0) (log_cluster_prior r) states')) by (apply sampler_stochastic; auto; [apply (positive_valid P0 Hp)|apply Hf'|apply Hf']).
      apply sto.
    + intros l Hl Hg. apply Far; auto. eapply Forall_impl; [|exact Hg]. intros y Hy. apply Hs' in Hy as [(Y1 & Y2 & _) _]. auto.
Qed.
Print Assumptions C81_pair_weights.

(** The setting of C78, with two columns, the default burn-ins of 20%, and samples that log the clusters of the state. *)
Definition log_state (y : cstate) : lsample :=
  {| ls_step := 0; ls_lh := 0; ls_prior := 0; ls_clusters := x_clusters y; ls_weights := []; ls_ce := [[]; []]; ls_cf := [] |}.
Example C81_shares_case : (0 <= 2 # 10 < 1)%Q /\ (2 <= 2)%nat /\ (2 < n_objects demo_env)%nat /\
  (forall y, ls_clusters (log_state y) = x_clusters y /\ length (ls_ce (log_state y)) = 2%nat) /\
  free 2 (x_clusters demo_x) = true /\ free 2 (x_clusters demo_y) = false /\
  (exists pies p, pies_of_run 0 0 2 (repeat (s_ "name") (n_objects demo_env)) None (map log_state (kept (every 1) [demo_x; demo_y])) = Some pies /\
     nth_error pies 2 = Some p /\ fold_right Z.add 0%Z (p_slices p) = 2%Z /\ nth 2 (p_slices p) 0%Z = 1%Z).
Proof.
  conj; try (vm_compute; congruence); try reflexivity; try (intros; split; reflexivity); try (apply Nat.ltb_lt; reflexivity); auto.
  eexists. eexists. conj; vm_compute; reflexivity.
Qed.
