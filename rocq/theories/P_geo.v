(** Property theorems C65 and C66: the cost-based geo-prior. *)
From Coq Require Import QArith Reals Qreals Permutation Sorted Lqa.
From Coq Require Lra.
From Verif Require Import M_util S_geo L_geo L_geo2.
Open Scope Q_scope.

(** C65. For every cost matrix whose finite non-negative entries connect all objects of a cluster, and
    whatever argsort does with ties: the kept edges are a spanning tree; the sum is the least total cost
    of any set of edges connecting the cluster; the maximum is the least possible largest edge; with
    positive costs the mean is the sum divided by the number of edges. *)
Theorem C65_cheapest_connection : forall sort m, argsorts sort -> square m -> nonneg m -> (exists t, connects m t) -> (1 < length m)%nat ->
  let t0 := spanning_tree sort m in
  connects m t0 /\ length t0 = (length m - 1)%nat /\
  aggregate Sum (distances sort m) == Qsum (map cost_of t0) /\
  (forall t, connects m t -> aggregate Sum (distances sort m) <= Qsum (map cost_of t)) /\
  (exists x, In x t0 /\ aggregate Max (distances sort m) == cost_of x) /\ (forall x, In x t0 -> cost_of x <= aggregate Max (distances sort m)) /\
  (forall t, connects m t -> exists x, In x t /\ aggregate Max (distances sort m) <= cost_of x) /\
  (positive_costs m -> aggregate Mean (distances sort m) == Qsum (map cost_of t0) / inject_Z (Z.of_nat (length m - 1))).
Proof.
  intros sort m Hs Hq Hn Hc Hl t0.
  pose proof (tree_connects Hs Hq Hc) as Ct. pose proof (tree_length Hs Hq Hc) as Lt. fold t0 in Ct, Lt.
  assert (Nt : forall q, In q (map cost_of t0) -> 0 <= q).
  { intros q H. apply in_map_iff in H as (x & <- & Hx). destruct Ct as [Ct _]. rewrite Forall_forall in Ct. eapply nonneg_edge; eauto. }
  assert (Ne : map cost_of t0 <> []) by (intros E; apply (f_equal (@length _)) in E; rewrite map_length in E; simpl in E; lia).
  conj; auto.
  - apply agg_sum.
  - intros t Ht. rewrite agg_sum. eapply dominated_sum; eauto.
    + apply Forall_forall. intros q H. apply in_map_iff in H as (x & <- & Hx). destruct Ht as [Ht _]. rewrite Forall_forall in Ht. eapply nonneg_edge; eauto.
    + intros w. apply tree_dominated; auto.
  - destruct (@agg_max_in sort m Nt Ne) as (q & H & E). apply in_map_iff in H as (x & <- & Hx). eauto.
  - intros x Hx. apply agg_max_ge; auto. apply in_map. auto.
  - intros t Ht. destruct (@agg_max_in sort m Nt Ne) as (q & H & E). fold t0 in H.
    destruct (Qlt_le_dec (fold_left qmax (map cost_of t) 0) q) as [L|L].
    + exfalso. set (w := fold_left qmax (map cost_of t) 0) in *. pose proof (tree_dominated Hs Hq w Ht) as D. fold t0 in D.
      assert (A : (0 < above w (map cost_of t0))%nat) by (apply above_pos; eauto).
      assert (B : (0 < above w (map cost_of t))%nat) by lia. apply above_pos in B as (a & Ha & Hlt).
      destruct (fold_qmax (map cost_of t) 0) as (_ & F & _). specialize (F a Ha). fold w in F. lra.
    + destruct (fold_qmax (map cost_of t) 0) as (F0 & F1 & F2). destruct F2 as [F2|F2].
      * assert (q == 0) by (rewrite F2 in L; specialize (Nt q H); lra).
        destruct t as [|x t].
        { exfalso. destruct Ht as [_ J]. assert (G : forall u v, joined [] u v -> u = v) by (induction 1; simpl in *; try contradiction; congruence).
          specialize (J 0%nat 1%nat ltac:(lia) Hl). apply G in J. discriminate. }
        exists x. split; [left; reflexivity|]. destruct Ht as [Ht _]. inversion Ht as [|? ? Hx _]; subst. pose proof (nonneg_edge Hn Hx). lra.
      * apply in_map_iff in F2 as (x & F2 & Hx). exists x. split; auto. rewrite F2. lra.
  - intros Hp. rewrite agg_mean; auto.
    + fold t0. rewrite map_length, Lt. reflexivity.
    + intros q H. apply in_map_iff in H as ([[i j] q'] & <- & Hx). unfold t0 in Hx. pose proof Hx as Hx'. rewrite tree_kr in Hx by auto.
      assert (Hij : i <> j) by (eapply kr_ends; eauto).
      apply tree_edges in Hx'; auto. destruct Hx' as (r & A & B). eapply Hp; eauto.
Qed.
Print Assumptions C65_cheapest_connection.

(** The value does not depend on the order of equal costs. *)
Theorem C65_ties : forall sort sort' m g, argsorts sort -> argsorts sort' -> square m -> nonneg m -> (exists t, connects m t) -> (1 < length m)%nat ->
  aggregate g (distances sort m) == aggregate g (distances sort' m).
Proof.
  intros sort sort' m g Hs Hs' Hq Hn Hc Hl.
  destruct (C65_cheapest_connection sort m Hs Hq Hn Hc Hl) as (C1 & _ & S1 & M1 & X1 & Y1 & Z1 & _).
  destruct (C65_cheapest_connection sort' m Hs' Hq Hn Hc Hl) as (C2 & _ & S2 & M2 & X2 & Y2 & Z2 & _).
  assert (ES : aggregate Sum (distances sort m) == aggregate Sum (distances sort' m)).
  { apply Qle_antisym; [rewrite S2|rewrite S1]; auto. }
  destruct g; auto.
  - unfold aggregate, distances in *. pose proof (tree_dominated Hs Hq 0 C2) as D1. pose proof (tree_dominated Hs' Hq 0 C1) as D2.
    assert (N : forall s, argsorts s -> forall q, In q (map cost_of (spanning_tree s m)) -> 0 <= q).
    { intros s Hss q H. apply in_map_iff in H as (x & <- & Hx). eapply nonneg_edge; eauto. eapply tree_edges; eauto. }
    rewrite <- (@nonzero_above sort m (N sort Hs)), <- (@nonzero_above sort' m (N sort' Hs')) in D1, D2.
    assert (EL : length (filter (fun q => negb (Qeq_bool q 0)) (map cost_of (spanning_tree sort m))) =
                 length (filter (fun q => negb (Qeq_bool q 0)) (map cost_of (spanning_tree sort' m)))) by lia.
    revert ES EL. generalize (filter (fun q => negb (Qeq_bool q 0)) (map cost_of (spanning_tree sort m))) as l1.
    generalize (filter (fun q => negb (Qeq_bool q 0)) (map cost_of (spanning_tree sort' m))) as l2. intros l2 l1 ES EL.
    destruct l1, l2; try discriminate; [reflexivity|]. rewrite ES, EL. reflexivity.
  - destruct X1 as (x1 & I1 & E1), X2 as (x2 & I2 & E2). destruct (Z1 _ C2) as (y2 & J2 & L2). destruct (Z2 _ C1) as (y1 & J1 & L1).
    specialize (Y1 _ J1). specialize (Y2 _ J2). lra.
Qed.
Print Assumptions C65_ties.

(** Smaller costs within the clusters never lower the prior, with the sum and the maximum; with the mean
    if all costs between different objects are positive. *)
Lemma aggregate_mono : forall sort m m' g, argsorts sort -> square m -> square m' -> nonneg m -> (exists t, connects m' t) -> (1 < length m)%nat ->
  costs_le m m' -> (g <> Mean \/ positive_costs m) -> aggregate g (distances sort m) <= aggregate g (distances sort m').
Proof.
  intros sort m m' g Hs Hq Hq' Hn Hc' Hl L Hg. pose proof (le_nonneg L Hn) as Hn'. pose proof (Forall2_length L) as EL.
  assert (Hc : exists t, connects m t) by (destruct Hc' as (t' & H); destruct (le_connects L H) as (t & H' & _); eauto).
  assert (Hl' : (1 < length m')%nat) by (rewrite <- EL; exact Hl).
  destruct (C65_cheapest_connection sort m Hs Hq Hn Hc Hl) as (C1 & L1 & S1 & M1 & X1 & Y1 & Z1 & A1).
  destruct (C65_cheapest_connection sort m' Hs Hq' Hn' Hc' Hl') as (C2 & L2 & S2 & M2 & X2 & Y2 & Z2 & A2).
  destruct (le_connects L C2) as (t & Ct & Ft).
  assert (ES : Qsum (map cost_of (spanning_tree sort m)) <= Qsum (map cost_of (spanning_tree sort m'))).
  { rewrite <- S1. eapply Qle_trans; [apply M1; exact Ct|]. clear -Ft. induction Ft; unfold Qsum in *; simpl; lra. }
  destruct g.
  - destruct Hg as [Hg|Hg]; [congruence|]. rewrite A1 by auto. rewrite A2.
    + rewrite EL. apply Qle_shift_div_l.
      * change 0 with (inject_Z 0). rewrite <- Zlt_Qlt. lia.
      * setoid_replace (Qsum (map cost_of (spanning_tree sort m)) / inject_Z (Z.of_nat (length m' - 1)) * inject_Z (Z.of_nat (length m' - 1))) with (Qsum (map cost_of (spanning_tree sort m))); auto.
        field. intros E. change 0 with (inject_Z 0) in E. rewrite inject_Z_injective in E. lia.
    + intros i j r q Hr Hi Hij. destruct (le_edges L (t' := [(i, j, q)])) as (s & Es & En & Ec).
      { constructor; [exists r; auto|constructor]. }
      inversion Ec as [|[[i' j'] q0] ? ? ? Hle Hnil]; subst. inversion Hnil; subst. simpl in En. injection En as -> ->.
      inversion Es as [|? ? Hed _]; subst. destruct Hed as (r0 & R1 & R2). pose proof (Hg _ _ _ _ R1 R2 Hij). simpl in Hle. lra.
  - rewrite S1, S2. exact ES.
  - destruct (Z1 t Ct) as (x & Hx & Lx). clear -Hx Lx Ft Y2. 
    assert (G : exists x', In x' (spanning_tree sort m') /\ cost_of x <= cost_of x').
    { clear -Hx Ft. induction Ft as [|a b t t' H F IH]; [contradiction|]. destruct Hx as [->|Hx]; [exists b; simpl; auto|].
      destruct (IH Hx) as (x' & ? & ?). exists x'. simpl; auto. }
    destruct G as (x' & Hx' & Lx'). specialize (Y2 x' Hx'). lra.
Qed.
Theorem C65_monotone_partial : forall sort c pf m m' clusters, argsorts sort -> g_type c = CostBased -> antitone pf ->
  square m -> nonneg m -> finite m' -> costs_le m m' -> (g_aggregation c <> Mean \/ positive_costs m) ->
  Forall (fun z => length z = length m /\ (1 < members z)%nat) clusters ->
  exists v v', geo_prior sort c pf m clusters = GVal v /\ geo_prior sort c pf m' clusters = GVal v' /\ (v' <= v)%R.
Proof.
  intros sort c pf m m' clusters Hs Hc Hpf Hq Hn Hf L Hg Hz. unfold geo_prior. rewrite Hc.
  assert (Hq' : square m').
  { unfold square in *. clear -L Hq. pose proof (Forall2_length L) as E. rewrite <- E. generalize dependent (length m). intros n Hq _.
    induction L; auto. inversion Hq; subst. constructor; auto. rewrite <- (Forall2_length H). auto. }
  assert (G : forall a a', (a' <= a)%R -> exists v v', cost_based sort (g_aggregation c) pf m clusters a = GVal v /\
     cost_based sort (g_aggregation c) pf m' clusters a' = GVal v' /\ (v' <= v)%R).
  { induction Hz as [|z r [Hlz Hmz] Hz IH]; intros a a' Ha; cbn [cost_based]; [eauto|].
    assert (Hlz' : length z = length m') by (rewrite <- (Forall2_length L); auto).
    rewrite (z_length Hq Hlz), (z_length Hq' Hlz'). destruct (Nat.ltb_spec 1 (members z)); [|lia]. apply IH.
    assert (Hagg : aggregate (g_aggregation c) (distances sort (cost_mat_z m z)) <= aggregate (g_aggregation c) (distances sort (cost_mat_z m' z))).
    { apply aggregate_mono; auto.
      - apply z_square; auto.
      - apply z_square; auto.
      - apply z_nonneg; auto.
      - apply finite_connects; [apply z_square; auto|apply z_finite; auto].
      - rewrite (z_length Hq Hlz). auto.
      - apply z_le; auto.
      - destruct Hg as [Hg|Hg]; auto. right. apply z_positive; auto. }
    apply Hpf in Hagg. Lra.lra. }
  apply G. Lra.lra.
Qed.
Print Assumptions C65_monotone_partial.

(** The prior adds up over the clusters: with clusters [z1 .. zk] it is the sum of the probability function at the
    aggregated costs of the cheapest tree within each cluster, where entry (i, j) of the costs within a cluster is the
    cost between its i-th and its j-th member.  So it does not depend on the order of the clusters. *)
Definition positions (z : list bool) : list nat := filter (fun i => nth i z false) (seq 0 (length z)).
Definition within (m : costs) (z : list bool) : costs :=
  map (fun i => map (fun j => nth j (nth i m []) None) (positions z)) (positions z).
Definition cluster_term (sort : list edge -> list edge) (g : aggregation) (pf : Q -> R) (m : costs) (z : list bool) : R :=
  pf (aggregate g (distances sort (within m z))).
Lemma mask_positions A (d : A) z : forall l, length z = length l -> mask z l = map (fun i => nth i l d) (positions z).
Proof.
  unfold positions. induction z as [|b z IH]; intros [|x l] H; try discriminate; [reflexivity|]. injection H as H.
  cbn [mask length seq filter]. change (nth 0 (b :: z) false) with b. rewrite <- seq_shift.
  assert (E : map (fun i => nth i (x :: l) d) (filter (fun i => nth i (b :: z) false) (map S (seq 0 (length z)))) = mask z l).
  { rewrite (IH l H). generalize (seq 0 (length z)) as is. induction is as [|i is IHi]; [reflexivity|]. cbn [map filter].
    change (nth (S i) (b :: z) false) with (nth i z false).
    destruct (nth i z false); cbn [map]; rewrite IHi; reflexivity. }
  destruct b; cbn [map]; rewrite E; reflexivity.
Qed.
Lemma within_mask m z : square m -> length z = length m -> cost_mat_z m z = within m z.
Proof.
  intros Q L. unfold cost_mat_z, within. rewrite (@mask_positions _ [] z m L), map_map. apply map_ext_in. intros i Hi.
  apply (@mask_positions _ None). unfold positions in Hi. apply filter_In in Hi as [Hi _]. apply in_seq in Hi. unfold square in Q. rewrite Forall_forall in Q.
  rewrite (Q (nth i m [])); auto. apply nth_In. rewrite <- L. lia.
Qed.
Theorem C65_sum : forall sort c pf m clusters, g_type c = CostBased -> square m ->
  Forall (fun z => length z = length m /\ (1 < members z)%nat) clusters ->
  geo_prior sort c pf m clusters = GVal (fold_right Rplus 0%R (map (cluster_term sort (g_aggregation c) pf m) clusters)) /\
  forall clusters', Permutation clusters clusters' -> geo_prior sort c pf m clusters' = geo_prior sort c pf m clusters.
Proof.
  intros sort c pf m clusters Hc Hq Hz.
  assert (G : forall clusters, Forall (fun z => length z = length m /\ (1 < members z)%nat) clusters ->
    geo_prior sort c pf m clusters = GVal (fold_right Rplus 0%R (map (cluster_term sort (g_aggregation c) pf m) clusters))).
  { unfold geo_prior. rewrite Hc. intros cs F. rewrite <- (Rplus_0_l (fold_right _ _ _)). generalize 0%R at 1 2 as acc.
    induction F as [|z cs [L1 L2] F IH]; intros acc; cbn [cost_based map fold_right]; [rewrite Rplus_0_r; reflexivity|].
    cbv zeta. rewrite (z_length Hq L1). apply Nat.ltb_lt in L2. rewrite L2, IH. unfold cluster_term. rewrite (within_mask m z Hq L1). f_equal. Lra.lra. }
  split; [auto|]. intros clusters' HP. rewrite (G clusters Hz), (G clusters').
  - f_equal. clear -HP. induction HP; cbn [map fold_right]; auto; Lra.lra.
  - rewrite Forall_forall in *. intros z Hi. apply Hz. eapply Permutation_in; [symmetry; exact HP|exact Hi].
Qed.
Print Assumptions C65_sum.

(** An arrangement by increasing cost: insertion sort. *)
Fixpoint insert (x : edge) (l : list edge) : list edge :=
  match l with [] => [x] | y :: r => if Qle_bool (cost_of x) (cost_of y) then x :: l else y :: insert x r end.
Definition isort (l : list edge) : list edge := fold_right insert [] l.
Lemma insert_perm x l : Permutation (x :: l) (insert x l).
Proof. induction l as [|y r IH]; simpl; auto. destruct (Qle_bool _ _); auto. rewrite perm_swap. auto. Qed.
Lemma insert_sorted x l : StronglySorted (fun x y => cost_of x <= cost_of y) l -> StronglySorted (fun x y => cost_of x <= cost_of y) (insert x l).
Proof.
  induction 1 as [|y r S IH F]; simpl; [constructor; constructor|]. destruct (Qle_bool (cost_of x) (cost_of y)) eqn:E.
  - apply Qle_bool_iff in E. constructor; [constructor; auto|]. constructor; auto. eapply Forall_impl; [|exact F]. intros z Hz; cbv beta in *; lra.
  - constructor; auto. apply Forall_forall. intros z Hz. apply (Permutation_in _ (Permutation_sym (insert_perm x r))) in Hz. destruct Hz as [<-|Hz].
    + assert (~ cost_of x <= cost_of y) by (intros H; apply Qle_bool_iff in H; congruence). lra.
    + rewrite Forall_forall in F. auto.
Qed.
Lemma isort_argsorts : argsorts isort.
Proof.
  intros l. induction l as [|x l [P S]]; simpl; [split; [auto|constructor]|]. split.
  - rewrite <- insert_perm. auto.
  - apply insert_sorted; auto.
Qed.

(** Four objects on a line at 0, 1, 3 and 7 and one cluster with all of them: the tree has the costs 1, 2, 4. *)
Definition line (xs : list Z) : costs := map (fun a => map (fun b => Some (inject_Z (Z.abs (a - b)))) xs) xs.
Lemma line_entry xs i j r c : nth_error (line xs) i = Some r -> nth_error r j = Some c ->
  exists a b, nth_error xs i = Some a /\ nth_error xs j = Some b /\ c = Some (inject_Z (Z.abs (a - b))).
Proof.
  unfold line. rewrite nth_error_map. destruct (nth_error xs i) as [a|]; [|discriminate]. intros [= <-]. rewrite nth_error_map.
  destruct (nth_error xs j) as [b|]; [|discriminate]. intros [= <-]. eauto.
Qed.
Lemma line_square xs : square (line xs).
Proof. unfold square, line. rewrite Forall_map, map_length. apply Forall_forall. intros a _. apply map_length. Qed.
Lemma line_nonneg xs : nonneg (line xs).
Proof.
  intros i j r q Hr Hq. destruct (line_entry _ _ _ _ _ Hr Hq) as (a & b & _ & _ & [= ->]).
  change 0 with (inject_Z 0). rewrite <- Zle_Qle. lia.
Qed.
Lemma line_finite xs : finite (line xs).
Proof. intros i j r c Hr Hc. destruct (line_entry _ _ _ _ _ Hr Hc) as (a & b & _ & _ & ->). discriminate. Qed.
Lemma line_positive xs : NoDup xs -> positive_costs (line xs).
Proof.
  intros N i j r q Hr Hq Hij. destruct (line_entry _ _ _ _ _ Hr Hq) as (a & b & Ha & Hb & [= ->]).
  change 0 with (inject_Z 0). rewrite <- Zlt_Qlt. assert (a <> b); [|lia]. intros ->. apply Hij.
  rewrite NoDup_nth_error in N. apply N; [apply nth_error_Some; congruence|congruence].
Qed.
Definition pts : list Z := [0; 1; 3; 7]%Z.
Definition pts' : list Z := [0; 1; 4; 9]%Z.
Example C65_case : argsorts isort /\ square (line pts) /\ nonneg (line pts) /\ (exists t, connects (line pts) t) /\ positive_costs (line pts) /\
  map cost_of (spanning_tree isort (line pts)) = [1; 2; 4] /\
  aggregate Sum (distances isort (line pts)) == 7 /\ aggregate Max (distances isort (line pts)) == 4 /\ aggregate Mean (distances isort (line pts)) == 7#3.
Proof.
  conj; try (vm_compute; reflexivity); [exact isort_argsorts|apply line_square|apply line_nonneg| |].
  - apply finite_connects; [apply line_square|apply line_finite].
  - apply line_positive. repeat constructor; simpl; intuition discriminate.
Qed.
(** The objects move apart: the prior with the mean and [exp(-x / 2)] falls. *)
Lemma exponential_antitone : antitone (fun q => geo_exponential 2 (Q2R q)).
Proof. intros a b H. apply Qle_Rle in H. unfold geo_exponential. Lra.lra. Qed.
Lemma line_le xs ys : length xs = length ys -> (forall i j a b c d, nth_error xs i = Some a -> nth_error xs j = Some b -> nth_error ys i = Some c -> nth_error ys j = Some d ->
  (Z.abs (a - b) <= Z.abs (c - d))%Z) -> costs_le (line xs) (line ys).
Proof.
  intros Hl H. unfold costs_le, line.
  assert (G : forall (f g : Z -> list (option Q)), (forall i a c, nth_error xs i = Some a -> nth_error ys i = Some c -> Forall2 cost_le (f a) (g c)) ->
    Forall2 (Forall2 cost_le) (map f xs) (map g ys)).
  { clear H. revert ys Hl. induction xs as [|x xs IH]; intros [|y ys] Hl f g K; simpl in *; try discriminate; constructor.
    - apply (K 0%nat); reflexivity.
    - apply IH; [lia|]. intros i a c Ha Hc. apply (K (S i)); auto. }
  apply G. intros i a c Ha Hc.
  assert (G' : forall (f g : Z -> option Q), (forall j b d, nth_error xs j = Some b -> nth_error ys j = Some d -> cost_le (f b) (g d)) ->
    Forall2 cost_le (map f xs) (map g ys)).
  { clear -Hl. revert ys Hl. induction xs as [|x xs IH]; intros [|y ys] Hl f g K; simpl in *; try discriminate; constructor.
    - apply (K 0%nat); reflexivity.
    - apply IH; [lia|]. intros i a c Ha Hc. apply (K (S i)); auto. }
  apply G'. intros j b d Hb Hd. simpl. rewrite <- Zle_Qle. eapply H; eauto.
Qed.
Ltac four_points := intros i j a b c d; do 5 (try destruct i as [|i]); simpl; try discriminate;
  do 5 (try destruct j as [|j]); simpl; try discriminate; intros [= <-] [= <-] [= <-] [= <-]; lia.
Definition all_four : list (list bool) := [[true; true; true; true]].
Example C65_monotone_case : costs_le (line pts) (line pts') /\ finite (line pts') /\ positive_costs (line pts) /\
  antitone (fun q => geo_exponential 2 (Q2R q)) /\ Forall (fun z => length z = length (line pts) /\ (1 < members z)%nat) all_four.
Proof.
  conj; [|apply line_finite| |exact exponential_antitone|].
  - apply line_le; [reflexivity|]. four_points.
  - apply line_positive. repeat constructor; simpl; intuition discriminate.
  - repeat constructor.
Qed.

(** Two clusters of two objects: -1 / 2 for the pair at distance 1, -4 / 2 for the pair at distance 4. *)
Example C65_sum_case : let z1 := [true; true; false; false] in let z2 := [false; false; true; true] in
  Forall (fun z => length z = length (line pts) /\ (1 < members z)%nat) [z1; z2] /\
  within (line pts) z2 = [[Some 0; Some 4]; [Some 4; Some 0]] /\
  geo_prior isort {| g_type := CostBased; g_aggregation := Mean; g_skeleton := MST |} (fun q => geo_exponential 2 (Q2R q)) (line pts) [z1; z2]
    = GVal (-1 / 2 + -4 / 2)%R.
Proof.
  cbv zeta. assert (F : Forall (fun z => length z = length (line pts) /\ (1 < members z)%nat) [[true; true; false; false]; [false; false; true; true]]) by (repeat constructor).
  conj; auto. rewrite (proj1 (C65_sum isort {| g_type := CostBased; g_aggregation := Mean; g_skeleton := MST |} _ _ _ eq_refl (line_square pts) F)).
  unfold cluster_term. f_equal. vm_compute within. cbn [map fold_right]. unfold geo_exponential. vm_compute (aggregate _ _). unfold Q2R. simpl. Lra.lra.
Qed.

(** The full statement fails for the mean: edges of cost zero do not count, so that moving an object to the place of
    another one can lower the prior.  Objects at 0, 0, 9 (mean 9) against objects at 0, 1, 9 (mean 9/2). *)
Theorem C65_monotone_refuted : exists sort pf m m' clusters v v', argsorts sort /\ antitone pf /\ square m /\ nonneg m /\ finite m' /\
  costs_le m m' /\ Forall (fun z => length z = length m /\ (1 < members z)%nat) clusters /\
  geo_prior sort {| g_type := CostBased; g_aggregation := Mean; g_skeleton := MST |} pf m clusters = GVal v /\
  geo_prior sort {| g_type := CostBased; g_aggregation := Mean; g_skeleton := MST |} pf m' clusters = GVal v' /\ (v < v')%R.
Proof.
  exists isort, (fun q => geo_exponential 2 (Q2R q)), (line [1; 1; 9]%Z), (line [0; 1; 9]%Z), [[true; true; true]], (0 + geo_exponential 2 (Q2R (8 / 1)))%R, (0 + geo_exponential 2 (Q2R (9 / 2)))%R.
  conj; [exact isort_argsorts|exact exponential_antitone|apply line_square|apply line_nonneg|apply line_finite| |repeat constructor|reflexivity|reflexivity|].
  - apply line_le; [reflexivity|]. four_points.
  - unfold geo_exponential, Q2R. simpl. Lra.lra.
Qed.
Print Assumptions C65_monotone_refuted.

(** C66. Every accepted geo-prior configuration can be evaluated, and according to its settings.  False:
    [diameter_based] always raises; [cost_based] raises for a cluster with one object, which [min = 1]
    allows; and the skeleton has no influence. *)
Theorem C66_evaluates_refuted :
  (exists c sort pf m z, g_type c = DiameterBased /\ argsorts sort /\ square m /\ nonneg m /\ finite m /\ (1 < members z)%nat /\ length z = length m /\
     geo_prior sort c pf m [z] = NoAttribute) /\
  (exists c sort pf m z, g_type c = CostBased /\ argsorts sort /\ square m /\ nonneg m /\ finite m /\ members z = 1%nat /\ length z = length m /\
     geo_prior sort c pf m [z] = TooFew) /\
  (exists c c' sort pf m z, g_skeleton c = MST /\ g_skeleton c' = Complete /\ g_aggregation c = g_aggregation c' /\ g_type c = CostBased /\ g_type c' = CostBased /\
     argsorts sort /\ length z = length m /\ (2 < members z)%nat /\
     geo_prior sort c pf m [z] = geo_prior sort c' pf m [z]).
Proof.
  conj.
  - exists {| g_type := DiameterBased; g_aggregation := Max; g_skeleton := Diameter |}, isort, (fun q => geo_exponential 2 (Q2R q)), (line pts), [true; true; false; false].
    conj; auto using isort_argsorts, line_square, line_nonneg, line_finite.
  - exists {| g_type := CostBased; g_aggregation := Mean; g_skeleton := MST |}, isort, (fun q => geo_exponential 2 (Q2R q)), (line pts), [false; true; false; false].
    conj; auto using isort_argsorts, line_square, line_nonneg, line_finite.
  - exists {| g_type := CostBased; g_aggregation := Mean; g_skeleton := MST |}, {| g_type := CostBased; g_aggregation := Mean; g_skeleton := Complete |}, isort, (fun q => geo_exponential 2 (Q2R q)), (line pts), [true; true; true; false].
    conj; auto using isort_argsorts.
Qed.
Print Assumptions C66_evaluates_refuted.

(** What holds: with uniform or cost-based type the prior has a value exactly if the type is uniform or no
    cluster has fewer than two objects. *)
Theorem C66_evaluates_partial : forall sort c pf m clusters, square m -> Forall (fun z => length z = length m) clusters ->
  (exists v, geo_prior sort c pf m clusters = GVal v) <->
  (g_type c = Uniform \/ (g_type c = CostBased /\ Forall (fun z => (1 < members z)%nat) clusters)).
Proof.
  intros sort c pf m clusters Hq Hz. unfold geo_prior. destruct (g_type c).
  - split; [auto|]. intros _. eauto.
  - transitivity (Forall (fun z => (1 < members z)%nat) clusters).
    + generalize 0%R. induction Hz as [|z r Hlz Hz IH]; intros a; cbn [cost_based]; [split; eauto|].
      rewrite (z_length Hq Hlz). destruct (Nat.ltb_spec 1 (members z)) as [H|H].
      * rewrite IH. split; [intros F; constructor; auto|intros F; inversion F; auto].
      * split; [intros (v & [=])|]. intros F. inversion F; subst. lia.
    + split; [auto|]. intros [[=]|[_ H]]. exact H.
  - split; [intros (v & [=])|]. intros [[=]|[[=] _]].
Qed.
Print Assumptions C66_evaluates_partial.
Example C66_case : square (line pts) /\ Forall (fun z => length z = length (line pts)) [[true; true; false; false]; [false; false; true; true]] /\
  exists v, geo_prior isort {| g_type := CostBased; g_aggregation := Sum; g_skeleton := MST |} (fun q => geo_exponential 2 (Q2R q)) (line pts)
    [[true; true; false; false]; [false; false; true; true]] = GVal v.
Proof.
  assert (F : Forall (fun z => length z = length (line pts)) [[true; true; false; false]; [false; false; true; true]]) by repeat constructor.
  split; [apply line_square|]. split; [exact F|]. apply (C66_evaluates_partial isort {| g_type := CostBased; g_aggregation := Sum; g_skeleton := MST |} (fun q => geo_exponential 2 (Q2R q)) (line pts) _ (line_square pts) F).
  right. split; [reflexivity|repeat constructor].
Qed.
