(** Property theorems C10-C14 and the proposal part of C52: the cluster operators. *)
From Verif Require Import M_operators S_operators L_operators L_reverse L_gibbsish L_gibbsish2.
Open Scope Q_scope.

(** ** A concrete setting: 5 objects, 2 features, one confounder with two groups, 2 clusters *)
Definition demo_env : env :=
  {| e_features := [ [[true; false]; [true; false]]; [[true; false]; [false; true]]; [[false; true]; [true; false]];
                     [[false; true]; [false; false]]; [[true; false]; [false; true]] ];
     e_nf := 2;
     e_conf := [ [[true; true; true; false; false]; [false; false; false; true; true]] ];
     e_weights := [[1#3; 2#3]; [1#2; 1#2]];
     e_ce := [ [[1#4; 3#4]; [1#2; 1#2]]; [[1#5; 4#5]; [2#3; 1#3]] ];
     e_cf := [ [ [[1#2; 1#2]; [1#3; 2#3]]; [[1#6; 5#6]; [1#2; 1#2]] ] ];
     e_adj := [[false; true; true; false; false]; [true; false; true; false; false]; [true; true; false; true; false];
               [false; false; true; false; true]; [false; false; false; true; false]];
     e_pconn := 4#5; e_min := 1; e_max := 3; e_resample := true; e_from_prior := false |}.
Definition src0 : list (list bool) := [[false; true]; [false; true]].
Definition src1 : list (list bool) := [[true; false]; [false; true]].
Definition demo_x : cstate :=
  {| x_clusters := [[true; true; false; false; false]; [false; false; false; false; true]];
     x_source := Some [src1; src1; src0; src0; src1] |}.
(** Object 2 joins the first cluster and gets new sources. *)
Definition demo_y : cstate :=
  {| x_clusters := [[true; true; true; false; false]; [false; false; false; false; true]];
     x_source := Some [src1; src1; src1; src0; src1] |}.

Lemma demo_shape : cluster_shape 2 (n_objects demo_env) (x_clusters demo_x).
Proof. split; [reflexivity|repeat constructor]. Qed.
Lemma demo_disjoint : disjoint_groups (x_clusters demo_x).
Proof.
  intros o i j. destruct o as [|[|[|[|[|[|o]]]]]]; destruct i as [|[|[|i]]]; destruct j as [|[|[|j]]];
    simpl; intros; try discriminate; auto.
Qed.
Lemma demo_sizes : sizes_in (e_min demo_env) (e_max demo_env) (x_clusters demo_x).
Proof. repeat constructor; simpl; lia. Qed.
Lemma demo_source : source_ok demo_env demo_x.
Proof.
  split; [reflexivity|]. repeat constructor; first [exists 0%nat; split; [apply Nat.ltb_lt|]; reflexivity | exists 1%nat; split; [apply Nat.ltb_lt|]; reflexivity].
Qed.

(** Decides membership in the support by computation. *)
Definition out_eq_dec (a b : outcome) : {a = b} + {a <> b}.
Proof. repeat decide equality. Defined.
Lemma supp_compute (d : dist outcome) out :
  existsb (fun '(a, p) => (if out_eq_dec a out then true else false) && negb (Qeq_bool p 0)) d = true -> supp d out.
Proof.
  intros H. apply existsb_exists in H as ([a p] & Hin & H). apply andb_true_iff in H as [H1 H2].
  destruct (out_eq_dec a out) as [->|]; [|discriminate]. exists p. split; auto.
  intros E. apply Qeq_bool_iff in E. rewrite E in H2. discriminate.
Qed.
(** The reported probabilities of the first proposal of [y]. *)
Definition reported (d : dist outcome) (y : cstate) : option (option Q * option Q) :=
  match find (fun '(out, p) => match out with Propose y' _ _ => (if cstate_eq_dec y' y then true else false) && negb (Qeq_bool p 0) | _ => false end) d with
  | Some (Propose _ q qb, _) => Some (q, qb)
  | _ => None
  end.
Lemma reported_supp d y q qb : reported d y = Some (q, qb) -> supp d (Propose y q qb).
Proof.
  unfold reported. destruct (find _ d) as [[[|y' q' qb'|] p]|] eqn:E; try discriminate. intros [= <- <-].
  apply find_some in E as [Hin H]. destruct (cstate_eq_dec y' y) as [->|]; [|discriminate].
  exists p; split; auto. intros E. apply Qeq_bool_iff in E. rewrite E in H. discriminate.
Qed.

(** C10. After any history of proposals of the three cluster operators, accepted or rejected, with
    parameters, data and source changing arbitrarily in between, the number of clusters and objects is
    the same and no object is in two clusters. *)
Theorem C10_clusters_disjoint : forall n mn mx ops k x y, chain n mn mx ops x y ->
  cluster_shape k n (x_clusters x) -> disjoint_groups (x_clusters x) ->
  cluster_shape k n (x_clusters y) /\ disjoint_groups (x_clusters y).
Proof. exact chain_invariant. Qed.
Print Assumptions C10_clusters_disjoint.

(** C11. If all sizes are within the bounds at the start they are so after any history. *)
Theorem C11_sizes_within_bounds : forall n mn mx ops k x y, chain n mn mx ops x y ->
  cluster_shape k n (x_clusters x) -> disjoint_groups (x_clusters x) -> sizes_in mn mx (x_clusters x) ->
  sizes_in mn mx (x_clusters y).
Proof. exact chain_sizes. Qed.
Print Assumptions C11_sizes_within_bounds.

(** A history with all three operators. *)
Definition demo_y2 : cstate :=
  {| x_clusters := [[false; true; true; false; false]; [false; false; false; false; true]];
     x_source := Some [src0; src1; src1; src0; src1] |}.
Definition demo_y3 : cstate :=
  {| x_clusters := [[false; true; true; false; false]; [true; false; false; true; false]];
     x_source := Some [src1; src1; src1; src0; src0] |}.
Lemma supp_run o x y q qb : reported (run_op demo_env o x) y = Some (q, qb) -> can_propose demo_env o x y.
Proof. intros H. exists q, qb. apply reported_supp. exact H. Qed.
Example C10_case : chain 5 1 3 (fun _ => True) demo_x demo_y3 /\
  cluster_shape 2 5 (x_clusters demo_x) /\ disjoint_groups (x_clusters demo_x) /\ sizes_in 1 3 (x_clusters demo_x).
Proof.
  refine (conj _ (conj demo_shape (conj demo_disjoint demo_sizes))).
  eapply chain_accept with (e := demo_env) (o := OpGibbsish2) (y := demo_y2); auto.
  - eapply chain_accept with (e := demo_env) (o := OpGibbsish) (y := demo_y); auto.
    + eapply chain_accept with (e := demo_env) (o := OpAlter) (y := demo_x); auto; [apply chain_start|].
      eapply supp_run. vm_compute. reflexivity.
    + eapply supp_run. vm_compute. reflexivity.
  - eapply supp_run. vm_compute. reflexivity.
Qed.

(** C12 is false of [AlterClusterGibbsish]: it compares sizes with [==], so a cluster above the
    maximum can be grown further and a cluster below the minimum can be shrunk further. *)
Definition loose_env (mn mx : nat) : env :=
  {| e_features := [ [[true; false]]; [[true; false]]; [[false; true]]; [[false; true]] ]; e_nf := 1;
     e_conf := [ [[true; true; true; true]] ]; e_weights := [[1#2; 1#2]]; e_ce := [ [[1#2; 1#2]] ];
     e_cf := [ [ [[1#2; 1#2]] ] ]; e_adj := repeat (repeat true 4) 4; e_pconn := 1#2;
     e_min := mn; e_max := mx; e_resample := false; e_from_prior := false |}.
Theorem C12_bounds_from_any_start_refuted :
  (exists e x y z c c', cluster_shape 1 (n_objects e) (x_clusters x) /\ disjoint_groups (x_clusters x) /\
     can_propose e OpGibbsish x y /\ nth_error (x_clusters x) z = Some c /\ nth_error (x_clusters y) z = Some c' /\
     (e_max e < size c)%nat /\ (size c < size c')%nat) /\
  (exists e x y z c c', cluster_shape 1 (n_objects e) (x_clusters x) /\ disjoint_groups (x_clusters x) /\
     can_propose e OpGibbsish x y /\ nth_error (x_clusters x) z = Some c /\ nth_error (x_clusters y) z = Some c' /\
     (size c < e_min e)%nat /\ (size c' < size c)%nat).
Proof.
  assert (Hd : forall c, disjoint_groups [c]).
  { intros c o i j. destruct i as [|[|i]], j as [|[|j]], o; simpl; intros; try discriminate; auto. }
  split.
  - exists (loose_env 0 1), {| x_clusters := [[true; true; false; false]]; x_source := None |},
      {| x_clusters := [[true; true; true; false]]; x_source := None |}, 0%nat, [true; true; false; false], [true; true; true; false].
    repeat apply conj; try reflexivity; try (repeat constructor; fail); try apply Hd.
    eexists _, _. eapply reported_supp. vm_compute. reflexivity.
  - exists (loose_env 3 4), {| x_clusters := [[true; true; false; false]]; x_source := None |},
      {| x_clusters := [[true; false; false; false]]; x_source := None |}, 0%nat, [true; true; false; false], [true; false; false; false].
    repeat apply conj; try reflexivity; try (repeat constructor; fail); try apply Hd.
    eexists _, _. eapply reported_supp. vm_compute. reflexivity.
Qed.
Print Assumptions C12_bounds_from_any_start_refuted.

(** C12 holds for the other two cluster operators. *)
Theorem C12_bounds_from_any_start_partial : forall e o x y k z c c', o <> OpGibbsish -> can_propose e o x y ->
  cluster_shape k (n_objects e) (x_clusters x) ->
  nth_error (x_clusters x) z = Some c -> nth_error (x_clusters y) z = Some c' ->
  ((e_max e <= size c)%nat -> (size c' <= size c)%nat) /\ ((size c <= e_min e)%nat -> (size c <= size c')%nat).
Proof. exact propose_toward_bounds. Qed.
Print Assumptions C12_bounds_from_any_start_partial.

(** A cluster above the maximum that is shrunk. *)
Example C12_case : exists x y, can_propose (loose_env 0 1) OpAlter x y /\
  nth_error (x_clusters x) 0 = Some [true; true; false; false] /\ nth_error (x_clusters y) 0 = Some [true; false; false; false].
Proof.
  exists {| x_clusters := [[true; true; false; false]]; x_source := None |}, {| x_clusters := [[true; false; false; false]]; x_source := None |}.
  repeat apply conj; try reflexivity. eexists _, _. eapply reported_supp. vm_compute. reflexivity.
Qed.

(** C13. In every state as guaranteed by C10 and C11, for every proposal [y] that [AlterCluster] makes
    with reported probabilities [q] and [q_back]: the probability of proposing [y] from [x] is
    [q / (2 k)] and that of proposing [x] from [y] is [q_back / (2 k)].  The operator omits the factor
    1 / (2 k), [k] the number of clusters, from both. *)
Theorem C13_alter_cluster_probabilities : forall e k x y q qb,
  cluster_shape k (n_objects e) (x_clusters x) -> disjoint_groups (x_clusters x) ->
  sizes_in (e_min e) (e_max e) (x_clusters x) -> source_ok e x ->
  supp (alter_cluster e x) (Propose y q qb) ->
  (forall r, q = Some r -> mass (alter_cluster e x) y == r / (2 * inject_Z (Z.of_nat k))) /\
  (forall r, qb = Some r -> mass (alter_cluster e y) x == r / (2 * inject_Z (Z.of_nat k))).
Proof. exact alter_reversible. Qed.
Print Assumptions C13_alter_cluster_probabilities.

(** Object 2 joins a cluster: forward and backward probability, both with sources. *)
Example C13_case : exists q qb,
  supp (alter_cluster demo_env demo_x) (Propose demo_y (Some q) (Some qb)) /\
  cluster_shape 2 (n_objects demo_env) (x_clusters demo_x) /\ disjoint_groups (x_clusters demo_x) /\
  sizes_in (e_min demo_env) (e_max demo_env) (x_clusters demo_x) /\ source_ok demo_env demo_x /\
  0 < q /\ 0 < qb /\ mass (alter_cluster demo_env demo_x) demo_y == q / 4 /\ mass (alter_cluster demo_env demo_y) demo_x == qb / 4.
Proof.
  destruct (reported (alter_cluster demo_env demo_x) demo_y) as [[[q|] [qb|]]|] eqn:E; try (vm_compute in E; discriminate).
  exists q, qb. pose proof (reported_supp _ _ _ _ E) as Hs.
  refine (conj Hs (conj demo_shape (conj demo_disjoint (conj demo_sizes (conj demo_source _))))).
  vm_compute in E. injection E as <- <-.
  repeat apply conj; vm_compute; reflexivity.
Qed.

(** C14. The same for both Gibbs-ish operators; [AlterClusterGibbsish2] omits the factor 1 / k. *)
Theorem C14_gibbsish_probabilities : forall e k x y q qb,
  cluster_shape k (n_objects e) (x_clusters x) -> disjoint_groups (x_clusters x) ->
  sizes_in (e_min e) (e_max e) (x_clusters x) -> source_ok e x ->
  supp (gibbsish e x) (Propose y q qb) ->
  (forall r, q = Some r -> mass (gibbsish e x) y == r / (2 * inject_Z (Z.of_nat k))) /\
  (forall r, qb = Some r -> mass (gibbsish e y) x == r / (2 * inject_Z (Z.of_nat k))).
Proof. exact gibbsish_reversible. Qed.
Print Assumptions C14_gibbsish_probabilities.

Theorem C14_gibbsish2_probabilities : forall e k x y q qb,
  cluster_shape k (n_objects e) (x_clusters x) -> disjoint_groups (x_clusters x) ->
  sizes_in (e_min e) (e_max e) (x_clusters x) -> source_ok e x ->
  supp (gibbsish2 e x) (Propose y q qb) ->
  (forall r, q = Some r -> mass (gibbsish2 e x) y == r / inject_Z (Z.of_nat k)) /\
  (forall r, qb = Some r -> mass (gibbsish2 e y) x == r / inject_Z (Z.of_nat k)).
Proof. exact gibbsish2_reversible. Qed.
Print Assumptions C14_gibbsish2_probabilities.

(** The membership weights do not depend on the clusters, in particular they are the same before and
    after a move. *)
Theorem C14_weights_unchanged : forall e cl cl' i o, cluster_posterior e cl i o = cluster_posterior e cl' i o.
Proof. exact cluster_posterior_clusters. Qed.
Print Assumptions C14_weights_unchanged.

Example C14_case : exists q qb q2 qb2,
  supp (gibbsish demo_env demo_x) (Propose demo_y (Some q) (Some qb)) /\
  supp (gibbsish2 demo_env demo_x) (Propose demo_y (Some q2) (Some qb2)) /\
  cluster_shape 2 (n_objects demo_env) (x_clusters demo_x) /\ disjoint_groups (x_clusters demo_x) /\
  sizes_in (e_min demo_env) (e_max demo_env) (x_clusters demo_x) /\ source_ok demo_env demo_x /\
  0 < q /\ 0 < qb /\ 0 < q2 /\ 0 < qb2.
Proof.
  destruct (reported (gibbsish demo_env demo_x) demo_y) as [[[q|] [qb|]]|] eqn:E; try (vm_compute in E; discriminate).
  destruct (reported (gibbsish2 demo_env demo_x) demo_y) as [[[q2|] [qb2|]]|] eqn:E2; try (vm_compute in E2; discriminate).
  exists q, qb, q2, qb2. refine (conj (reported_supp _ _ _ _ E) (conj (reported_supp _ _ _ _ E2) _)).
  refine (conj demo_shape (conj demo_disjoint (conj demo_sizes (conj demo_source _)))).
  vm_compute in E. injection E as <- <-. vm_compute in E2. injection E2 as <- <-.
  repeat apply conj; reflexivity.
Qed.

(** C52, proposals: a missing observation changes the membership weight.  Object 3 of [demo_env] has
    no observation of feature 1; without that feature its weight is different. *)
Theorem C52_missing_proposal_refuted : exists e cl i o f p p',
  missing_obs e o f /\ cluster_posterior e cl i o = Some p /\
  cluster_posterior (drop_feature f e) cl i o = Some p' /\ ~ p == p'.
Proof.
  eexists demo_env, (x_clusters demo_x), 0%nat, 3%nat, 1%nat, _, _.
  repeat apply conj; [|vm_compute; reflexivity|vm_compute; reflexivity|vm_compute; discriminate].
  eexists _, _. repeat apply conj; [reflexivity|reflexivity|repeat constructor].
Qed.
Print Assumptions C52_missing_proposal_refuted.
