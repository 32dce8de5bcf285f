(** Lemmas for C65: the spanning tree of a cost matrix and the aggregated costs. *)
From Coq Require Import QArith Reals Qreals Permutation Sorted Lqa.
From Verif Require Import S_geo L_geo.
Set Implicit Arguments.
Unset Strict Implicit.
Open Scope Q_scope.

Lemma nth_error_concat_in A (l : list (list A)) x : In x (concat l) <-> exists i r, nth_error l i = Some r /\ In x r.
Proof.
  rewrite in_concat. split.
  - intros (r & Hr & Hx). apply In_nth_error in Hr as (i & Hi). eauto.
  - intros (i & r & Hi & Hx). exists r. split; auto. eapply nth_error_In; eauto.
Qed.
Lemma csgraph_edges m x : In x (csgraph m) <-> is_edge m x.
Proof.
  destruct x as [[i j] q]. unfold csgraph, is_edge. rewrite nth_error_concat_in. split.
  - intros (i' & l & Hl & Hx). rewrite nth_error_mapi in Hl. destruct (nth_error m i') as [r|] eqn:Er; [|discriminate]. injection Hl as <-.
    apply nth_error_concat_in in Hx as (j' & l & Hl & Hx). rewrite nth_error_mapi in Hl. destruct (nth_error r j') as [c|] eqn:Ec; [|discriminate].
    injection Hl as <-. destruct c as [q'|]; [|contradiction]. destruct Hx as [[= <- <- <-]|[]]. eauto.
  - intros (r & Hr & Hq). exists i. eexists. rewrite nth_error_mapi, Hr. split; [reflexivity|].
    apply nth_error_concat_in. exists j. eexists. rewrite nth_error_mapi, Hq. split; [reflexivity|]. simpl. auto.
Qed.
Lemma edge_within m x : square m -> is_edge m x -> within (length m) x.
Proof.
  destruct x as [[i j] q]. unfold square, within, is_edge. simpl. intros S (r & Hr & Hq). rewrite Forall_forall in S. split.
  - apply nth_error_Some. congruence.
  - rewrite <- (S r (nth_error_In _ _ Hr)). apply nth_error_Some. congruence.
Qed.

Lemma classes_seq n : classes (seq 0 n) = n.
Proof. unfold classes. rewrite nodup_fixed_point by apply seq_NoDup. apply seq_length. Qed.

Section Sort.
Variable sort : list edge -> list edge.
Hypothesis Hsort : argsorts sort.

Section Matrix.
Variable m : costs.
Hypothesis Hsq : square m.
Let n := length m.
Let es := sort (csgraph m).
Lemma es_edges x : In x es <-> is_edge m x.
Proof.
  rewrite <- csgraph_edges. destruct (Hsort (csgraph m)) as [P _]. split; intros H.
  - eapply Permutation_in; [apply Permutation_sym; exact P|exact H].
  - eapply Permutation_in; [exact P|exact H].
Qed.
Lemma es_within : Forall (within n) es.
Proof. apply Forall_forall. intros x Hx. apply edge_within; auto. apply es_edges; auto. Qed.
Lemma tree_kr : spanning_tree sort m = kr (seq 0 n) es.
Proof.
  unfold spanning_tree. fold n es. apply kruskal_kr.
  - rewrite classes_seq. lia.
  - rewrite seq_length. apply es_within.
Qed.
Lemma tree_edges x : In x (spanning_tree sort m) -> is_edge m x.
Proof. rewrite tree_kr. intros H. apply kr_incl in H. apply es_edges; auto. Qed.
Hypothesis Hcon : exists t, connects m t.
Lemma all_joined u v : (u < n)%nat -> (v < n)%nat -> joined es u v.
Proof.
  destruct Hcon as (t & Ht & Hj). intros Hu Hv. generalize (Hj u v Hu Hv). apply joined_incl. intros x Hx. apply es_edges.
  rewrite Forall_forall in Ht. auto.
Qed.
Lemma tree_connects : connects m (spanning_tree sort m).
Proof.
  split; [apply Forall_forall; apply tree_edges|]. intros u v Hu Hv. rewrite tree_kr.
  apply (@kr_joined n es (seq 0 n) [] (rep_start n) es_within u v). apply all_joined; auto.
Qed.
Lemma tree_length : length (spanning_tree sort m) = (n - 1)%nat.
Proof.
  rewrite tree_kr. pose proof (@kr_count es (seq 0 n)) as C. rewrite seq_length in C. specialize (C es_within). rewrite classes_seq in C.
  destruct (@rep_labels n es (seq 0 n) [] (rep_start n) es_within) as [Hl Hr].
  destruct (Nat.eq_dec n 0) as [E|E].
  - pose proof (@kr_length es (seq 0 n)). lia.
  - assert (Hc : classes (labels (seq 0 n) es) = 1%nat); [|lia].
    assert (H1 : (1 <= classes (labels (seq 0 n) es))%nat).
    { unfold classes. destruct (nodup Nat.eq_dec (labels (seq 0 n) es)) as [|a l] eqn:En; simpl; [|lia].
      assert (Hin : In (nth 0 (labels (seq 0 n) es) 0%nat) (nodup Nat.eq_dec (labels (seq 0 n) es))) by (apply nodup_In, nth_In; lia).
      rewrite En in Hin. contradiction. }
    assert (H2 : (classes (labels (seq 0 n) es) <= classes (repeat 0%nat n))%nat).
    { apply (@classes_coarser n); auto; [apply repeat_length|]. intros u v Hu Hv _. apply Hr; auto. simpl. apply all_joined; auto. }
    assert (H3 : (classes (repeat 0%nat n) <= 1)%nat).
    { unfold classes. change 1%nat with (length [0%nat]). apply NoDup_incl_length; [apply NoDup_nodup|]. intros x Hx. apply nodup_In in Hx.
      apply repeat_spec in Hx. subst. simpl; auto. }
    lia.
Qed.
Lemma tree_dominated t w : connects m t -> (above w (map cost_of (spanning_tree sort m)) <= above w (map cost_of t))%nat.
Proof.
  intros [Ht Hj]. rewrite tree_kr. apply dominated.
  - apply es_within.
  - apply Hsort.
  - intros x Hx. apply es_edges. rewrite Forall_forall in Ht. auto.
  - intros u v Hu Hv _. apply Hj; auto.
Qed.
End Matrix.
End Sort.

(** * Aggregates *)
Lemma nonneg_edge m x : nonneg m -> is_edge m x -> 0 <= cost_of x.
Proof. destruct x as [[i j] q]. intros N (r & Hr & Hq). eapply N; eauto. Qed.
Lemma Qsum_nonzero l : Qsum (filter (fun q => negb (Qeq_bool q 0)) l) == Qsum l.
Proof.
  induction l as [|q l IH]; simpl; [reflexivity|]. destruct (Qeq_bool q 0) eqn:E; simpl; unfold Qsum in *; simpl; rewrite IH; [|reflexivity].
  apply Qeq_bool_eq in E. lra.
Qed.
Lemma fold_qmax l : forall x, x <= fold_left qmax l x /\ (forall a, In a l -> a <= fold_left qmax l x) /\ (fold_left qmax l x = x \/ In (fold_left qmax l x) l).
Proof.
  induction l as [|y l IH]; intros x; simpl.
  - split; [lra|]. split; [contradiction|]. auto.
  - destruct (IH (qmax x y)) as (A & B & C).
    assert (Hx : x <= qmax x y /\ y <= qmax x y /\ (qmax x y = x \/ qmax x y = y)).
    { unfold qmax. destruct (Qle_bool x y) eqn:E.
      - apply Qle_bool_iff in E. split; [auto|split; [lra|auto]].
      - assert (y < x) by (apply Qnot_le_lt; intros H; apply Qle_bool_iff in H; congruence). split; [lra|split; [lra|auto]]. }
    destruct Hx as (H1 & H2 & H3). split; [lra|]. split.
    + intros a [<-|Ha]; [lra|auto].
    + destruct C as [C|C]; auto. rewrite C. destruct H3 as [-> | ->]; auto.
Qed.
Section Agg.
Variable sort : list edge -> list edge.
Variable m : costs.
Let tc := map cost_of (spanning_tree sort m).
Hypothesis Hnn : forall q, In q tc -> 0 <= q.
Lemma agg_sum : aggregate Sum (distances sort m) == Qsum tc.
Proof.
  unfold aggregate, distances. fold tc. rewrite <- (Qsum_nonzero tc).
  destruct (filter _ tc); unfold Qsum; simpl; lra.
Qed.
Lemma agg_max_ge q : In q tc -> q <= aggregate Max (distances sort m).
Proof.
  intros H. unfold aggregate, distances. fold tc. set (f := filter _ tc). assert (Hf : In q f \/ q == 0).
  { unfold f. rewrite filter_In. destruct (Qeq_bool q 0) eqn:E; [right; apply Qeq_bool_eq; auto|left; auto]. }
  assert (Hp : forall a, In a f -> 0 <= a) by (unfold f; intros a Ha; apply filter_In in Ha as [Ha _]; auto).
  destruct f as [|x r].
  - simpl. destruct Hf as [[]|Hf]. lra.
  - destruct (fold_qmax r x) as (A & B & _). pose proof (Hp x (or_introl eq_refl)). destruct Hf as [[<-|Hf]|Hf]; auto. lra.
Qed.
Lemma agg_max_in : tc <> [] -> exists q, In q tc /\ aggregate Max (distances sort m) == q.
Proof.
  intros Hne. unfold aggregate, distances. fold tc. destruct (filter (fun q => negb (Qeq_bool q 0)) tc) as [|x r] eqn:E.
  - destruct tc as [|q l]; [congruence|]. exists q. split; simpl; auto. simpl in E. destruct (Qeq_bool q 0) eqn:Eq; [|discriminate].
    apply Qeq_bool_eq in Eq. lra.
  - destruct (fold_qmax r x) as (_ & _ & C). exists (fold_left qmax r x). split; [|reflexivity].
    assert (In (fold_left qmax r x) (x :: r)) by (destruct C as [-> | C]; simpl; auto). rewrite <- E in H. apply filter_In in H. tauto.
Qed.
Lemma agg_mean : (forall q, In q tc -> 0 < q) -> tc <> [] ->
  aggregate Mean (distances sort m) == Qsum tc / inject_Z (Z.of_nat (length tc)).
Proof.
  intros Hp Hne. unfold aggregate, distances. fold tc. rewrite (@filter_all _ _ tc).
  - destruct tc; [congruence|]. reflexivity.
  - intros q Hq. specialize (Hp q Hq). destruct (Qeq_bool q 0) eqn:E; auto. apply Qeq_bool_eq in E. lra.
Qed.
Lemma nonzero_above : length (filter (fun q => negb (Qeq_bool q 0)) tc) = above 0 tc.
Proof.
  unfold above. induction tc as [|q l IH]; auto. simpl.
  assert (H : Qeq_bool q 0 = Qle_bool q 0).
  { pose proof (Hnn (or_introl eq_refl)) as Hq. destruct (Qeq_bool q 0) eqn:E, (Qle_bool q 0) eqn:E'; auto.
    - apply Qeq_bool_eq in E. assert (q <= 0) by lra. apply Qle_bool_iff in H. congruence.
    - apply Qle_bool_iff in E'. apply Qeq_bool_neq in E. exfalso. apply E. lra. }
  rewrite H. destruct (Qle_bool q 0); simpl; rewrite IH; auto; intros a Ha; apply Hnn; right; auto.
Qed.
End Agg.

(** * The rows and columns of a cluster *)
Fixpoint idx_from (k : nat) (z : list bool) : list nat :=
  match z with [] => [] | b :: z' => if b then k :: idx_from (S k) z' else idx_from (S k) z' end.
Lemma idx_ge z : forall k i p, nth_error (idx_from k z) i = Some p -> (k <= p)%nat.
Proof.
  induction z as [|[] z IH]; intros k i p H; cbn [idx_from] in H.
  - destruct i; discriminate.
  - destruct i as [|i]; cbn [nth_error] in H; [injection H as <-; lia|]. apply IH in H. lia.
  - apply IH in H. lia.
Qed.
Lemma idx_inj z : forall k i j p, nth_error (idx_from k z) i = Some p -> nth_error (idx_from k z) j = Some p -> i = j.
Proof.
  induction z as [|[] z IH]; intros k i j p Hi Hj; simpl in *.
  - destruct i; discriminate.
  - destruct i as [|i], j as [|j]; simpl in *; auto.
    + injection Hi as <-. apply idx_ge in Hj. lia.
    + injection Hj as <-. apply idx_ge in Hi. lia.
    + f_equal. eapply IH; eauto.
  - eapply IH; eauto.
Qed.
Lemma nth_mask A z : forall (l : list A) k i, length z = length l -> nth_error (mask z l) i =
  match nth_error (idx_from k z) i with Some p => nth_error l (p - k) | None => None end.
Proof.
  induction z as [|b z IH]; intros [|x l] k i H; simpl in *; try discriminate.
  - destruct i; reflexivity.
  - injection H as H. destruct b.
    + destruct i as [|i]; simpl; [rewrite Nat.sub_diag; reflexivity|]. rewrite (IH l (S k)) by auto.
      destruct (nth_error (idx_from (S k) z) i) as [p|] eqn:E; auto. apply idx_ge in E.
      destruct (p - k)%nat as [|d] eqn:Ed; [lia|]. simpl. f_equal. lia.
    + rewrite (IH l (S k)) by auto. destruct (nth_error (idx_from (S k) z) i) as [p|] eqn:E; auto. apply idx_ge in E.
      destruct (p - k)%nat as [|d] eqn:Ed; [lia|]. simpl. f_equal. lia.
Qed.
Lemma mask_length A z : forall (l : list A), length z = length l -> length (mask z l) = members z.
Proof.
  unfold members. induction z as [|b z IH]; intros [|x l] H; simpl in *; try discriminate; auto. injection H as H.
  destruct b; simpl; auto.
Qed.
Lemma mask_in A z : forall (l : list A) x, In x (mask z l) -> In x l.
Proof.
  induction z as [|b z IH]; intros [|y l] x; simpl; try tauto. destruct b; simpl; [intros [H|H]; auto|intros H; auto].
Qed.
Lemma z_length m z : square m -> length z = length m -> length (cost_mat_z m z) = members z.
Proof. intros _ H. unfold cost_mat_z. rewrite map_length. apply mask_length; auto. Qed.
Lemma z_square m z : square m -> length z = length m -> square (cost_mat_z m z).
Proof.
  intros S H. unfold square. rewrite (z_length S H). unfold cost_mat_z. rewrite Forall_map. apply Forall_forall. intros r Hr.
  apply mask_length. apply mask_in in Hr. unfold square in S. rewrite Forall_forall in S. rewrite (S r Hr). exact H.
Qed.
Lemma z_entry m z i j r c : square m -> length z = length m -> nth_error (cost_mat_z m z) i = Some r -> nth_error r j = Some c ->
  exists p p' r', nth_error (idx_from 0 z) i = Some p /\ nth_error (idx_from 0 z) j = Some p' /\ nth_error m p = Some r' /\ nth_error r' p' = Some c.
Proof.
  intros S H Hr Hc. unfold cost_mat_z in Hr. rewrite nth_error_map in Hr. destruct (nth_error (mask z m) i) as [r0|] eqn:E; [|discriminate].
  injection Hr as <-. rewrite (nth_mask 0) in E by auto. destruct (nth_error (idx_from 0 z) i) as [p|] eqn:Ep; [|discriminate]. rewrite Nat.sub_0_r in E.
  unfold square in S. rewrite Forall_forall in S. rewrite (nth_mask 0) in Hc by (rewrite (S r0 (nth_error_In _ _ E)); auto).
  destruct (nth_error (idx_from 0 z) j) as [p'|] eqn:Ep'; [|discriminate]. rewrite Nat.sub_0_r in Hc. exists p, p', r0. auto.
Qed.
Lemma z_nonneg m z : square m -> length z = length m -> nonneg m -> nonneg (cost_mat_z m z).
Proof. intros S H N i j r q Hr Hq. destruct (z_entry S H Hr Hq) as (p & p' & r' & _ & _ & A & B). eapply N; eauto. Qed.
Lemma z_finite m z : square m -> length z = length m -> finite m -> finite (cost_mat_z m z).
Proof. intros S H N i j r q Hr Hq. destruct (z_entry S H Hr Hq) as (p & p' & r' & _ & _ & A & B). eapply N; eauto. Qed.
Lemma z_positive m z : square m -> length z = length m -> positive_costs m -> positive_costs (cost_mat_z m z).
Proof.
  intros S H N i j r q Hr Hq Hij. destruct (z_entry S H Hr Hq) as (p & p' & r' & A' & B' & A & B). eapply N; eauto.
  intros ->. apply Hij. eapply idx_inj; eauto.
Qed.
Lemma Forall2_mask A B (R : A -> B -> Prop) z : forall l l', Forall2 R l l' -> Forall2 R (mask z l) (mask z l').
Proof.
  induction z as [|b z IH]; intros l l' H; simpl; auto. destruct H; simpl; auto. destruct b; auto.
Qed.
Lemma z_le m m' z : costs_le m m' -> costs_le (cost_mat_z m z) (cost_mat_z m' z).
Proof.
  intros H. unfold costs_le, cost_mat_z. pose proof (Forall2_mask z H) as G. induction G; simpl; auto. constructor; auto. apply Forall2_mask; auto.
Qed.
Lemma finite_connects m : square m -> finite m -> exists t, connects m t.
Proof.
  intros S F. exists (csgraph m). split; [apply Forall_forall; intros x; apply csgraph_edges|]. intros u v Hu Hv.
  destruct (nth_error m u) as [r|] eqn:Er; [|apply nth_error_None in Er; lia].
  unfold square in S. rewrite Forall_forall in S. pose proof (S r (nth_error_In _ _ Er)) as Hl.
  destruct (nth_error r v) as [c|] eqn:Ec; [|apply nth_error_None in Ec; lia].
  destruct c as [q|]; [|exfalso; eapply F; eauto]. apply (j_edge (q := q)). apply csgraph_edges. exists r. auto.
Qed.
Lemma Forall2_nth_error A B (R : A -> B -> Prop) l l' : Forall2 R l l' -> forall i x y, nth_error l i = Some x -> nth_error l' i = Some y -> R x y.
Proof.
  induction 1 as [|a b l l' H F IH]; intros [|i] x y Hx Hy; simpl in *; try discriminate; [congruence|eauto].
Qed.
Lemma Forall2_length A B (R : A -> B -> Prop) l l' : Forall2 R l l' -> length l = length l'.
Proof. induction 1; simpl; auto. Qed.
Lemma le_nonneg m m' : costs_le m m' -> nonneg m -> nonneg m'.
Proof.
  intros L N i j r' q' Hr Hq. destruct (nth_error m i) as [r|] eqn:Er.
  - pose proof (Forall2_nth_error L Er Hr) as L'. destruct (nth_error r j) as [c|] eqn:Ec.
    + pose proof (Forall2_nth_error L' Ec Hq) as L''. destruct c as [q|]; simpl in L''; [|contradiction]. pose proof (N _ _ _ _ Er Ec). lra.
    + exfalso. apply nth_error_None in Ec. pose proof (Forall2_length L'). assert (j < length r')%nat by (apply nth_error_Some; congruence). lia.
  - exfalso. apply nth_error_None in Er. pose proof (Forall2_length L). assert (i < length m')%nat by (apply nth_error_Some; congruence). lia.
Qed.
Lemma le_edges m m' t' : costs_le m m' -> Forall (is_edge m') t' -> exists t, Forall (is_edge m) t /\ map ends t = map ends t' /\ Forall2 (fun x x' => cost_of x <= cost_of x') t t'.
Proof.
  intros L. induction 1 as [|[[i j] q'] t' Hx H (t & A & B & C)].
  - exists []. simpl. auto.
  - destruct Hx as (r' & Hr & Hq). 
    destruct (nth_error m i) as [r|] eqn:Er.
    + pose proof (Forall2_nth_error L Er Hr) as L'. destruct (nth_error r j) as [c|] eqn:Ec.
      * pose proof (Forall2_nth_error L' Ec Hq) as L''. destruct c as [q|]; simpl in L''; [|contradiction].
        exists ((i, j, q) :: t). simpl. split; [constructor; auto; exists r; auto|]. split; [f_equal; auto|]. constructor; auto.
      * exfalso. apply nth_error_None in Ec. pose proof (Forall2_length L'). assert (j < length r')%nat by (apply nth_error_Some; congruence). lia.
    + exfalso. apply nth_error_None in Er. pose proof (Forall2_length L). assert (i < length m')%nat by (apply nth_error_Some; congruence). lia.
Qed.
Lemma joined_ends t t' u v : map ends t = map ends t' -> joined t' u v -> joined t u v.
Proof.
  intros E. apply joined_sub. intros a b q Hin. assert (H : In (a, b) (map ends t')) by (apply in_map_iff; exists (a, b, q); auto).
  rewrite <- E in H. apply in_map_iff in H as ([[a' b'] q'] & H & Hin'). unfold ends in H. simpl in H. injection H as -> ->. eapply j_edge; eauto.
Qed.
Lemma le_connects m m' t' : costs_le m m' -> connects m' t' -> exists t, connects m t /\ Forall2 (fun x x' => cost_of x <= cost_of x') t t'.
Proof.
  intros L [H J]. destruct (le_edges L H) as (t & A & B & C). exists t. split; auto. split; auto.
  intros u v Hu Hv. pose proof (Forall2_length L). apply (joined_ends B). apply J; lia.
Qed.
