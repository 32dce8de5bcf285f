(** Lemmas for C75: moves of the labels as proposals of the cluster operators. *)
From Coq Require Import Lqa.
From Verif Require Import M_source S_model S_operators S_source S_mcmc S_honest S_gsource S_ergodic
  L_model L_cache L_operators L_reverse L_gibbsish L_gibbsish2 L_source L_params L_honest L_honest2 L_gsource L_gsource2 L_progress L_labels L_reach1.
Set Implicit Arguments.
Unset Strict Implicit.
Close Scope R_scope.
Open Scope Q_scope.
Local Notation nonzero := M_operators.nonzero.

(** * Clusters of labels *)
Definition is_lab (i : nat) (l : option nat) : bool := if lab_dec l (Some i) then true else false.
Definition lrow (i : nat) (u : lab) : list bool := map (is_lab i) u.
Definition mat (k : nat) (u : lab) : bmat := map (fun i => lrow i u) (seq 0 k).
Lemma is_lab_true i l : is_lab i l = true <-> l = Some i.
Proof. unfold is_lab. destruct (lab_dec l (Some i)); split; congruence. Qed.
Lemma lrow_length i u : length (lrow i u) = length u.
Proof. apply map_length. Qed.
Lemma nth_lrow i u a : nth_error (lrow i u) a = option_map (is_lab i) (nth_error u a).
Proof. apply nth_error_map. Qed.
Lemma nth_lrow_true i u a : nth a (lrow i u) false = true <-> nth_error u a = Some (Some i).
Proof.
  destruct (nth_error u a) as [l|] eqn:E.
  - rewrite (nth_error_nth _ _ false (x := is_lab i l)) by (rewrite nth_lrow, E; reflexivity). rewrite is_lab_true. split; congruence.
  - rewrite nth_overflow by (rewrite lrow_length; apply nth_error_None; auto). split; discriminate.
Qed.
Lemma mat_length k u : length (mat k u) = k.
Proof. unfold mat. rewrite map_length, seq_length. reflexivity. Qed.
Lemma nth_mat k u i : nth_error (mat k u) i = if (i <? k)%nat then Some (lrow i u) else None.
Proof.
  unfold mat. rewrite nth_error_map. destruct (Nat.ltb_spec i k).
  - rewrite (nth_error_nth' (seq 0 k) 0%nat) by (rewrite seq_length; auto). rewrite seq_nth by auto. reflexivity.
  - rewrite (proj2 (nth_error_None (seq 0 k) i)) by (rewrite seq_length; auto). reflexivity.
Qed.
Lemma nth_mat_lt k u i : (i < k)%nat -> nth i (mat k u) [] = lrow i u.
Proof. intros H. apply nth_error_nth. rewrite nth_mat. destruct (Nat.ltb_spec i k); auto; lia. Qed.
Lemma nth_mat_true k u i a : nth a (nth i (mat k u) []) false = true <-> (i < k)%nat /\ nth_error u a = Some (Some i).
Proof.
  destruct (Nat.lt_ge_cases i k) as [H|H].
  - rewrite nth_mat_lt by auto. rewrite nth_lrow_true. tauto.
  - rewrite (nth_overflow (mat k u)) by (rewrite mat_length; auto). split; [destruct a; discriminate|lia].
Qed.
Lemma mat_disjoint k u : disjoint_groups (mat k u).
Proof. intros o i j Hi Hj. apply nth_mat_true in Hi as [_ Hi]. apply nth_mat_true in Hj as [_ Hj]. congruence. Qed.
Lemma mat_shape k u : cluster_shape k (length u) (mat k u).
Proof. split; [apply mat_length|]. unfold mat. rewrite Forall_map. apply Forall_forall. intros i _. apply lrow_length. Qed.
Lemma size_lrow i u : size (lrow i u) = cnt (Some i) u.
Proof.
  unfold size, lrow, cnt. induction u as [|l u IH]; simpl; auto. unfold is_lab at 1. destruct (lab_dec l (Some i)); simpl; rewrite IH; auto.
Qed.
Lemma any_mat k u a : (forall i, In (Some i) u -> (i < k)%nat) -> any_group (mat k u) a = match nth_error u a with Some (Some _) => true | _ => false end.
Proof.
  intros R. destruct (any_group (mat k u) a) eqn:E.
  - apply any_group_in in E as (g & Hg & Ha). unfold mat in Hg. apply in_map_iff in Hg as (i & <- & _). apply nth_lrow_true in Ha. rewrite Ha. reflexivity.
  - destruct (nth_error u a) as [[i|]|] eqn:Ea; auto. exfalso. assert (any_group (mat k u) a = true); [|congruence].
    assert (Hi : (i < k)%nat) by (apply R; eapply nth_error_In; eauto).
    apply any_group_in. exists (lrow i u). split; [|apply nth_lrow_true; auto]. unfold mat. apply in_map_iff. exists i. split; auto. apply in_seq. lia.
Qed.
Lemma mat_sizes k mn mx n u : lab_ok k mn mx n u -> sizes_in mn mx (mat k u).
Proof.
  intros (_ & _ & C). unfold sizes_in, mat. rewrite Forall_map. apply Forall_forall. intros i Hi. apply in_seq in Hi. rewrite <- size_count, size_lrow. apply C. lia.
Qed.
(** All disjoint clusters come from labels. *)
Lemma clusters_labels k n mn mx cl : cluster_shape k n cl -> disjoint_groups cl -> sizes_in mn mx cl -> exists u, lab_ok k mn mx n u /\ cl = mat k u.
Proof.
  intros [Hk Hn] Hd Hs. set (u := map (group_of cl) (seq 0 n)).
  assert (Lu : length u = n) by (unfold u; rewrite map_length, seq_length; auto).
  assert (Nu : forall a, (a < n)%nat -> nth_error u a = Some (group_of cl a)).
  { intros a Ha. unfold u. rewrite nth_error_map, (nth_error_nth' (seq 0 n) 0%nat) by (rewrite seq_length; auto). rewrite seq_nth by auto. reflexivity. }
  assert (E : cl = mat k u).
  { apply nth_error_ext. intros i. rewrite nth_mat. destruct (Nat.ltb_spec i k) as [Hi|Hi]; [|apply nth_error_None; lia].
    destruct (nth_error cl i) as [r|] eqn:Er; [|apply nth_error_None in Er; lia]. f_equal. apply nth_error_ext. intros a. rewrite nth_lrow.
    assert (Lr : length r = n) by (rewrite Forall_forall in Hn; apply Hn; eapply nth_error_In; eauto).
    destruct (Nat.lt_ge_cases a n) as [Ha|Ha].
    2:{ transitivity (@None bool); [|symmetry]; [apply nth_error_None; lia|]. rewrite (proj2 (nth_error_None u a)) by lia. reflexivity. }
    rewrite Nu by auto. destruct (nth_error r a) as [b|] eqn:Eb; [|apply nth_error_None in Eb; lia]. cbn [option_map]. f_equal.
    assert (V : nth a (nth i cl []) false = b) by (rewrite (nth_error_nth _ _ [] Er); apply nth_error_nth; auto).
    destruct b.
    - symmetry. apply is_lab_true. apply group_of_unique; auto.
    - destruct (is_lab i (group_of cl a)) eqn:El; auto. apply is_lab_true in El. apply group_of_in in El. congruence. }
  exists u. split; auto. unfold lab_ok. conj; auto.
  - intros i Hi. apply in_map_iff in Hi as (a & Hg & _). apply group_of_lt in Hg. lia.
  - intros i Hi. unfold sizes_in in Hs. rewrite Forall_forall in Hs. rewrite <- size_lrow, <- nth_mat_lt with (k := k) by auto. rewrite <- E.
    rewrite size_count. apply Hs. apply nth_In. lia.
Qed.

(** Moves of labels as changes of clusters. *)
Lemma mat_ext k u v : (forall i a, (i < k)%nat -> (nth_error u a = Some (Some i) <-> nth_error v a = Some (Some i))) -> length u = length v -> mat k u = mat k v.
Proof.
  intros H L. unfold mat. apply map_ext_in. intros i Hi. apply in_seq in Hi. apply nth_error_ext. intros a. rewrite !nth_lrow.
  specialize (H i a ltac:(lia)). destruct (nth_error u a) as [l|] eqn:Eu, (nth_error v a) as [m|] eqn:Ev; cbn [option_map]; auto.
  - f_equal. destruct (is_lab i l) eqn:E1, (is_lab i m) eqn:E2; auto; exfalso.
    + apply is_lab_true in E1. subst l. assert (X := proj1 H eq_refl). injection X as ->. assert (Y : is_lab i (Some i) = true) by (apply is_lab_true; auto). congruence.
    + apply is_lab_true in E2. subst m. assert (X := proj2 H eq_refl). injection X as ->. assert (Y : is_lab i (Some i) = true) by (apply is_lab_true; auto). congruence.
  - apply nth_error_None in Ev. assert (a < length u)%nat by (apply nth_error_Some; congruence). lia.
  - apply nth_error_None in Eu. assert (a < length v)%nat by (apply nth_error_Some; congruence). lia.
Qed.
Lemma upd_mat k u v i : length u = length v -> (forall j, (j < k)%nat -> j <> i -> lrow j u = lrow j v) -> upd i (fun _ => lrow i v) (mat k u) = mat k v.
Proof.
  intros L H. apply nth_error_ext. intros j. rewrite nth_error_upd, !nth_mat. destruct (Nat.eqb_spec i j) as [Hij|Hij].
  - subst j. destruct (Nat.ltb_spec i k); reflexivity.
  - destruct (Nat.ltb_spec j k); auto. f_equal. apply H; auto.
Qed.
Lemma lrow_setl i a l u : lrow i (setl a l u) = upd a (fun _ => is_lab i l) (lrow i u).
Proof. unfold lrow, setl. apply map_upd. auto. Qed.
Lemma lrow_same j a l u v : nth_error u a = Some v -> is_lab j v = is_lab j l -> lrow j (setl a l u) = lrow j u.
Proof. intros H E. rewrite lrow_setl. apply upd_id. intros x Hx. rewrite nth_lrow, H in Hx. cbn in Hx. congruence. Qed.
Lemma is_lab_other j i : j <> i -> is_lab j (Some i) = false.
Proof. intros H. destruct (is_lab j (Some i)) eqn:E; auto. apply is_lab_true in E. congruence. Qed.
Lemma upd_row_eq (cl : bmat) i f r : nth_error cl i = Some r -> upd i f cl = upd i (fun _ => f r) cl.
Proof.
  intros H. apply nth_error_ext. intros j. rewrite !nth_error_upd. destruct (Nat.eqb_spec i j) as [<-|]; auto. rewrite H. reflexivity.
Qed.
Lemma add_mat k u i a : (i < k)%nat -> nth_error u a = Some None -> add_object (mat k u) i a = mat k (setl a (Some i) u).
Proof.
  intros Hi Ha. unfold add_object. assert (E : nth_error (mat k u) i = Some (lrow i u)) by (rewrite nth_mat; destruct (Nat.ltb_spec i k); auto; lia).
  rewrite (upd_row_eq _ E). rewrite <- (@upd_mat k u (setl a (Some i) u) i).
  - rewrite lrow_setl. unfold is_lab at 1. destruct (lab_dec (Some i) (Some i)); [reflexivity|congruence].
  - symmetry. apply setl_length.
  - intros j _ Hj. symmetry. apply lrow_same with None; auto. rewrite is_lab_other by auto. reflexivity.
Qed.
Lemma remove_mat k u i a : (i < k)%nat -> nth_error u a = Some (Some i) -> remove_object (mat k u) i a = mat k (setl a None u).
Proof.
  intros Hi Ha. unfold remove_object. assert (E : nth_error (mat k u) i = Some (lrow i u)) by (rewrite nth_mat; destruct (Nat.ltb_spec i k); auto; lia).
  rewrite (upd_row_eq _ E). rewrite <- (@upd_mat k u (setl a None u) i).
  - rewrite lrow_setl. reflexivity.
  - symmetry. apply setl_length.
  - intros j _ Hj. symmetry. apply lrow_same with (Some i); auto. rewrite is_lab_other by auto. reflexivity.
Qed.

(** * Proposals *)
Section Step.
Variables (e : env) (k : nat).
Hypothesis P : positive_env e.
Hypothesis Hce : length (e_ce e) = k.
(** The states that the proposals should lead to. *)
Variable adm : cstate -> Prop.
Let n := n_objects e.
Let labels := lab_ok k (e_min e) (e_max e) n.

(** A proposal from [x] with the clusters [cl'], with positive forward and backward probabilities. *)
Definition steps_to (o : operator) (x : cstate) (cl' : bmat) : Prop :=
  exists y q qb, supp (run_op e o x) (Propose y (Some q) (Some qb)) /\ 0 < q /\ 0 < qb /\ x_clusters y = cl' /\ adm y.
(** The last part of a proposal, in which the sources are drawn (if at all). *)
Definition finishes_at (x : cstate) : Prop := forall must cl' objs a b,
  disjoint_groups cl' -> length cl' = k -> NoDup objs -> Forall (fun o => (o < n)%nat) objs ->
  (forall i, ~ In i objs -> any_group cl' i = any_group (x_clusters x) i) -> 0 < a -> 0 < b ->
  exists y q qb, supp (finish e must x cl' objs (Some a) (Some b)) (Propose y (Some q) (Some qb)) /\ 0 < q /\ 0 < qb /\ x_clusters y = cl' /\ adm y.

Lemma bmask_val v m o : Forall (fun q => 0 < q) v -> length m = length v -> nth_error m o = Some true ->
  exists l q, normalize (bmask v m) = Some l /\ nth_error l o = Some q /\ 0 < q.
Proof.
  intros Hv Hl Ho. destruct (bmask_pos Hv Hl Ho) as (l & El). pose proof El as E2. apply normalize_inv in E2 as [-> H0].
  destruct (nth_error v o) as [q|] eqn:Eq.
  2:{ apply nth_error_None in Eq. assert (o < length m)%nat by (apply nth_error_Some; congruence). lia. }
  assert (Eb : nth_error (bmask v m) o = Some q) by (unfold bmask; rewrite nth_error_map2, Eq, Ho; reflexivity).
  assert (Pq : 0 < q) by (rewrite Forall_forall in Hv; apply Hv; eapply nth_error_In; eauto).
  assert (0 < Qsum (bmask v m)).
  { eapply Qsum_pos_term; eauto. unfold bmask. clear -Hv. revert m. induction Hv; intros [|b m]; simpl; constructor; [destruct b; lra|apply IHHv]. }
  exists (map (fun q => q / Qsum (bmask v m)) (bmask v m)), (q / Qsum (bmask v m)). conj; auto.
  - rewrite nth_error_map, Eb. reflexivity.
  - apply Qlt_shift_div_l; lra.
Qed.
Lemma free_nth u a : labels u -> nth_error u a = Some None -> nth_error (bnot (any_cluster n (mat k u))) a = Some true.
Proof.
  intros (L & R & _) Ha. assert (a < n)%nat by (rewrite <- L; apply nth_error_Some; congruence).
  unfold bnot. rewrite nth_error_map, nth_error_any_cluster by auto. rewrite any_mat by auto. rewrite Ha. reflexivity.
Qed.
Lemma existsb_nth (l : list bool) a : nth_error l a = Some true -> existsb (fun b => b) l = true.
Proof. intros H. apply existsb_exists. exists true. split; auto. eapply nth_error_In; eauto. Qed.
Lemma set_any u a l j : labels u -> labels (setl a l u) -> j <> a -> any_group (mat k (setl a l u)) j = any_group (mat k u) j.
Proof. intros (_ & R & _) (_ & R' & _) H. rewrite !any_mat by auto. rewrite nth_setl_other by auto. reflexivity. Qed.

Section At.
Variables (x : cstate) (u : lab).
Hypothesis Hx : finishes_at x.
Hypothesis Hu : labels u.
Hypothesis Eu : x_clusters x = mat k u.

Lemma in_ids_lt i : (i < k)%nat -> In i (ids x).
Proof. intros H. unfold ids. rewrite Eu, mat_length. apply in_seq. lia. Qed.
Lemma one_object must a l p q : (a < n)%nat -> labels (setl a l u) -> 0 < p -> 0 < q ->
  exists y r rb, supp (finish e must x (mat k (setl a l u)) [a] (Some p) (Some q)) (Propose y (Some r) (Some rb)) /\ 0 < r /\ 0 < rb /\
    x_clusters y = mat k (setl a l u) /\ adm y.
Proof.
  intros Hlt Hl Hp Hq. apply Hx; auto using mat_disjoint, mat_length.
  - constructor; [intros []|constructor].
  - intros i Hi. rewrite Eu. apply set_any; auto. intros ->. apply Hi. left. auto.
Qed.

Lemma alter_add i a : (e_pconn e < 1) -> 0 <= e_pconn e -> (i < k)%nat -> nth_error u a = Some None -> (cnt (Some i) u < e_max e)%nat ->
  steps_to OpAlter x (mat k (setl a (Some i) u)).
Proof.
  intros Hp Hp0 Hi Hf Hc. assert (M : lmove k (e_min e) (e_max e) u (setl a (Some i) u)) by (apply lm_add; auto).
  pose proof (lmove_ok Hu M) as Hv. assert (Hlt : (a < n)%nat) by (destruct Hu as (<- & _); apply nth_error_Some; congruence).
  pose proof (free_nth Hu Hf) as Hfree.
  set (nb := get_neighbours (lrow i u) (any_cluster n (mat k u)) (e_adj e)).
  set (q := (1 - e_pconn e) * inv_nat (size (bnot (any_cluster n (mat k u)))) + (if nth a nb false then e_pconn e * inv_nat (size nb) else 0)).
  assert (Hsz : (0 < size (bnot (any_cluster n (mat k u))))%nat).
  { rewrite <- nonzero_length. assert (In a (nonzero (bnot (any_cluster n (mat k u))))) by (apply in_nonzero; auto). destruct (nonzero _); [contradiction|simpl; lia]. }
  assert (Hq : 0 < q).
  { unfold q. assert (0 < (1 - e_pconn e) * inv_nat (size (bnot (any_cluster n (mat k u))))) by (apply Qmult_lt_0_compat; [lra|apply inv_nat_pos; auto]).
    destruct (nth a nb false) eqn:En; [|lra].
    assert (0 <= e_pconn e * inv_nat (size nb)); [|lra]. apply Qmult_le_0_compat; auto. apply Qlt_le_weak, inv_nat_pos.
    rewrite <- nonzero_length. assert (In a (nonzero nb)).
    { apply in_nonzero. destruct (nth_error nb a) as [b|] eqn:Eb; [rewrite (nth_error_nth _ _ _ Eb) in En; congruence|].
      apply nth_error_None in Eb. rewrite nth_overflow in En by auto. discriminate. }
    destruct (nonzero nb); [contradiction|simpl; lia]. }
  destruct (@one_object true a (Some i) q (inv_nat (size (lrow i u) + 1)) Hlt Hv Hq) as (y & r & rb & S & H1 & H2 & H3 & H4); [apply inv_nat_pos; lia|].
  exists y, r, rb. conj; auto. cbn [run_op]. unfold alter_cluster. eapply bind_supp; [apply (@flip_supp _ false); discriminate|].
  unfold grow. apply (@choose_supp _ _ i); [apply in_ids_lt; auto|].
  unfold grow_at. cbv zeta. rewrite Eu, nth_mat_lt by auto. rewrite size_lrow.
  destruct (Nat.leb_spec (e_max e) (cnt (Some i) u)); [lia|]. eapply bind_supp; [apply flip_false; lra|].
  cbv iota. fold n. rewrite (existsb_nth Hfree). cbn [negb]. apply (@choose_supp _ _ a); [apply in_nonzero; auto|].
  rewrite add_mat by auto. rewrite <- size_lrow. exact S.
Qed.
Lemma alter_remove i a : (e_pconn e < 1) -> 0 <= e_pconn e -> (i < k)%nat -> nth_error u a = Some (Some i) -> (e_min e < cnt (Some i) u)%nat ->
  steps_to OpAlter x (mat k (setl a None u)).
Proof.
  intros Hp Hp0 Hi Hf Hc. assert (M : lmove k (e_min e) (e_max e) u (setl a None u)) by (eapply lm_remove; eauto).
  pose proof (lmove_ok Hu M) as Hv. assert (Hlt : (a < n)%nat) by (destruct Hu as (<- & _); apply nth_error_Some; congruence).
  assert (Hfree : nth_error (bnot (any_cluster n (mat k (setl a None u)))) a = Some true).
  { apply free_nth; auto. apply nth_setl_same. apply nth_error_Some; congruence. }
  set (cl' := mat k (setl a None u)) in *.
  set (nb := get_neighbours (nth i cl' []) (any_cluster n cl') (e_adj e)).
  set (q := (1 - e_pconn e) * inv_nat (size (bnot (any_cluster n cl'))) + (if nth a nb false then e_pconn e * inv_nat (size nb) else 0)).
  assert (Hsz : (0 < size (bnot (any_cluster n cl')))%nat).
  { rewrite <- nonzero_length. assert (In a (nonzero (bnot (any_cluster n cl')))) by (apply in_nonzero; auto). destruct (nonzero _); [contradiction|simpl; lia]. }
  assert (Hq : 0 < q).
  { unfold q. assert (0 < (1 - e_pconn e) * inv_nat (size (bnot (any_cluster n cl')))) by (apply Qmult_lt_0_compat; [lra|apply inv_nat_pos; auto]).
    destruct (nth a nb false) eqn:En; [|lra].
    assert (0 <= e_pconn e * inv_nat (size nb)); [|lra]. apply Qmult_le_0_compat; auto. apply Qlt_le_weak, inv_nat_pos.
    rewrite <- nonzero_length. assert (In a (nonzero nb)).
    { apply in_nonzero. destruct (nth_error nb a) as [b|] eqn:Eb; [rewrite (nth_error_nth _ _ _ Eb) in En; congruence|].
      apply nth_error_None in Eb. rewrite nth_overflow in En by auto. discriminate. }
    destruct (nonzero nb); [contradiction|simpl; lia]. }
  assert (Hin : In a (nonzero (lrow i u))) by (apply in_nonzero; rewrite nth_lrow, Hf; cbn; f_equal; apply is_lab_true; auto).
  destruct (@one_object true a None (inv_nat (length (nonzero (lrow i u)))) q Hlt Hv) as (y & r & rb & S & H1 & H2 & H3 & H4); auto.
  { apply inv_nat_pos. destruct (nonzero (lrow i u)); [contradiction|simpl; lia]. }
  exists y, r, rb. conj; auto. cbn [run_op]. unfold alter_cluster. eapply bind_supp; [apply (@flip_supp _ true); discriminate|].
  unfold shrink. apply (@choose_supp _ _ i); [apply in_ids_lt; auto|].
  unfold shrink_at. cbv zeta. rewrite Eu, nth_mat_lt by auto. rewrite size_lrow.
  destruct (Nat.leb_spec (cnt (Some i) u) (e_min e)); [lia|]. apply (@choose_supp _ _ a); auto.
  rewrite remove_mat by auto. exact S.
Qed.
Lemma gibbsish_add i a : (i < k)%nat -> nth_error u a = Some None -> (cnt (Some i) u < e_max e)%nat ->
  steps_to OpGibbsish x (mat k (setl a (Some i) u)).
Proof.
  intros Hi Hf Hc. assert (M : lmove k (e_min e) (e_max e) u (setl a (Some i) u)) by (apply lm_add; auto).
  pose proof (lmove_ok Hu M) as Hv. assert (Hlt : (a < n)%nat) by (destruct Hu as (<- & _); apply nth_error_Some; congruence).
  pose proof (free_nth Hu Hf) as Hfree.
  destruct (posteriors_inner P (mat k u) i) as (post & Ep & Lp & Fp).
  destruct (@bmask_val post (bnot (any_cluster n (mat k u))) a) as (l & q & El & Eq & Hq); auto.
  { eapply Forall_impl; [|exact Fp]. cbv beta. intros; lra. }
  { unfold bnot. rewrite map_length, any_length. auto. }
  destruct (@bmask_val (map (fun q => 1 - q) post) (lrow i (setl a (Some i) u)) a) as (l' & q' & El' & Eq' & Hq'); auto.
  { apply Forall_map. eapply Forall_impl; [|exact Fp]. cbv beta. intros; lra. }
  { rewrite lrow_length, map_length, setl_length, Lp. apply (proj1 Hu). }
  { rewrite nth_lrow, nth_setl_same by (rewrite (proj1 Hu); auto). cbn. f_equal. apply is_lab_true. auto. }
  destruct (@one_object false a (Some i) q q' Hlt Hv Hq Hq') as (y & r & rb & S & H1 & H2 & H3 & H4).
  exists y, r, rb. conj; auto. cbn [run_op]. unfold gibbsish. eapply bind_supp; [apply (@flip_supp _ false); discriminate|].
  unfold gibbsish_grow. apply (@choose_supp _ _ i); [apply in_ids_lt; auto|].
  unfold gibbsish_grow_at. cbv zeta. rewrite Eu. fold n. rewrite (existsb_nth Hfree). cbn [negb]. rewrite nth_mat_lt, size_lrow by auto.
  destruct (Nat.eqb_spec (cnt (Some i) u) (e_max e)); [lia|]. rewrite Ep. unfold p_add. rewrite El. apply (@choose_p_supp _ _ a q); auto; [lra|].
  rewrite add_mat by auto. rewrite nth_mat_lt by auto. unfold p_remove. rewrite El'. cbn [option_map].
  rewrite (nth_error_nth _ _ 0 Eq), (nth_error_nth _ _ 0 Eq'). exact S.
Qed.
Lemma gibbsish_remove i a : (i < k)%nat -> nth_error u a = Some (Some i) -> (e_min e < cnt (Some i) u)%nat ->
  steps_to OpGibbsish x (mat k (setl a None u)).
Proof.
  intros Hi Hf Hc. assert (M : lmove k (e_min e) (e_max e) u (setl a None u)) by (eapply lm_remove; eauto).
  pose proof (lmove_ok Hu M) as Hv. assert (Hlt : (a < n)%nat) by (destruct Hu as (<- & _); apply nth_error_Some; congruence).
  assert (Hfree : nth_error (bnot (any_cluster n (mat k (setl a None u)))) a = Some true).
  { apply free_nth; auto. apply nth_setl_same. apply nth_error_Some; congruence. }
  destruct (posteriors_inner P (mat k u) i) as (post & Ep & Lp & Fp).
  destruct (@bmask_val post (bnot (any_cluster n (mat k (setl a None u)))) a) as (l & q & El & Eq & Hq); auto.
  { eapply Forall_impl; [|exact Fp]. cbv beta. intros; lra. }
  { unfold bnot. rewrite map_length, any_length. auto. }
  destruct (@bmask_val (map (fun q => 1 - q) post) (lrow i u) a) as (l' & q' & El' & Eq' & Hq'); auto.
  { apply Forall_map. eapply Forall_impl; [|exact Fp]. cbv beta. intros; lra. }
  { rewrite lrow_length, map_length, Lp. apply (proj1 Hu). }
  { rewrite nth_lrow, Hf. cbn. f_equal. apply is_lab_true. auto. }
  destruct (@one_object false a None q' q Hlt Hv Hq' Hq) as (y & r & rb & S & H1 & H2 & H3 & H4).
  exists y, r, rb. conj; auto. cbn [run_op]. unfold gibbsish. eapply bind_supp; [apply (@flip_supp _ true); discriminate|].
  unfold gibbsish_shrink. apply (@choose_supp _ _ i); [apply in_ids_lt; auto|].
  unfold gibbsish_shrink_at. cbv zeta. rewrite Eu, nth_mat_lt, size_lrow by auto.
  destruct (Nat.eqb_spec (cnt (Some i) u) (e_min e)); [lia|]. rewrite Ep. unfold p_remove. rewrite El'. apply (@choose_p_supp _ _ a q'); auto; [lra|].
  rewrite remove_mat by auto. unfold p_add. fold n. rewrite El. cbn [option_map].
  rewrite (nth_error_nth _ _ 0 Eq), (nth_error_nth _ _ 0 Eq'). exact S.
Qed.

(** * The second Gibbs-ish operator *)
Lemma scatter_target a : forall c r : list bool, length c = length a -> length r = length a ->
  (forall o, nth_error a o = Some false -> nth_error c o = nth_error r o) -> scatter a c (gather a r) = r.
Proof.
  induction a as [|b a IH]; intros [|x0 c] [|y0 r] Hc Hl H; simpl in *; try discriminate; auto.
  destruct b.
  - f_equal. apply IH; auto. intros o Ho. apply (H (S o)). auto.
  - specialize (H 0%nat eq_refl) as H0. injection H0 as ->. f_equal. apply IH; auto. intros o Ho. apply (H (S o)). auto.
Qed.
Lemma gather_all A (Q : A -> Prop) a : forall l, Forall Q l -> Forall Q (gather a l).
Proof. induction a as [|[] a IH]; intros l H; destruct H; simpl; auto. Qed.
Lemma members_supp ps : Forall (fun p => exists q, p = Some q /\ 0 < q < 1) ps -> forall new : list bool, length new = length ps ->
  supp (prod_dist (map draw_member ps)) new /\ exists q, fold_right omult (Some 1) (map2 member_prob ps new) = Some q /\ 0 < q.
Proof.
  intros H new L. split.
  - apply prod_dist_supp. revert new L. induction H as [|p ps (q & -> & Hq) _ IH]; intros [|b new] L; try discriminate; cbn [map]; constructor.
    + apply flip_supp; lra.
    + apply IH. auto.
  - revert new L. induction H as [|p ps (q & -> & Hq) _ IH]; intros [|b new] L; try discriminate; [exists 1; split; [reflexivity|lra]|].
    destruct (IH new) as (r & Er & Pr); [auto|]. cbn [map2 fold_right member_prob option_map]. rewrite Er. cbn [omult]. eexists. split; [reflexivity|].
    apply Qmult_lt_0_compat; auto. destruct b; lra.
Qed.
Lemma gibbsish2_to v i : labels v -> (i < k)%nat -> (forall j, (j < k)%nat -> j <> i -> lrow j u = lrow j v) -> lrow i u <> lrow i v ->
  steps_to OpGibbsish2 x (mat k v).
Proof.
  intros Hv Hi Hsame Hne. pose proof Hu as (Lu & Ru & Cu). pose proof Hv as (Lv & Rv & Cv).
  set (cl := mat k u). set (old := lrow i u). set (r := lrow i v). set (avail := available e cl i).
  assert (Lav : length avail = n).
  { unfold avail, available, cl. rewrite map2_length, any_length, nth_mat_lt, lrow_length, Lu by auto. fold n. apply Nat.min_id. }
  assert (Lold : length old = n) by (unfold old; rewrite lrow_length; auto). assert (Lr : length r = n) by (unfold r; rewrite lrow_length; auto).
  assert (Nav : forall o, (o < n)%nat -> nth_error avail o = Some (negb (any_group cl o) || nth o old false)).
  { intros o Ho. unfold avail, available. fold n. unfold old. rewrite <- nth_mat_lt with (k := k) by auto. apply available_nth; auto.
    unfold cl. rewrite nth_mat_lt by auto. symmetry. exact Lold. }
  assert (Out : forall o, nth_error avail o = Some false -> nth_error old o = Some false /\ nth_error r o = Some false).
  { intros o Ho. assert (Hon : (o < n)%nat) by (rewrite <- Lav; apply nth_error_Some; congruence). rewrite Nav in Ho by auto. injection Ho as Ho.
    apply orb_false_iff in Ho as [H1 H2]. apply negb_false_iff in H1. split.
    - rewrite (nth_error_nth' old false) by lia. rewrite H2. reflexivity.
    - destruct (nth_error r o) as [[]|] eqn:Er; auto; [|apply nth_error_None in Er; lia]. exfalso.
      unfold r in Er. rewrite nth_lrow in Er. destruct (nth_error v o) as [l|] eqn:El; [|discriminate]. injection Er as Er. apply is_lab_true in Er. subst l.
      unfold cl in H1. rewrite any_mat in H1 by auto. destruct (nth_error u o) as [[j|]|] eqn:Ej; try discriminate.
      destruct (Nat.eq_dec j i) as [->|Hji].
      + assert (nth o old false = true) by (apply nth_lrow_true; auto). congruence.
      + assert (Hjk : (j < k)%nat) by (apply Ru; eapply nth_error_In; eauto). pose proof (Hsame j Hjk Hji) as S.
        assert (T : nth o (lrow j u) false = true) by (apply nth_lrow_true; auto). rewrite S in T. apply nth_lrow_true in T. congruence. }
  assert (Sc : scatter avail old (gather avail r) = r).
  { apply scatter_target; try congruence. intros o Ho. destruct (Out o Ho) as [H1 H2]. congruence. }
  set (ps := gather avail (map (cluster_posterior e cl i) (seq 0 n))).
  assert (Hps : Forall (fun p => exists q, p = Some q /\ 0 < q < 1) ps).
  { apply gather_all. rewrite Forall_map. apply Forall_forall. intros o Ho. apply in_seq in Ho. apply posterior_inner; auto. lia. }
  assert (Lps : length ps = size avail) by (unfold ps; apply gather_length; rewrite map_length, seq_length; auto).
  assert (Lnew : length (gather avail r) = length ps) by (rewrite Lps; apply gather_length; congruence).
  assert (Lnew2 : length (gather avail old) = length ps) by (rewrite Lps; apply gather_length; congruence).
  destruct (members_supp Hps Lnew) as [Snew (q & Eq & Hq)]. destruct (members_supp Hps Lnew2) as [_ (q' & Eq' & Hq')].
  set (objs := nonzero (map2 xorb old r)).
  assert (Hlt : Forall (fun o => (o < n_objects e)%nat) objs).
  { apply Forall_forall. intros o Ho. apply in_nonzero in Ho. assert (o < length (map2 xorb old r))%nat by (apply nth_error_Some; congruence).
    rewrite map2_length in H. fold n. lia. }
  destruct (@Hx false (mat k v) objs q q') as (y & qf & qb & S & H1 & H2 & H3 & H4); auto using mat_disjoint, mat_length.
  { apply NoDup_nonzero. }
  { intros o Ho. assert (E : nth o r false = nth o old false) by (apply xor_unchanged; auto; congruence).
    rewrite Eu, !any_mat by auto. destruct (Nat.lt_ge_cases o n) as [Hon|Hon].
    2:{ rewrite !(proj2 (nth_error_None _ o)) by lia. reflexivity. }
    destruct (nth_error u o) as [[j|]|] eqn:Ej; destruct (nth_error v o) as [[j'|]|] eqn:Ej'; auto; exfalso.
    - destruct (Nat.eq_dec j i) as [->|Hji].
      + assert (T : nth o old false = true) by (apply nth_lrow_true; auto). rewrite <- E in T. apply nth_lrow_true in T. congruence.
      + assert (Hjk : (j < k)%nat) by (apply Ru; eapply nth_error_In; eauto). pose proof (Hsame j Hjk Hji) as S.
        assert (T : nth o (lrow j u) false = true) by (apply nth_lrow_true; auto). rewrite S in T. apply nth_lrow_true in T. congruence.
    - apply nth_error_None in Ej'. lia.
    - destruct (Nat.eq_dec j' i) as [->|Hji].
      + assert (T : nth o r false = true) by (apply nth_lrow_true; auto). rewrite E in T. apply nth_lrow_true in T. congruence.
      + assert (Hjk : (j' < k)%nat) by (apply Rv; eapply nth_error_In; eauto). pose proof (Hsame j' Hjk Hji) as S.
        assert (T : nth o (lrow j' v) false = true) by (apply nth_lrow_true; auto). rewrite <- S in T. apply nth_lrow_true in T. congruence.
    - apply nth_error_None in Ej. lia. }
  exists y, qf, qb. conj; auto. cbn [run_op]. unfold gibbsish2. apply (@choose_supp _ _ i); [apply in_ids_lt; auto|].
  unfold gibbsish2_at. cbv zeta. rewrite Eu. fold cl. replace (nth i cl []) with old by (unfold cl; rewrite nth_mat_lt; auto). fold avail n ps.
  eapply bind_supp; [exact Snew|].
  assert (Sz : size (gather avail r) = size r).
  { rewrite <- Sc at 2. symmetry. apply size_scatter; try congruence. intros o Ho.
    destruct (nth_error avail o) as [[]|] eqn:Eo; auto; [destruct (Out o Eo); congruence|]. apply nth_error_None in Eo. assert (o < length old)%nat by (apply nth_error_Some; congruence). lia. }
  rewrite Sz. unfold r at 1 2. rewrite size_lrow. destruct (Cv i Hi) as [C1 C2].
  destruct (Nat.leb_spec (e_min e) (cnt (Some i) v)); [|lia]. destruct (Nat.leb_spec (cnt (Some i) v) (e_max e)); [|lia]. cbn [andb negb].
  destruct (forallb _ _) eqn:Ef.
  { exfalso. apply eqb_all in Ef; [|congruence]. apply Hne. change (old = r). rewrite <- Sc, Ef. symmetry. apply scatter_self. congruence. }
  rewrite Eq, Eq', Sc. unfold r at 1 2, cl. rewrite upd_mat by (auto; congruence). rewrite nth_mat_lt by auto. exact S.
Qed.
End At.
End Step.
