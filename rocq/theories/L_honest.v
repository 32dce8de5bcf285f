(** Lemmas for C63: the cluster operators report NaN symmetrically, so that together with C13 and C14 every pair of
    states satisfies the hypothesis of detailed balance. *)
From Coq Require Import Lqa.
From Verif Require Import M_operators S_model S_operators S_honest L_model L_operators L_reverse L_gibbsish L_gibbsish2.
Set Implicit Arguments.
Unset Strict Implicit.
Open Scope Q_scope.

Definition nan (q qb : option Q) : Prop := q = None \/ qb = None.
Lemma nan_iff q qb a b : oeq q a -> oeq qb b -> nan q qb <-> nan a b.
Proof.
  unfold nan. destruct q, a, qb, b; simpl; intros H1 H2; try contradiction; intuition congruence.
Qed.
Lemma nan_omult a b c d : nan (omult a b) (omult c d) <-> nan a c \/ nan b d.
Proof. unfold nan. destruct a, b, c, d; simpl; intuition congruence. Qed.

Section Status.
Variables (e : env) (k : nat).
Let inv := good e k.

(** The objects that are in a cluster in one state only. *)
Definition moved (x y : cstate) : list nat :=
  filter (fun o => xorb (any_group (x_clusters x) o) (any_group (x_clusters y) o)) (seq 0 (n_objects e)).
Lemma moved_sym x y : moved x y = moved y x.
Proof. unfold moved. apply filter_ext. intros o. apply xorb_comm. Qed.
Definition sf (x y : cstate) : option Q := src_factor e x (x_clusters y) (moved x y) y.
Definition src_nan (x y : cstate) : Prop := nan (sf x y) (sf y x).
Lemma src_nan_sym x y : src_nan x y <-> src_nan y x.
Proof. unfold src_nan, nan. tauto. Qed.

Lemma any_add cl z a o : (z < length cl)%nat -> (a < length (nth z cl []))%nat ->
  any_group (add_object cl z a) o = (any_group cl o || (o =? a)%nat)%bool.
Proof.
  intros Hz Ha. destruct (any_group (add_object cl z a) o) eqn:E.
  - unfold any_group in E. apply existsb_exists in E as (c & Hc & Ho). apply (In_nth _ _ []) in Hc as (i & Hi & <-).
    unfold add_object in Ho. destruct (Nat.eq_dec z i) as [<-|Hne].
    + rewrite L_operators.nth_upd_same in Ho by auto. destruct (Nat.eqb_spec o a) as [->|Hoa]; [rewrite orb_true_r; auto|].
      rewrite L_operators.nth_upd_other in Ho by auto. apply any_group_true in Ho. rewrite Ho. reflexivity.
    + rewrite L_operators.nth_upd_other in Ho by auto. apply any_group_true in Ho. rewrite Ho. reflexivity.
  - destruct (any_group cl o) eqn:Eo; simpl.
    + unfold any_group in Eo. apply existsb_exists in Eo as (c & Hc & Ho). apply (In_nth _ _ []) in Hc as (i & Hi & <-).
      assert (H : any_group (add_object cl z a) o = true); [|congruence]. apply any_group_true with (i := i). unfold add_object.
      destruct (Nat.eq_dec z i) as [<-|Hne].
      * rewrite L_operators.nth_upd_same by auto. destruct (Nat.eq_dec a o) as [<-|Hao]; [rewrite L_operators.nth_upd_same by auto; auto|rewrite L_operators.nth_upd_other; auto].
      * rewrite L_operators.nth_upd_other by auto. auto.
    + destruct (Nat.eqb_spec o a) as [->|]; auto.
      assert (H : any_group (add_object cl z a) a = true); [|congruence]. apply any_group_true with (i := z). unfold add_object.
      rewrite L_operators.nth_upd_same by auto. rewrite L_operators.nth_upd_same by auto. reflexivity.
Qed.
Lemma filter_one n a : (a < n)%nat -> filter (fun o => (o =? a)%nat) (seq 0 n) = [a].
Proof.
  intros Ha. replace n with (a + (1 + (n - a - 1)))%nat by lia. rewrite !seq_app, !filter_app. simpl.
  rewrite Nat.eqb_refl. assert (H : forall s m, (a < s \/ s + m <= a)%nat -> filter (fun o => (o =? a)%nat) (seq s m) = []).
  { intros s m H. induction m as [|m IH] in s, H |- *; [reflexivity|]. simpl. destruct (Nat.eqb_spec s a); [lia|]. apply IH. lia. }
  rewrite !H by lia. reflexivity.
Qed.
(** Object [a] joins cluster [z]. *)
Definition joins (x y : cstate) (z a : nat) : Prop :=
  (z < length (x_clusters x))%nat /\ (a < n_objects e)%nat /\ any_group (x_clusters x) a = false /\
  nth_error (nth z (x_clusters x) []) a = Some false /\ x_clusters y = add_object (x_clusters x) z a.
Lemma joins_moved x y z a : joins x y z a -> moved x y = [a].
Proof.
  intros (Hz & Ha & Hf & Hc & Hy). unfold moved. rewrite Hy. rewrite <- (filter_one Ha). apply filter_ext_in. intros o _.
  rewrite any_add; auto; [|apply nth_error_Some; congruence].
  destruct (any_group (x_clusters x) o) eqn:Eo, (Nat.eqb_spec o a) as [->|]; simpl; auto. congruence.
Qed.
Lemma joins_total x y z a : joins x y z a -> total (x_clusters y) = S (total (x_clusters x)).
Proof. intros (Hz & Ha & Hf & Hc & ->). apply total_add; auto. Qed.
Lemma joins_unique x y z a z' a' : joins x y z a -> joins x y z' a' -> z = z' /\ a = a'.
Proof. intros (Hz & Ha & Hf & Hc & Hy) (_ & _ & _ & _ & Hy'). rewrite Hy in Hy'. eapply add_ne; eauto. Qed.
Lemma joins_add x y z a : cluster_shape k (n_objects e) (x_clusters x) -> (z < length (x_clusters x))%nat -> (a < n_objects e)%nat ->
  any_group (x_clusters x) a = false -> x_clusters y = add_object (x_clusters x) z a -> joins x y z a.
Proof. intros [_ Hn] Hz Ha Hf Hy. unfold joins. conj; auto. eapply free_row; eauto. apply nth_error_nth'; auto. Qed.
Lemma joins_remove x y z a : cluster_shape k (n_objects e) (x_clusters x) -> disjoint_groups (x_clusters x) ->
  (z < length (x_clusters x))%nat -> nth_error (nth z (x_clusters x) []) a = Some true ->
  x_clusters y = remove_object (x_clusters x) z a -> joins y x z a.
Proof.
  intros Hsh Hd Hz Ha Hy.
  assert (Hzy : (z < length (x_clusters y))%nat) by (rewrite Hy; unfold remove_object; rewrite upd_length; auto).
  assert (Halt : (a < n_objects e)%nat) by (rewrite <- (row_length Hsh Hz); apply nth_error_Some; congruence).
  unfold joins. rewrite Hy. conj; auto.
  - unfold remove_object; rewrite upd_length; auto.
  - eapply free_after_remove; eauto.
  - unfold remove_object. rewrite L_operators.nth_upd_same, nth_error_upd_same, Ha by auto. reflexivity.
  - symmetry. apply add_remove; auto.
Qed.

(** ** AlterCluster *)
Lemma alter_status x y q qb : inv x -> supp (alter_cluster e x) (Propose y q qb) -> nan q qb <-> src_nan x y.
Proof.
  intros (Hsh & Hd & Hsz & Hok) Hsup. unfold src_nan, sf. rewrite (moved_sym y x).
  apply supp_alter in Hsup as [Hsup|Hsup].
  - unfold shrink in Hsup. apply supp_choose in Hsup as [[Hx _]|(z & Hz & Hsup)]; [discriminate|]. apply in_ids in Hz.
    unfold shrink_at in Hsup. cbv zeta in Hsup.
    destruct (_ <=? e_min e)%nat; [apply supp_ret in Hsup; discriminate|].
    apply supp_choose in Hsup as [[Hx _]|(a & Ha & Hsup)]; [discriminate|]. apply in_nonzero in Ha.
    assert (Halt : (a < n_objects e)%nat) by (rewrite <- (row_length Hsh Hz); apply nth_error_Some; congruence).
    apply supp_finish_full in Hsup as ([Hcl Ht] & Hq & Hqb & Htb & Hoky); auto using NoDup_one.
    pose proof (joins_remove Hsh Hd Hz Ha Hcl) as J. rewrite (moved_sym x y), (joins_moved J).
    rewrite (nan_iff Hq Hqb), nan_omult, Hcl. unfold nan at 1. intuition discriminate.
  - unfold grow in Hsup. apply supp_choose in Hsup as [[Hx _]|(z & Hz & Hsup)]; [discriminate|]. apply in_ids in Hz.
    unfold grow_at in Hsup. cbv zeta in Hsup.
    destruct (e_max e <=? _)%nat; [apply supp_ret in Hsup; discriminate|].
    apply supp_bind in Hsup as (c & _ & Hsup). cbv zeta in Hsup.
    destruct (negb _); [apply supp_ret in Hsup; discriminate|].
    apply supp_choose in Hsup as [[Hx _]|(a & Ha & Hsup)]; [discriminate|].
    assert (Hf : (a < n_objects e)%nat /\ any_group (x_clusters x) a = false).
    { apply in_nonzero in Ha. destruct c; [eapply neighbours_free|eapply free_true]; eauto. }
    clear Ha. destruct Hf as [Ha Hf].
    apply supp_finish_full in Hsup as ([Hcl Ht] & Hq & Hqb & Htb & Hoky); auto using NoDup_one.
    pose proof (joins_add Hsh Hz Ha Hf Hcl) as J. rewrite (joins_moved J).
    rewrite (nan_iff Hq Hqb), nan_omult, Hcl. unfold nan at 1. intuition discriminate.
Qed.

(** ** AlterClusterGibbsish *)
Definition gnan (s b : cstate) (z : nat) : Prop :=
  match posteriors e (x_clusters s) z with
  | None => True
  | Some post => p_add post (bnot (any_cluster (n_objects e) (x_clusters s))) = None \/ p_remove post (nth z (x_clusters b) []) = None
  end.
Lemma option_map_none A B (f : A -> B) o : option_map f o = None <-> o = None.
Proof. destruct o; simpl; split; congruence. Qed.
Lemma gibbsish_status x y q qb : inv x -> supp (gibbsish e x) (Propose y q qb) ->
  exists z a, (joins x y z a /\ (nan q qb <-> gnan x y z \/ src_nan x y)) \/ (joins y x z a /\ (nan q qb <-> gnan y x z \/ src_nan x y)).
Proof.
  intros (Hsh & Hd & Hsz & Hok) Hsup. unfold src_nan, sf. rewrite (moved_sym y x).
  apply supp_gibbsish in Hsup as [Hsup|Hsup].
  - unfold gibbsish_shrink in Hsup. apply supp_choose in Hsup as [[Hx _]|(z & Hz & Hsup)]; [discriminate|]. apply in_ids in Hz.
    unfold gibbsish_shrink_at in Hsup. cbv zeta in Hsup.
    destruct (_ =? e_min e)%nat; [apply supp_ret in Hsup; discriminate|].
    destruct (posteriors e (x_clusters x) z) as [post|] eqn:Hpost; [|apply supp_ret in Hsup; discriminate].
    apply supp_choose_p in Hsup as [[Hx _]|(l & a & p & Hl & Ha' & Hp & Hsup)]; [discriminate|].
    destruct (normalize_zero Hl Ha' Hp) as (v & Hv & Hv0). pose proof (bmask_zero Hv Hv0) as Ha. clear v Hv Hv0.
    assert (Halt : (a < n_objects e)%nat) by (rewrite <- (row_length Hsh Hz); apply nth_error_Some; congruence).
    apply supp_finish_full in Hsup as ([Hcl Ht] & Hq & Hqb & Htb & Hoky); auto using NoDup_one.
    pose proof (joins_remove Hsh Hd Hz Ha Hcl) as J. exists z, a. right. split; auto.
    rewrite (moved_sym x y), (joins_moved J). rewrite (nan_iff Hq Hqb), nan_omult, Hcl.
    unfold gnan. rewrite (posteriors_clusters e (x_clusters y) (x_clusters x)), Hpost, Hcl. unfold nan at 1.
    rewrite !option_map_none. tauto.
  - unfold gibbsish_grow in Hsup. apply supp_choose in Hsup as [[Hx _]|(z & Hz & Hsup)]; [discriminate|]. apply in_ids in Hz.
    unfold gibbsish_grow_at in Hsup. cbv zeta in Hsup.
    destruct (negb _); [apply supp_ret in Hsup; discriminate|].
    destruct (_ =? e_max e)%nat; [apply supp_ret in Hsup; discriminate|].
    destruct (posteriors e (x_clusters x) z) as [post|] eqn:Hpost; [|apply supp_ret in Hsup; discriminate].
    apply supp_choose_p in Hsup as [[Hx _]|(l & a & p & Hl & Ha' & Hp & Hsup)]; [discriminate|].
    destruct (normalize_zero Hl Ha' Hp) as (v & Hv & Hv0). pose proof (bmask_zero Hv Hv0) as Hc. clear v Hv Hv0.
    apply free_true in Hc as [Ha Hf].
    apply supp_finish_full in Hsup as ([Hcl Ht] & Hq & Hqb & Htb & Hoky); auto using NoDup_one.
    pose proof (joins_add Hsh Hz Ha Hf Hcl) as J. exists z, a. left. split; auto.
    rewrite (joins_moved J). rewrite (nan_iff Hq Hqb), nan_omult, Hcl.
    unfold gnan. rewrite Hpost, Hcl. unfold nan at 1. rewrite !option_map_none. tauto.
Qed.
Lemma joins_asym x y z a z' a' : joins x y z a -> joins y x z' a' -> False.
Proof. intros H H'. apply joins_total in H, H'. lia. Qed.

(** ** AlterClusterGibbsish2 *)
Definition g2nan (x : cstate) (i : nat) : Prop :=
  In None (gather (available e (x_clusters x) i) (map (cluster_posterior e (x_clusters x) i) (seq 0 (n_objects e)))).
Lemma fold_member_none ps : forall new : list bool, length new = length ps ->
  fold_right omult (Some 1) (map2 member_prob ps new) = None <-> In None ps.
Proof.
  induction ps as [|p ps IH]; intros [|b new] Hl; simpl in *; try discriminate; [split; [discriminate|contradiction]|].
  specialize (IH new ltac:(lia)). destruct p as [p|]; simpl.
  - destruct (fold_right omult (Some 1) (map2 member_prob ps new)); simpl.
    + split; [discriminate|]. intros [H|H]; [discriminate|]. apply IH in H. discriminate.
    + split; auto. intros _. right. apply IH. reflexivity.
  - split; auto.
Qed.
(** Only cluster [i] differs. *)
Definition only (x y : cstate) (i : nat) : Prop :=
  (i < length (x_clusters x))%nat /\ nth i (x_clusters x) [] <> nth i (x_clusters y) [] /\
  forall j, j <> i -> nth j (x_clusters x) [] = nth j (x_clusters y) [].
Lemma only_unique x y i j : only x y i -> only x y j -> i = j.
Proof. intros (_ & _ & H) (_ & Hn & _). destruct (Nat.eq_dec i j); auto. exfalso. apply Hn. apply H. auto. Qed.
Lemma gibbsish2_status x y q qb : inv x -> supp (gibbsish2 e x) (Propose y q qb) ->
  exists i, only x y i /\ length (x_clusters y) = length (x_clusters x) /\ available e (x_clusters y) i = available e (x_clusters x) i /\
    (nan q qb <-> g2nan x i \/ src_nan x y).
Proof.
  intros (Hsh & Hd & Hsz & Hok) Hsup. unfold src_nan, sf. rewrite (moved_sym y x).
  unfold gibbsish2 in Hsup. apply supp_choose in Hsup as [[Hx _]|(i & Hi & Hsup)]; [discriminate|]. apply in_ids in Hi.
  unfold gibbsish2_at in Hsup. cbv zeta in Hsup.
  apply supp_bind in Hsup as (new & Hnew & Hsup).
  pose proof (old_length Hsh Hi) as Hold. pose proof (avail_length Hsh Hi) as Hal. pose proof (ps_length Hsh Hi) as Hps.
  pose proof (@avail_nth e k x i Hsh Hi) as Hav.
  set (a := available e (x_clusters x) i) in *. set (old := nth i (x_clusters x) []) in *.
  set (ps := gather a (map (cluster_posterior e (x_clusters x) i) (seq 0 (n_objects e)))) in *.
  destruct (negb _); [apply supp_ret in Hsup; discriminate|].
  assert (Hl : length new = size a).
  { apply supp_prod_dist, Forall2_len in Hnew. rewrite map_length in Hnew. congruence. }
  assert (Hgl : length (gather a old) = size a) by (apply gather_length; congruence).
  destruct (forallb _ _) eqn:Ef; [apply supp_ret in Hsup; discriminate|].
  assert (Hne : new <> gather a old). { intros E. apply eqb_all in E; congruence. }
  rewrite L_operators.nth_upd_same in Hsup by auto.
  assert (Hlt : Forall (fun o => (o < n_objects e)%nat) (nonzero (map2 xorb old (scatter a old new)))).
  { apply Forall_forall. intros o Ho. apply in_nonzero in Ho.
    assert (H : (o < length (map2 xorb old (scatter a old new)))%nat) by (apply nth_error_Some; congruence).
    rewrite map2_length, Hold in H. lia. }
  apply supp_finish_full in Hsup as ([Hcl Ht] & Hq & Hqb & Htb & Hoky); auto; [|apply NoDup_nonzero].
  assert (Hsl : length (scatter a old new) = n_objects e) by (rewrite scatter_length; congruence).
  assert (Hoy : nth i (x_clusters y) [] = scatter a old new) by (rewrite Hcl; apply L_operators.nth_upd_same; auto).
  assert (Hother : forall j, j <> i -> nth j (x_clusters x) [] = nth j (x_clusters y) []).
  { intros j Hj. rewrite Hcl, L_operators.nth_upd_other by auto. reflexivity. }
  assert (Hmoved : moved x y = nonzero (map2 xorb old (scatter a old new))).
  { unfold moved, nonzero. rewrite map2_length, Hold, Hsl, Nat.min_id. apply filter_ext_in. intros o Ho. apply in_seq in Ho.
    assert (Hno : nth_error old o = Some (nth o old false)) by (apply nth_error_nth'; lia).
    assert (Hnr : nth_error (scatter a old new) o = Some (nth o (scatter a old new) false)) by (apply nth_error_nth'; lia).
    rewrite (@nth_error_nth _ (map2 xorb old (scatter a old new)) o (xorb (nth o old false) (nth o (scatter a old new) false)) false) by (rewrite nth_error_map2, Hno, Hnr; reflexivity).
    assert (Hany : forall (s : cstate) v, nth i (x_clusters s) [] = v -> length (x_clusters s) = length (x_clusters x) ->
      any_group (x_clusters s) o = (nth o v false || existsb (fun j => nth o (nth j (x_clusters s) []) false) (filter (fun j => negb (j =? i)%nat) (seq 0 (length (x_clusters x)))))%bool).
    { intros s v Hv Hls. apply eq_iff_eq_true. rewrite orb_true_iff, existsb_exists. split.
      - intros H. unfold any_group in H. apply existsb_exists in H as (c & Hc & Hco). apply (In_nth _ _ []) in Hc as (j & Hj & <-).
        destruct (Nat.eq_dec j i) as [->|Hji]; [left; congruence|]. right. exists j. split; auto. apply filter_In. split; [apply in_seq; lia|].
        apply negb_true_iff, Nat.eqb_neq. auto.
      - intros [H|(j & _ & H)]; [apply any_group_true with (i := i); congruence|eapply any_group_true; eauto]. }
    rewrite (Hany x old eq_refl eq_refl). rewrite (Hany y _ Hoy) by (rewrite Hcl, upd_length; auto).
    set (X := existsb (fun j => nth o (nth j (x_clusters x) []) false) _).
    assert (HX : existsb (fun j => nth o (nth j (x_clusters y) []) false) (filter (fun j => negb (j =? i)%nat) (seq 0 (length (x_clusters x)))) = X).
    { unfold X. apply eq_iff_eq_true. rewrite !existsb_exists. split; intros (j & Hj & H); exists j; split; auto;
        apply filter_In in Hj as [_ Hj]; apply negb_true_iff, Nat.eqb_neq in Hj; [rewrite (Hother j Hj)|rewrite <- (Hother j Hj)]; auto. }
    rewrite HX. destruct X eqn:EX; [|rewrite !orb_false_r; reflexivity].
    apply existsb_exists in EX as (j & Hj & Hjo). apply filter_In in Hj as [_ Hj]. apply negb_true_iff, Nat.eqb_neq in Hj.
    assert (H1 : nth o old false = false).
    { destruct (nth o old false) eqn:E; auto. exfalso. apply Hj. eapply Hd; eauto. }
    assert (H2 : nth o (scatter a old new) false = false).
    { assert (Hao : nth_error a o = Some false) by (rewrite Hav by lia; rewrite (any_group_true Hjo); fold old; rewrite H1; reflexivity).
      pose proof (@scatter_outside a old new o Hao ltac:(congruence)) as H. rewrite Hno, Hnr in H. congruence. }
    rewrite H1, H2. reflexivity. }
  exists i. conj; auto.
  - unfold only. conj; auto. fold old. rewrite Hoy. intros E. apply Hne. rewrite <- (@gather_scatter a old new) by congruence. congruence.
  - rewrite Hcl. apply upd_length.
  - rewrite Hcl. eapply avail_same; eauto.
  - rewrite (nan_iff Hq Hqb), nan_omult, Hmoved, Hcl. unfold g2nan. fold a ps. unfold nan at 1.
    rewrite !fold_member_none by (rewrite Hps; auto). tauto.
Qed.
Lemma only_sym x y i : length (x_clusters y) = length (x_clusters x) -> only x y i -> only y x i.
Proof. intros Hl (H1 & H2 & H3). unfold only. conj; [lia|congruence|]. intros j Hj. symmetry. auto. Qed.

(** All proposals between two states, in both directions, report NaN or none does. *)
Theorem status_same o x y q qb q' qb' : inv x -> inv y -> supp (run_op e o x) (Propose y q qb) ->
  supp (run_op e o x) (Propose y q' qb') \/ supp (run_op e o y) (Propose x q' qb') -> nan q qb <-> nan q' qb'.
Proof.
  intros Hx Hy H H'. destruct o; cbn [run_op] in *.
  - rewrite (alter_status Hx H). destruct H' as [H'|H']; [rewrite (alter_status Hx H')|rewrite (alter_status Hy H'), src_nan_sym]; reflexivity.
  - destruct (gibbsish_status Hx H) as (z & a & [[J S]|[J S]]); rewrite S; clear S; destruct H' as [H'|H'].
    + destruct (gibbsish_status Hx H') as (z' & a' & [[J' S']|[J' S']]); [|destruct (joins_asym J J')]. destruct (joins_unique J J') as [-> ->]. rewrite S'. reflexivity.
    + destruct (gibbsish_status Hy H') as (z' & a' & [[J' S']|[J' S']]); [destruct (joins_asym J J')|]. destruct (joins_unique J J') as [-> ->]. rewrite S', (src_nan_sym y x). reflexivity.
    + destruct (gibbsish_status Hx H') as (z' & a' & [[J' S']|[J' S']]); [destruct (joins_asym J J')|]. destruct (joins_unique J J') as [-> ->]. rewrite S'. reflexivity.
    + destruct (gibbsish_status Hy H') as (z' & a' & [[J' S']|[J' S']]); [|destruct (joins_asym J J')]. destruct (joins_unique J J') as [-> ->]. rewrite S', (src_nan_sym y x). reflexivity.
  - destruct (gibbsish2_status Hx H) as (i & O & Hl & Ha & S). rewrite S. clear S. destruct H' as [H'|H'].
    + destruct (gibbsish2_status Hx H') as (j & O' & _ & _ & S'). rewrite <- (only_unique O O') in S'. rewrite S'. reflexivity.
    + destruct (gibbsish2_status Hy H') as (j & O' & Hl' & _ & S'). apply only_sym in O'; auto. rewrite <- (only_unique O O') in S'.
      rewrite S', (src_nan_sym y x). unfold g2nan. rewrite Ha.
      rewrite (map_ext (cluster_posterior e (x_clusters y) i) (cluster_posterior e (x_clusters x) i)) by (intros; apply cluster_posterior_clusters). reflexivity.
Qed.
End Status.

(** * Masses are not negative *)
Section Nonneg.
Variable e : env.
Hypothesis He : valid_env e.
Definition dnn A (d : dist A) : Prop := forall a p, In (a, p) d -> 0 <= p.
Lemma dnn_ret A (a : A) : dnn (ret a).
Proof. intros b p [[= <- <-]|[]]. lra. Qed.
Lemma dnn_bind A B (d : dist A) (f : A -> dist B) : dnn d -> (forall a, dnn (f a)) -> dnn (bind d f).
Proof.
  intros Hd Hf b p H. unfold bind in H. apply in_concat in H as (l & Hl & H). apply in_map_iff in Hl as ([a q] & <- & Hin).
  unfold scale in H. apply in_map_iff in H as ([b' r] & [= <- <-] & H). pose proof (Hd _ _ Hin). pose proof (Hf _ _ _ H).
  apply Qmult_le_0_compat; auto.
Qed.
Lemma inv_nat_nonneg n : 0 <= inv_nat n.
Proof.
  unfold inv_nat, Qdiv. rewrite Qmult_1_l. apply Qinv_le_0_compat. change 0 with (inject_Z 0). rewrite <- Zle_Qle. lia.
Qed.
Lemma dnn_uniform A (l : list A) : dnn (uniform l).
Proof. intros a p H. unfold uniform in H. apply in_map_iff in H as (b & [= <- <-] & _). apply inv_nat_nonneg. Qed.
Lemma dnn_flip p : 0 <= p <= 1 -> dnn (flip p).
Proof. intros Hp a q [[= <- <-]|[[= <- <-]|[]]]; lra. Qed.
Lemma dnn_prod A (ds : list (dist A)) : Forall (fun d => dnn d) ds -> dnn (prod_dist ds).
Proof.
  induction 1 as [|d ds Hd _ IH]; simpl; [apply dnn_ret|]. apply dnn_bind; auto. intros x. apply dnn_bind; auto. intros; apply dnn_ret.
Qed.
Lemma dnn_choose l f : (forall a, dnn (f a)) -> dnn (choose l f).
Proof. intros H. unfold choose. destruct l; [apply dnn_ret|]. apply dnn_bind; auto. apply dnn_uniform. Qed.
Definition nn (l : list Q) : Prop := Forall (fun q => 0 <= q) l.
Lemma in_mapi A B (f : nat -> A -> B) l b : In b (mapi f l) -> exists i a, nth_error l i = Some a /\ b = f i a.
Proof.
  intros H. apply In_nth_error in H as (i & H). rewrite nth_error_mapi in H. destruct (nth_error l i) as [a|] eqn:E; [|discriminate].
  injection H as <-. eauto.
Qed.
Lemma dnn_mapi A (g : nat -> A) l : nn l -> dnn (mapi (fun c q => (g c, q)) l).
Proof.
  intros H a p Hin. apply in_mapi in Hin as (i & q & Hq & [= -> ->]). unfold nn in H. rewrite Forall_forall in H. apply H.
  eapply nth_error_In; eauto.
Qed.
Lemma dnn_choose_p p f : (forall l, p = Some l -> nn l) -> (forall a, dnn (f a)) -> dnn (choose_p p f).
Proof.
  intros Hp Hf. unfold choose_p. destruct p as [l|]; [|apply dnn_ret]. apply dnn_bind; auto. apply (@dnn_mapi _ (fun o => o)). auto.
Qed.
Lemma div_nonneg q s : 0 <= q -> 0 <= s -> 0 <= q / s.
Proof. intros Hq Hs. unfold Qdiv. apply Qmult_le_0_compat; auto. apply Qinv_le_0_compat; auto. Qed.
Lemma nn_div v : nn v -> nn (map (fun q => q / Qsum v) v).
Proof.
  intros H. unfold nn. rewrite Forall_map. pose proof (Qsum_nonneg H). eapply Forall_impl; [|exact H]. intros. apply div_nonneg; auto.
Qed.
Lemma normalize_nn v l : nn v -> normalize v = Some l -> nn l.
Proof. intros H. unfold normalize. cbv zeta. destruct (Qeq_bool _ 0); [discriminate|]. intros [= <-]. apply nn_div; auto. Qed.
Lemma nn_mask v : forall m, nn v -> nn (map2 (fun q (b : bool) => if b then q else 0) v m).
Proof.
  induction v as [|q v IH]; intros [|b m] H; simpl; try constructor; inversion H; subst; auto; [destruct b; auto; lra|].
  apply IH; auto.
Qed.
Lemma normalize_row_nn w h l : nn w -> normalize_row w h = Some l -> nn l.
Proof. intros H. unfold normalize_row. cbv zeta. destruct (Qeq_bool _ 0); [discriminate|]. intros [= <-]. apply nn_div, nn_mask; auto. Qed.
Lemma weights_nn f : nn (nth f (e_weights e) []).
Proof.
  apply Forall_forall. intros q Hq. destruct (Nat.lt_ge_cases f (length (e_weights e))) as [H|H].
  - eapply (ve_weights He); eauto. apply nth_In; auto.
  - rewrite nth_overflow in Hq by auto. destruct Hq.
Qed.
Definition nnm (m : lhmat) : Prop := Forall nn m.
Definition nne (p : effect) : Prop := Forall nn p.
Lemma einsum_nn f_o : forall p, nne p -> nn (einsum_row f_o p).
Proof.
  unfold einsum_row. induction f_o as [|v f_o IH]; intros [|r p] H; simpl; try constructor; inversion H; subst; [|apply IH; auto].
  apply Qsum_nonneg. apply Forall_forall. intros q Hq. apply In_nth_error in Hq as (s & Hq). rewrite nth_error_map2 in Hq.
  destruct (nth_error v s) as [b|]; [|discriminate]. destruct (nth_error r s) as [u|] eqn:E; [|discriminate]. injection Hq as <-.
  destruct b; [|lra]. assert (Hr : nn r) by auto. unfold nn in Hr. rewrite Forall_forall in Hr. apply Hr. eapply nth_error_In; eauto.
Qed.
Lemma update_nnm features probs groups out i : Forall nne probs -> nnm out -> nnm (update_group features probs groups out i).
Proof.
  intros Hp Ho. unfold update_group. destruct (nth_error groups i) as [g|]; auto. destruct (nth_error probs i) as [p|] eqn:E; auto.
  apply Forall_forall. intros r Hr. apply in_mapi in Hr as (o & row & Hrow & ->). destruct (nth o g false).
  - apply einsum_nn. rewrite Forall_forall in Hp. apply Hp. eapply nth_error_In; eauto.
  - unfold nnm in Ho. rewrite Forall_forall in Ho. apply Ho. eapply nth_error_In; eauto.
Qed.
Lemma component_nnm probs groups : Forall nne probs -> nnm (component e probs groups).
Proof.
  intros Hp. unfold component, set_na, compute_component_likelihood.
  set (start := mapi _ _). assert (Hs : nnm start).
  { apply Forall_forall. intros r Hr. apply in_mapi in Hr as (o & row & Hrow & ->). apply nth_error_In, repeat_spec in Hrow. subst row.
    destruct (any_group groups o); apply Forall_forall; intros q Hq; apply repeat_spec in Hq; subst; lra. }
  assert (Hf : nnm (fold_left (update_group (e_features e) probs groups) (seq 0 (length groups)) start)).
  { generalize (seq 0 (length groups)) as is. intros is. clearbody start. revert start Hs. induction is as [|i is IH]; intros start Hs; simpl; auto.
    apply IH. apply update_nnm; auto. }
  apply Forall_forall. intros r Hr. apply In_nth_error in Hr as (o & Hr). rewrite nth_error_map2 in Hr.
  destruct (nth_error (e_features e) o) as [f_o|]; [|discriminate]. match type of Hr with match ?t with _ => _ end = _ => destruct t as [row|] eqn:Er; [|discriminate] end.
  injection Hr as <-. apply Forall_forall. intros q Hq. apply In_nth_error in Hq as (f & Hq). rewrite nth_error_map2 in Hq.
  destruct (nth_error (na_row f_o) f) as [na|]; [|discriminate]. destruct (nth_error row f) as [v|] eqn:Ev; [|discriminate]. injection Hq as <-.
  destruct na; [lra|]. unfold nnm in Hf. rewrite Forall_forall in Hf. apply nth_error_In in Er. specialize (Hf _ Er).
  unfold nn in Hf. rewrite Forall_forall in Hf. apply Hf. eapply nth_error_In; eauto.
Qed.
Lemma nth_nn l i : nn l -> 0 <= nth i l 0.
Proof.
  intros H. destruct (Nat.lt_ge_cases i (length l)) as [Hi|Hi].
  - unfold nn in H. rewrite Forall_forall in H. apply H. apply nth_In; auto.
  - rewrite nth_overflow by auto. lra.
Qed.
Lemma nth_nnm m i : nnm m -> nn (nth i m []).
Proof.
  intros H. destruct (Nat.lt_ge_cases i (length m)) as [Hi|Hi].
  - unfold nnm in H. rewrite Forall_forall in H. apply H. apply nth_In; auto.
  - rewrite nth_overflow by auto. constructor.
Qed.
Lemma ce_nne : Forall nne (e_ce e).
Proof. repeat (apply Forall_forall; intros ? ?). eapply (ve_effects He); eauto. Qed.
Lemma component_lhs_nn cl o f c : 0 <= lh_at (component_lhs e cl) o f c.
Proof.
  unfold lh_at. apply nth_nn, nth_nnm. destruct (Nat.lt_ge_cases c (length (component_lhs e cl))) as [Hc|Hc].
  2:{ rewrite nth_overflow by auto. constructor. }
  assert (H : Forall nnm (component_lhs e cl)); [|rewrite Forall_forall in H; apply H; apply nth_In; auto].
  unfold component_lhs. constructor; [apply component_nnm, ce_nne|]. apply Forall_forall. intros m Hm.
  apply In_nth_error in Hm as (i & Hm). rewrite nth_error_map2 in Hm. destruct (nth_error (e_conf e) i) as [g|]; [|discriminate].
  destruct (nth_error (e_cf e) i) as [ps|] eqn:Ep; [|discriminate]. injection Hm as <-. apply component_nnm.
  repeat (apply Forall_forall; intros ? ?). eapply (ve_effects He); eauto. right. exists ps. split; auto. eapply nth_error_In; eauto.
Qed.
Lemma mapi_nn (g : nat -> Q) w : (forall c, 0 <= g c) -> nn w -> nn (mapi (fun c q => g c * q) w).
Proof.
  intros Hg Hw. apply Forall_forall. intros q Hq. apply in_mapi in Hq as (c & u & Hu & ->). apply Qmult_le_0_compat; auto.
  unfold nn in Hw. rewrite Forall_forall in Hw. apply Hw. eapply nth_error_In; eauto.
Qed.
Lemma source_probs_nn cl o p l : In p (source_probs e cl o) -> p = Some l -> nn l.
Proof.
  intros H ->. unfold source_probs in H. apply in_map_iff in H as (f & H & _). destruct (e_from_prior e).
  - eapply normalize_row_nn; eauto. apply weights_nn.
  - unfold source_posterior in H. destruct (normalize_row _ _) as [w|] eqn:E; [|discriminate].
    eapply normalize_nn; eauto. apply mapi_nn; [intros; apply component_lhs_nn|]. eapply normalize_row_nn; eauto. apply weights_nn.
Qed.
Lemma dnn_sources cl objs : dnn (prod_dist (map (fun o => prod_dist (map (sample_obs e) (source_probs e cl o))) objs)).
Proof.
  apply dnn_prod. rewrite Forall_map. apply Forall_forall. intros o _. apply dnn_prod. rewrite Forall_map. apply Forall_forall.
  intros [l|] Hp; simpl; [|apply dnn_ret]. apply dnn_mapi. eapply source_probs_nn; eauto.
Qed.
Lemma dnn_finish must x cl' objs q qb : dnn (finish e must x cl' objs q qb).
Proof.
  unfold finish. destruct (e_resample e); [|apply dnn_ret]. destruct (x_source x); [|apply dnn_ret].
  apply dnn_bind; [apply dnn_sources|]. intros; apply dnn_ret.
Qed.
Lemma cluster_lh_nn i o f : 0 <= nth f (cluster_lh e i o) 0.
Proof.
  unfold cluster_lh. apply nth_nn, einsum_nn. destruct (Nat.lt_ge_cases i (length (e_ce e))) as [Hi|Hi].
  - pose proof ce_nne as H. rewrite Forall_forall in H. apply H. apply nth_In; auto.
  - rewrite nth_overflow by auto. constructor.
Qed.
Lemma marginal_nn cl i o wt m : (forall f w, wt f = Some w -> nn w) -> marginal_lh e cl i o wt = Some m -> 0 <= m.
Proof.
  intros Hw. unfold marginal_lh. revert m. induction (seq 0 (e_nf e)) as [|f fs IH]; simpl; intros m H.
  - injection H as <-. lra.
  - apply omult_some in H as (a & b & Ha & Hb & ->). apply option_map_some in Ha as (w & Ew & ->).
    apply Qmult_le_0_compat; auto. apply Qsum_nonneg. apply mapi_nn; [|eauto]. intros [|c]; simpl; [apply cluster_lh_nn|apply component_lhs_nn].
Qed.
Lemma z01_nn cl o f w : fst (weights_z01 e cl o f) = Some w \/ snd (weights_z01 e cl o f) = Some w -> nn w.
Proof.
  unfold weights_z01. cbv zeta. destruct (match match has_row e cl o with [] => [] | b :: r => negb b :: r end with [] => false | b :: _ => b end);
    simpl; intros [H|H]; eapply normalize_row_nn; eauto; apply weights_nn.
Qed.
Lemma cluster_posterior_01 cl i o p : cluster_posterior e cl i o = Some p -> 0 <= p <= 1.
Proof.
  unfold cluster_posterior. destruct (e_from_prior e); [intros [= <-]; lra|].
  destruct (marginal_lh e cl i o (fun f => fst _)) as [m0|] eqn:E0; [|discriminate].
  destruct (marginal_lh e cl i o (fun f => snd _)) as [m1|] eqn:E1; [|discriminate].
  destruct (Qeq_bool _ 0) eqn:Eq; [discriminate|]. intros [= <-]. apply Qeq_bool_neq in Eq.
  assert (H0 : 0 <= m0) by (eapply marginal_nn; [|exact E0]; intros f w Hw; eapply z01_nn; left; exact Hw).
  assert (H1 : 0 <= m1) by (eapply marginal_nn; [|exact E1]; intros f w Hw; eapply z01_nn; right; exact Hw).
  split; [apply div_nonneg; auto; lra|]. apply Qle_shift_div_r; lra.
Qed.
Lemma posteriors_01 cl i post : posteriors e cl i = Some post -> Forall (fun q => 0 <= q <= 1) post.
Proof.
  unfold posteriors. generalize (seq 0 (n_objects e)) as os. intros os. revert post. induction os as [|o os IH]; simpl; intros post H.
  - injection H as <-. constructor.
  - destruct (cluster_posterior e cl i o) as [p|] eqn:E; [|discriminate]. apply option_map_some in H as (r & Hr & ->).
    constructor; auto. eapply cluster_posterior_01; eauto.
Qed.
Lemma p_add_nn post c l : Forall (fun q => 0 <= q <= 1) post -> p_add post c = Some l -> nn l.
Proof. intros H. apply normalize_nn. apply nn_mask. eapply Forall_impl; [|exact H]. intros a Ha; cbv beta in *; lra. Qed.
Lemma p_remove_nn post c l : Forall (fun q => 0 <= q <= 1) post -> p_remove post c = Some l -> nn l.
Proof. intros H. apply normalize_nn. apply nn_mask. unfold nn. rewrite Forall_map. eapply Forall_impl; [|exact H]. intros a Ha; cbv beta in *; lra. Qed.

Theorem run_op_nonneg o x : dnn (run_op e o x).
Proof.
  destruct o; simpl.
  - apply dnn_bind; [apply dnn_flip; lra|]. intros [|].
    + apply dnn_choose. intros z. unfold shrink_at. cbv zeta. destruct (_ <=? _)%nat; [apply dnn_ret|].
      apply dnn_choose. intros a. apply dnn_finish.
    + apply dnn_choose. intros z. unfold grow_at. cbv zeta. destruct (_ <=? _)%nat; [apply dnn_ret|].
      apply dnn_bind; [apply dnn_flip, (ve_pconn He)|]. intros c. cbv zeta. destruct (negb _); [apply dnn_ret|].
      apply dnn_choose. intros a. apply dnn_finish.
  - apply dnn_bind; [apply dnn_flip; lra|]. intros [|].
    + apply dnn_choose. intros z. unfold gibbsish_shrink_at. cbv zeta. destruct (_ =? _)%nat; [apply dnn_ret|].
      destruct (posteriors e (x_clusters x) z) as [post|] eqn:E; [|apply dnn_ret]. apply dnn_choose_p.
      * intros l. apply p_remove_nn. eapply posteriors_01; eauto.
      * intros a. apply dnn_finish.
    + apply dnn_choose. intros z. unfold gibbsish_grow_at. cbv zeta. destruct (negb _); [apply dnn_ret|]. destruct (_ =? _)%nat; [apply dnn_ret|].
      destruct (posteriors e (x_clusters x) z) as [post|] eqn:E; [|apply dnn_ret]. apply dnn_choose_p.
      * intros l. apply p_add_nn. eapply posteriors_01; eauto.
      * intros a. apply dnn_finish.
  - apply dnn_choose. intros i. unfold gibbsish2_at. cbv zeta. apply dnn_bind.
    + apply dnn_prod. rewrite Forall_map. apply Forall_forall. intros p Hp. destruct p as [p|]; simpl; [|apply dnn_ret].
      apply dnn_flip. assert (Hin : In (Some p) (map (cluster_posterior e (x_clusters x) i) (seq 0 (n_objects e)))).
      { revert Hp. generalize (available e (x_clusters x) i) as av, (map (cluster_posterior e (x_clusters x) i) (seq 0 (n_objects e))) as l.
        induction av as [|b av IH]; intros [|y l]; simpl; try contradiction; destruct b; simpl; try contradiction; auto. intros [H|H]; auto. }
      apply in_map_iff in Hin as (o & Ho & _). eapply cluster_posterior_01; eauto.
    + intros new. destruct (negb _); [apply dnn_ret|]. destruct (forallb _ _); [apply dnn_ret|]. apply dnn_finish.
Qed.
Lemma mass_pos (d : dist outcome) y q qb : dnn d -> supp d (Propose y q qb) -> 0 < mass d y.
Proof.
  intros Hd (p & Hin & Hp). rewrite mass_E. unfold E.
  assert (Hi : forall out, 0 <= ind y out) by (intros [|y' q' qb'|]; unfold ind; try lra; destruct (cstate_eq_dec _ _); lra).
  induction d as [|[out r] d IH]; [contradiction|]. simpl map. rewrite Qsum_cons.
  assert (Hd' : dnn d) by (intros a' p' H'; eapply Hd; right; eauto).
  assert (Hr : 0 <= r) by (eapply Hd; left; reflexivity).
  assert (H0 : 0 <= Qsum (map (fun '(a, p) => p * ind y a) d)).
  { apply Qsum_nonneg. rewrite Forall_map. apply Forall_forall. intros [a s] Hs. apply Qmult_le_0_compat; auto. eapply Hd'; eauto. }
  destruct Hin as [[= -> ->]|Hin].
  - rewrite ind_propose. assert (0 < p) by (apply Qnot_le_lt; intros ?; apply Hp; lra). lra.
  - specialize (IH Hd' Hin). pose proof (Qmult_le_0_compat _ _ Hr (Hi out)). lra.
Qed.
End Nonneg.
