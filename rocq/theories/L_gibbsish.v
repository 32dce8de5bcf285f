(** Lemmas for C14: masses of the proposals of the two Gibbs-ish cluster operators. *)
From Verif Require Import M_operators S_operators L_model L_operators L_reverse.
From Coq Require Import Lra.
Set Implicit Arguments.
Unset Strict Implicit.
Open Scope Q_scope.

(** * The membership posterior does not depend on the clusters *)
Section Post.
Variable e : env.
Lemma weights_z01_clusters cl cl' o f : weights_z01 e cl o f = weights_z01 e cl' o f.
Proof.
  unfold weights_z01, has_row. simpl map. destruct (any_group cl o), (any_group cl' o); reflexivity.
Qed.
Lemma all_lh_clusters cl cl' i o f c : all_lh e cl i o f c = all_lh e cl' i o f c.
Proof. destruct c; reflexivity. Qed.
Lemma marginal_clusters cl cl' i o wt : marginal_lh e cl i o wt = marginal_lh e cl' i o wt.
Proof.
  unfold marginal_lh. f_equal. apply map_ext. intros f. destruct (wt f) as [w|]; simpl; auto.
  f_equal. f_equal. unfold mapi. apply mapi_from_ext. intros c q Hc. rewrite (all_lh_clusters cl cl'). reflexivity.
Qed.
Lemma cluster_posterior_clusters cl cl' i o : cluster_posterior e cl i o = cluster_posterior e cl' i o.
Proof.
  unfold cluster_posterior. destruct (e_from_prior e); auto.
  assert (H : forall (p : option (list Q) * option (list Q) -> option (list Q)),
    marginal_lh e cl i o (fun f => p (weights_z01 e cl o f)) = marginal_lh e cl' i o (fun f => p (weights_z01 e cl' o f))).
  { intros p. rewrite (marginal_clusters cl cl'). unfold marginal_lh. f_equal. apply map_ext. intros f. rewrite (weights_z01_clusters cl cl'). reflexivity. }
  rewrite (H fst), (H snd). reflexivity.
Qed.
Lemma posteriors_clusters cl cl' i : posteriors e cl i = posteriors e cl' i.
Proof. unfold posteriors. f_equal. apply map_ext. intros o. apply cluster_posterior_clusters. Qed.

Lemma all_def_length l r : all_def l = Some r -> length r = length l.
Proof.
  revert r; induction l as [|[q|] l IH]; intros r H; simpl in H; try discriminate; [injection H as <-; reflexivity|].
  destruct (all_def l); [|discriminate]. injection H as <-. simpl. rewrite IH; auto.
Qed.
Lemma posteriors_length cl i post : posteriors e cl i = Some post -> length post = n_objects e.
Proof. intros H. apply all_def_length in H. rewrite H, map_length, seq_length. reflexivity. Qed.
Lemma normalize_length v l : normalize v = Some l -> length l = length v.
Proof. unfold normalize. cbv zeta. destruct (Qeq_bool _ _); [discriminate|]. intros [= <-]. apply map_length. Qed.
Lemma bmask_length v m : length (bmask v m) = Nat.min (length v) (length m).
Proof. unfold bmask. apply map2_length. Qed.

(** * Different choices give different clusterings *)
Lemma add_ne cl z a z' b : (z < length cl)%nat -> nth_error (nth z cl []) a = Some false ->
  add_object cl z a = add_object cl z' b -> z = z' /\ a = b.
Proof.
  intros Hz Ha H.
  assert (H1 : nth_error (nth z (add_object cl z' b) []) a = Some true).
  { rewrite <- H. apply add_object_nth; auto. apply nth_error_Some; congruence. }
  unfold add_object in H1. destruct (Nat.eq_dec z' z) as [<-|Hne].
  - rewrite nth_upd_same, nth_error_upd in H1 by auto. destruct (Nat.eqb_spec b a); auto. congruence.
  - rewrite nth_upd_other in H1 by auto. congruence.
Qed.
Lemma remove_ne cl z a z' b : (z < length cl)%nat -> nth_error (nth z cl []) a = Some true ->
  remove_object cl z a = remove_object cl z' b -> z = z' /\ a = b.
Proof.
  intros Hz Ha H.
  assert (H1 : nth_error (nth z (remove_object cl z' b) []) a = Some false).
  { rewrite <- H. unfold remove_object. rewrite nth_upd_same, nth_error_upd_same, Ha by auto. reflexivity. }
  unfold remove_object in H1. destruct (Nat.eq_dec z' z) as [<-|Hne].
  - rewrite nth_upd_same, nth_error_upd in H1 by auto. destruct (Nat.eqb_spec b a); auto. congruence.
  - rewrite nth_upd_other in H1 by auto. congruence.
Qed.

Lemma NoDup_one (a : nat) : NoDup [a].
Proof. constructor; [intros []|constructor]. Qed.

(** * Grow and shrink *)
Variable k : nat.
Section Grow.
Variables (x y : cstate) (z a : nat) (s : Q) (post l : list Q).
Let cl := x_clusters x.
Hypothesis Hshape : cluster_shape k (n_objects e) cl.
Hypothesis Hz : (z < length cl)%nat.
Hypothesis Ha : (a < n_objects e)%nat.
Hypothesis Hfree : any_group cl a = false.
Hypothesis Hok : source_ok e x.
Hypothesis Ht : target e false x (add_object cl z a) [a] y.
Hypothesis Hs : src_factor e x (add_object cl z a) [a] y = Some s.
Hypothesis Hpost : posteriors e cl z = Some post.
Hypothesis Hl : p_add post (bnot (any_cluster (n_objects e) cl)) = Some l.

Lemma gibbsish_grow_mass : size (nth z cl []) <> e_max e ->
  mass (gibbsish e x) y == (1#2) * inv_nat (length cl) * (nth a l 0 * s).
Proof.
  intros Hmax. pose proof Ht as [Hy _].
  assert (Hcell : nth_error (nth z cl []) a = Some false).
  { destruct Hshape as [_ Hn]. eapply free_row; eauto. apply nth_error_nth'; auto. }
  unfold gibbsish. rewrite mass_bind, E_flip.
  assert (Hshr : mass (gibbsish_shrink e x) y == 0).
  { apply mass_zero. intros q qb Hsup. apply supp_gibbsish_shrink in Hsup as (z' & a' & Hz' & Ha' & _ & E).
    assert (T1 : total (x_clusters y) = S (total cl)) by (rewrite Hy; apply total_add; auto).
    rewrite E in T1. pose proof (total_remove Hz' Ha') as T2. unfold cl in *. lia. }
  assert (Hgrow : mass (gibbsish_grow e x) y == inv_nat (length cl) * (nth a l 0 * s)).
  { unfold gibbsish_grow. unfold cl at 1. rewrite <- ids_length. apply (@mass_choose _ _ _ z).
    - unfold ids; apply seq_NoDup.
    - apply in_ids; auto.
    - unfold gibbsish_grow_at. fold cl. cbv zeta. set (fr := bnot (any_cluster (n_objects e) cl)) in *.
      assert (Hin : nth_error fr a = Some true).
      { unfold fr. apply nth_error_bnot. simpl. rewrite nth_error_any_cluster by auto. congruence. }
      assert (Hex : existsb (fun b : bool => b) fr = true).
      { apply existsb_exists. exists true; split; auto. eapply nth_error_In; eauto. }
      rewrite Hex. simpl negb. cbv iota.
      destruct (Nat.eqb_spec (size (nth z cl [])) (e_max e)); [congruence|].
      rewrite Hpost, Hl. apply mass_choose_p.
      + apply normalize_length in Hl. rewrite Hl, bmask_length, (posteriors_length Hpost).
        unfold fr, bnot, any_cluster. rewrite !map_length, seq_length. lia.
      + eapply target_finish; eauto; repeat constructor; auto.
      + intros b Hb Hne. apply finish_mass_other. rewrite Hy. intros Heq. apply add_ne in Heq as [_ Heq]; auto.
    - intros z' Hz' Hne. apply mass_zero. intros q qb Hsup. unfold gibbsish_grow_at in Hsup. fold cl in Hsup. cbv zeta in Hsup.
      destruct (negb _); [apply supp_ret in Hsup; discriminate|].
      destruct (_ =? _)%nat; [apply supp_ret in Hsup; discriminate|].
      destruct (posteriors e cl z'); [|apply supp_ret in Hsup; discriminate].
      apply supp_choose_p in Hsup as [[Hx _]|(l' & b & p & _ & _ & _ & Hsup)]; [discriminate|]. apply supp_finish in Hsup.
      rewrite Hy in Hsup. apply add_ne in Hsup as [? _]; auto. }
  rewrite Hshr, Hgrow. ring.
Qed.
End Grow.

Section Shrink.
Variables (x y : cstate) (z a : nat) (s : Q) (post l : list Q).
Let cl := x_clusters x.
Hypothesis Hshape : cluster_shape k (n_objects e) cl.
Hypothesis Hz : (z < length cl)%nat.
Hypothesis Ha : nth_error (nth z cl []) a = Some true.
Hypothesis Hok : source_ok e x.
Hypothesis Ht : target e false x (remove_object cl z a) [a] y.
Hypothesis Hs : src_factor e x (remove_object cl z a) [a] y = Some s.
Hypothesis Hpost : posteriors e cl z = Some post.
Hypothesis Hl : p_remove post (nth z cl []) = Some l.

Lemma gibbsish_shrink_mass : size (nth z cl []) <> e_min e ->
  mass (gibbsish e x) y == (1#2) * inv_nat (length cl) * (nth a l 0 * s).
Proof.
  intros Hmin. pose proof Ht as [Hy _].
  assert (Hrow : length (nth z cl []) = n_objects e) by (eapply row_length; eauto).
  assert (Halt : (a < n_objects e)%nat) by (rewrite <- Hrow; apply nth_error_Some; congruence).
  unfold gibbsish. rewrite mass_bind, E_flip.
  assert (Hgrow : mass (gibbsish_grow e x) y == 0).
  { apply mass_zero. intros q qb Hsup. apply supp_gibbsish_grow in Hsup as (z' & a' & Hz' & Ha' & Hf & _ & E).
    pose proof (total_remove Hz Ha) as T1.
    assert (T2 : total (add_object cl z' a') = S (total cl)).
    { apply total_add; auto. destruct Hshape as [_ Hn]. eapply free_row; eauto. apply nth_error_nth'; auto. }
    unfold cl in *. rewrite Hy in E. rewrite E in T1. lia. }
  assert (Hshr : mass (gibbsish_shrink e x) y == inv_nat (length cl) * (nth a l 0 * s)).
  { unfold gibbsish_shrink. unfold cl at 1. rewrite <- ids_length. apply (@mass_choose _ _ _ z).
    - unfold ids; apply seq_NoDup.
    - apply in_ids; auto.
    - unfold gibbsish_shrink_at. fold cl. cbv zeta.
      destruct (Nat.eqb_spec (size (nth z cl [])) (e_min e)); [congruence|].
      rewrite Hpost, Hl. apply mass_choose_p.
      + apply normalize_length in Hl. rewrite Hl, bmask_length, map_length, (posteriors_length Hpost). lia.
      + eapply target_finish; eauto; repeat constructor; auto.
      + intros b Hb Hne. apply finish_mass_other. rewrite Hy. intros Heq. apply remove_ne in Heq as [_ Heq]; auto.
    - intros z' Hz' Hne. apply mass_zero. intros q qb Hsup. unfold gibbsish_shrink_at in Hsup. fold cl in Hsup. cbv zeta in Hsup.
      destruct (_ =? _)%nat; [apply supp_ret in Hsup; discriminate|].
      destruct (posteriors e cl z'); [|apply supp_ret in Hsup; discriminate].
      apply supp_choose_p in Hsup as [[Hx _]|(l' & b & p & _ & _ & _ & Hsup)]; [discriminate|]. apply supp_finish in Hsup.
      rewrite Hy in Hsup. apply remove_ne in Hsup as [? _]; auto. }
  rewrite Hshr, Hgrow. ring.
Qed.
End Shrink.

Lemma option_map_some {A B} (f : A -> B) o b : option_map f o = Some b -> exists a, o = Some a /\ b = f a.
Proof. destruct o; simpl; intros [= <-]; eauto. Qed.

Theorem gibbsish_reversible x y q qb : cluster_shape k (n_objects e) (x_clusters x) -> disjoint_groups (x_clusters x) ->
  sizes_in (e_min e) (e_max e) (x_clusters x) -> source_ok e x ->
  supp (gibbsish e x) (Propose y q qb) ->
  (forall r, q = Some r -> mass (gibbsish e x) y == r / (2 * inject_Z (Z.of_nat k))) /\
  (forall r, qb = Some r -> mass (gibbsish e y) x == r / (2 * inject_Z (Z.of_nat k))).
Proof.
  intros Hsh Hd Hsz Hok Hsup. pose proof Hsh as [Hk Hn].
  assert (Hsize : forall z, (z < length (x_clusters x))%nat -> (e_min e <= size (nth z (x_clusters x) []) <= e_max e)%nat).
  { intros z Hz. unfold sizes_in in Hsz. rewrite Forall_forall in Hsz. rewrite size_count. apply Hsz, nth_In; auto. }
  apply supp_gibbsish in Hsup as [Hsup|Hsup].
  - (* shrink *)
    unfold gibbsish_shrink in Hsup. apply supp_choose in Hsup as [[Hx _]|(z & Hz & Hsup)]; [discriminate|]. apply in_ids in Hz.
    unfold gibbsish_shrink_at in Hsup. cbv zeta in Hsup.
    destruct (Nat.eqb_spec (size (nth z (x_clusters x) [])) (e_min e)) as [Hm|Hm]; [apply supp_ret in Hsup; discriminate|].
    destruct (posteriors e (x_clusters x) z) as [post|] eqn:Hpost; [|apply supp_ret in Hsup; discriminate].
    apply supp_choose_p in Hsup as [[Hx _]|(l & a & p & Hl & Ha' & Hp & Hsup)]; [discriminate|].
    destruct (normalize_zero Hl Ha' Hp) as (v & Hv & Hv0). pose proof (bmask_zero Hv Hv0) as Ha. clear v Hv Hv0.
    assert (Halt : (a < n_objects e)%nat) by (rewrite <- (row_length Hsh Hz); apply nth_error_Some; congruence).
    apply supp_finish_full in Hsup as (Ht & Hq & Hqb & Htb & Hoky); auto using NoDup_one.
    split; intros r Hr.
    + destruct (oeq_some Hq Hr) as (t & Ht' & ->). apply omult_some in Ht' as (u & s & Hu & Hs & ->).
      rewrite Hl in Hu. injection Hu as <-.
      rewrite (gibbsish_shrink_mass Hsh Hz Ha Hok Ht Hs Hpost Hl Hm), two_k, Hk. reflexivity.
    + destruct (oeq_some Hqb Hr) as (t & Ht' & ->). apply omult_some in Ht' as (u & s & Hu & Hs & ->).
      apply option_map_some in Hu as (lb & Hlb & ->).
      destruct Ht as [Hcl Ht]. set (cl' := remove_object (x_clusters x) z a) in *.
      assert (Hsh' : cluster_shape k (n_objects e) (x_clusters y)).
      { rewrite Hcl. apply shape_upd; auto. intros; apply upd_length. }
      assert (Hback : add_object (x_clusters y) z a = x_clusters x) by (rewrite Hcl; apply add_remove; auto).
      assert (Hzy : (z < length (x_clusters y))%nat) by (destruct Hsh' as [-> _]; lia).
      assert (Hfree : any_group (x_clusters y) a = false) by (rewrite Hcl; eapply free_after_remove; eauto).
      assert (Hsy : size (nth z (x_clusters y) []) <> e_max e).
      { rewrite Hcl. unfold cl', remove_object. rewrite nth_upd_same by auto. pose proof (size_upd_false Ha).
        specialize (Hsize z Hz). lia. }
      rewrite <- Hback in Htb, Hs. rewrite <- Hcl in Hlb.
      rewrite (posteriors_clusters (x_clusters x) (x_clusters y)) in Hpost.
      rewrite (gibbsish_grow_mass Hsh' Hzy Halt Hfree Hoky Htb Hs Hpost Hlb Hsy), two_k, (proj1 Hsh'). reflexivity.
  - (* grow *)
    unfold gibbsish_grow in Hsup. apply supp_choose in Hsup as [[Hx _]|(z & Hz & Hsup)]; [discriminate|]. apply in_ids in Hz.
    unfold gibbsish_grow_at in Hsup. cbv zeta in Hsup.
    destruct (negb _); [apply supp_ret in Hsup; discriminate|].
    destruct (Nat.eqb_spec (size (nth z (x_clusters x) [])) (e_max e)) as [Hm|Hm]; [apply supp_ret in Hsup; discriminate|].
    destruct (posteriors e (x_clusters x) z) as [post|] eqn:Hpost; [|apply supp_ret in Hsup; discriminate].
    apply supp_choose_p in Hsup as [[Hx _]|(l & a & p & Hl & Ha' & Hp & Hsup)]; [discriminate|].
    destruct (normalize_zero Hl Ha' Hp) as (v & Hv & Hv0). pose proof (bmask_zero Hv Hv0) as Hc. clear v Hv Hv0.
    apply free_true in Hc as [Ha Hf].
    apply supp_finish_full in Hsup as (Ht & Hq & Hqb & Htb & Hoky); auto using NoDup_one.
    split; intros r Hr.
    + destruct (oeq_some Hq Hr) as (t & Ht' & ->). apply omult_some in Ht' as (u & s & Hu & Hs & ->).
      rewrite Hl in Hu. injection Hu as <-.
      rewrite (gibbsish_grow_mass Hsh Hz Ha Hf Hok Ht Hs Hpost Hl Hm), two_k, Hk. reflexivity.
    + destruct (oeq_some Hqb Hr) as (t & Ht' & ->). apply omult_some in Ht' as (u & s & Hu & Hs & ->).
      apply option_map_some in Hu as (lb & Hlb & ->).
      destruct Ht as [Hcl Ht]. set (cl' := add_object (x_clusters x) z a) in *.
      assert (Hcell : nth_error (nth z (x_clusters x) []) a = Some false).
      { eapply free_row; eauto. apply nth_error_nth'; auto. }
      assert (Hsh' : cluster_shape k (n_objects e) (x_clusters y)).
      { rewrite Hcl. apply shape_upd; auto. intros; apply upd_length. }
      assert (Hback : remove_object (x_clusters y) z a = x_clusters x) by (rewrite Hcl; apply remove_add; auto).
      assert (Hzy : (z < length (x_clusters y))%nat) by (destruct Hsh' as [-> _]; lia).
      assert (Hay : nth_error (nth z (x_clusters y) []) a = Some true).
      { rewrite Hcl. apply add_object_nth; auto. rewrite (row_length Hsh Hz); auto. }
      assert (Hsy : size (nth z (x_clusters y) []) <> e_min e).
      { rewrite Hcl. unfold cl', add_object. rewrite nth_upd_same by auto. rewrite (size_upd_true Hcell).
        specialize (Hsize z Hz). lia. }
      rewrite <- Hback in Htb, Hs. rewrite <- Hcl in Hlb.
      rewrite (posteriors_clusters (x_clusters x) (x_clusters y)) in Hpost.
      rewrite (gibbsish_shrink_mass Hsh' Hzy Hay Hoky Htb Hs Hpost Hlb Hsy), two_k, (proj1 Hsh'). reflexivity.
Qed.
End Post.
