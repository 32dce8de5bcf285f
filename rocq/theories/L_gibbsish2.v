(** Lemmas for C14: masses of the proposals of [AlterClusterGibbsish2]. *)
From Verif Require Import M_operators S_model S_operators L_model L_operators L_reverse L_gibbsish.
From Coq Require Import Lra.
Set Implicit Arguments.
Unset Strict Implicit.
Open Scope Q_scope.

(** * Masked assignment *)
Lemma gather_scatter a : forall c n, length c = length a -> length n = size a -> gather a (scatter a c n) = n.
Proof.
  unfold size. induction a as [|[] a IH]; intros [|b c] n Hc Hn; simpl in *; try discriminate.
  - destruct n; [auto|discriminate].
  - destruct n as [|y n]; [discriminate|]. simpl. f_equal. apply IH; auto.
  - apply IH; auto.
Qed.
Lemma scatter_gather a : forall c n, length c = length a -> length n = size a -> scatter a (scatter a c n) (gather a c) = c.
Proof.
  unfold size. induction a as [|[] a IH]; intros [|b c] n Hc Hn; simpl in *; try discriminate; auto.
  - destruct n as [|y n]; [discriminate|]. simpl. f_equal. apply IH; auto.
  - f_equal. apply IH; auto.
Qed.
Lemma scatter_self a : forall c, length c = length a -> scatter a c (gather a c) = c.
Proof.
  induction a as [|[] a IH]; intros [|b c] Hc; simpl in *; try discriminate; auto; f_equal; apply IH; auto.
Qed.
Lemma scatter_inj a c n n' : length c = length a -> length n = size a -> length n' = size a ->
  scatter a c n = scatter a c n' -> n = n'.
Proof. intros Hc Hn Hn' H. rewrite <- (gather_scatter Hc Hn), H. apply gather_scatter; auto. Qed.

Lemma eqb_all : forall a b : list bool, length a = length b ->
  forallb (fun b => b) (map2 Bool.eqb a b) = true <-> a = b.
Proof.
  induction a as [|x a IH]; intros [|y b] H; simpl in *; try discriminate; [split; auto|].
  rewrite andb_true_iff, IH by lia. split.
  - intros [H1 ->]. apply eqb_prop in H1 as ->. reflexivity.
  - intros [= -> ->]. split; auto. apply eqb_reflx.
Qed.
Lemma xorb_sym : forall a b : list bool, map2 xorb a b = map2 xorb b a.
Proof. induction a as [|x a IH]; intros [|y b]; simpl; auto. f_equal; auto. apply xorb_comm. Qed.

Section G2.
Variable e : env.
Variable k : nat.

(** The product of the membership probabilities. *)
Lemma fold_member ps : forall new q, length new = length ps -> fold_right omult (Some 1) (map2 member_prob ps new) = Some q ->
  Qprod (map2 (point Bool.bool_dec) (map draw_member ps) new) == q.
Proof.
  induction ps as [|p ps IH]; intros [|b new] q Hl H; simpl in Hl; try discriminate.
  - injection H as <-. reflexivity.
  - simpl in H. apply omult_some in H as (u & v & Hu & Hv & ->). simpl map2. rewrite Qprod_cons.
    rewrite (IH new v) by (auto; lia). apply Qmult_comp; [|reflexivity].
    destruct p as [p|]; [|discriminate]. injection Hu as <-. unfold point. simpl draw_member. rewrite E_flip.
    destruct b; simpl; ring.
Qed.

Section At.
Variables (x : cstate) (i : nat).
Let cl := x_clusters x.
Let old := nth i cl [].
Let avail := available e cl i.
Let ps := gather avail (map (cluster_posterior e cl i) (seq 0 (n_objects e))).
Hypothesis Hshape : cluster_shape k (n_objects e) cl.
Hypothesis Hi : (i < length cl)%nat.

Lemma old_length : length old = n_objects e. Proof. eapply row_length; eauto. Qed.
Lemma avail_length : length avail = n_objects e.
Proof. unfold avail, available, any_cluster. rewrite map2_length, map_length, seq_length. fold old. rewrite old_length. lia. Qed.
Lemma ps_length : length ps = size avail.
Proof. unfold ps. apply gather_length. rewrite map_length, seq_length, avail_length. reflexivity. Qed.
Lemma avail_nth o : (o < n_objects e)%nat -> nth_error avail o = Some (negb (any_group cl o) || nth o old false).
Proof. intros Ho. unfold avail, available. apply available_nth; auto. symmetry. apply old_length. Qed.
Lemma old_avail o : nth_error old o = Some true -> nth_error avail o = Some true.
Proof.
  intros Ho. assert (Hlt : (o < n_objects e)%nat) by (rewrite <- old_length; apply nth_error_Some; congruence).
  rewrite avail_nth by auto. rewrite (nth_error_nth _ _ false Ho), orb_true_r. reflexivity.
Qed.

Variables (y : cstate) (new : list bool) (s : Q).
Let changed := nonzero (map2 xorb old (scatter avail old new)).
Hypothesis Hnew : length new = size avail.
Hypothesis Hsz : (e_min e <= size new <= e_max e)%nat.
Hypothesis Hne : new <> gather avail old.
Hypothesis Hok : source_ok e x.
Hypothesis Ht : target e false x (upd i (fun _ => scatter avail old new) cl) changed y.
Hypothesis Hs : src_factor e x (upd i (fun _ => scatter avail old new) cl) changed y = Some s.

Lemma changed_lt : Forall (fun o => (o < n_objects e)%nat) changed.
Proof.
  apply Forall_forall. intros o Ho. apply in_nonzero in Ho.
  assert (H : (o < length (map2 xorb old (scatter avail old new)))%nat) by (apply nth_error_Some; congruence).
  rewrite map2_length, old_length in H. lia.
Qed.

Lemma gibbsish2_at_mass q : fold_right omult (Some 1) (map2 member_prob ps new) = Some q ->
  mass (gibbsish2_at e x i) y == q * s.
Proof.
  intros Hq. pose proof Ht as [Hy _]. unfold gibbsish2_at. cbv zeta. fold cl. fold old avail. fold ps.
  rewrite mass_bind.
  assert (Hp : E (prod_dist (map draw_member ps)) (fun l => if list_eq_dec Bool.bool_dec l new then 1 else 0) == q).
  { rewrite prod_point by (rewrite map_length, ps_length; auto). apply fold_member; auto. rewrite ps_length; auto. }
  rewrite <- Hp. rewrite (Qmult_comm _ s).
  assert (HE : forall d (f : list bool -> Q), s * E d f == E d (fun a => s * f a)).
  { intros d f. induction d as [|[a p] d IH]; [unfold E; simpl; ring|]. rewrite !E_cons, <- IH. ring. }
  rewrite HE. apply E_ext_supp. intros new' Hn'.
  assert (Hl' : length new' = size avail).
  { apply supp_prod_dist, Forall2_len in Hn'. rewrite map_length, ps_length in Hn'. auto. }
  destruct (list_eq_dec Bool.bool_dec new' new) as [->|Hne'].
  - destruct (Nat.leb_spec (e_min e) (size new)), (Nat.leb_spec (size new) (e_max e)); try lia. simpl negb. cbv iota.
    destruct (forallb _ _) eqn:Ef.
    { apply eqb_all in Ef; [contradiction|]. rewrite gather_length, Hnew; auto. rewrite old_length, avail_length; auto. }
    rewrite nth_upd_same by auto. fold changed. rewrite Qmult_1_r.
    eapply target_finish; eauto; [apply NoDup_nonzero|apply changed_lt].
  - rewrite Qmult_0_r. apply mass_zero. intros q1 qb1 Hsup.
    destruct (negb _); [apply supp_ret in Hsup; discriminate|]. destruct (forallb _ _); [apply supp_ret in Hsup; discriminate|].
    apply supp_finish in Hsup. rewrite Hy in Hsup. apply Hne'. symmetry.
    apply (@scatter_inj avail old); auto; [rewrite old_length, avail_length; auto|].
    assert (H := f_equal (fun m => nth i m []) Hsup). simpl in H. rewrite !nth_upd_same in H by auto. exact H.
Qed.

Lemma gibbsish2_mass q : fold_right omult (Some 1) (map2 member_prob ps new) = Some q ->
  mass (gibbsish2 e x) y == inv_nat (length cl) * (q * s).
Proof.
  intros Hq. unfold gibbsish2. unfold cl at 1. rewrite <- ids_length. apply (@mass_choose _ _ _ i).
  - unfold ids; apply seq_NoDup.
  - apply in_ids; auto.
  - apply gibbsish2_at_mass; auto.
  - intros j Hj Hji. apply mass_zero. intros q1 qb1 Hsup. unfold gibbsish2_at in Hsup. cbv zeta in Hsup.
    apply supp_bind in Hsup as (n' & _ & Hsup).
    destruct (negb _); [apply supp_ret in Hsup; discriminate|]. destruct (forallb _ _); [apply supp_ret in Hsup; discriminate|].
    apply supp_finish in Hsup. pose proof Ht as [Hy _]. rewrite Hy in Hsup. apply Hne.
    assert (H := f_equal (fun m => nth i m []) Hsup). simpl in H. rewrite nth_upd_same, nth_upd_other in H by auto.
    fold cl old in H. rewrite <- (@gather_scatter avail old new); auto; [congruence|].
    rewrite old_length, avail_length; auto.
Qed.
End At.

(** The objects that cluster [i] may contain are the same before and after the move. *)
Lemma avail_same cl i new : cluster_shape k (n_objects e) cl -> disjoint_groups cl -> (i < length cl)%nat ->
  length new = size (available e cl i) ->
  available e (upd i (fun _ => scatter (available e cl i) (nth i cl []) new) cl) i = available e cl i.
Proof.
  intros Hsh Hd Hi Hnew. set (a := available e cl i). set (r := scatter a (nth i cl []) new).
  assert (Hold : length (nth i cl []) = n_objects e) by (eapply row_length; eauto).
  assert (Hal : length a = n_objects e) by (eapply avail_length with (x := {| x_clusters := cl; x_source := None |}); eauto).
  assert (Hr : length r = n_objects e) by (unfold r; rewrite scatter_length; congruence).
  assert (Hsh' : cluster_shape k (n_objects e) (upd i (fun _ => r) cl)) by (apply shape_upd'; auto).
  assert (Hi' : (i < length (upd i (fun _ => r) cl))%nat) by (rewrite upd_length; auto).
  assert (Hav : forall o, (o < n_objects e)%nat -> nth_error a o = Some (negb (any_group cl o) || nth o (nth i cl []) false)).
  { intros o Ho. apply (@avail_nth {| x_clusters := cl; x_source := None |}); auto. }
  assert (Hav' : forall o, (o < n_objects e)%nat -> nth_error (available e (upd i (fun _ => r) cl) i) o =
      Some (negb (any_group (upd i (fun _ => r) cl) o) || nth o r false)).
  { intros o Ho. pose proof (@avail_nth {| x_clusters := upd i (fun _ => r) cl; x_source := None |} i Hsh' Hi' o Ho) as H.
    simpl in H. rewrite nth_upd_same in H by auto. exact H. }
  (* both say: no other cluster contains the object *)
  assert (Hout : forall o, (o < n_objects e)%nat -> nth_error a o = Some false -> nth o r false = nth o (nth i cl []) false).
  { intros o Ho Ha. pose proof (@scatter_outside a (nth i cl []) new o Ha ltac:(congruence)) as H. fold r in H.
    rewrite !(nth_error_nth' _ false) in H by congruence. congruence. }
  apply nth_error_ext. intros o. destruct (Nat.lt_ge_cases o (n_objects e)) as [Ho|Ho].
  2:{ rewrite !(proj2 (nth_error_None _ _)); auto; [congruence|].
      erewrite (@avail_length {| x_clusters := upd i (fun _ => r) cl; x_source := None |}); eauto. }
  rewrite Hav', Hav by auto. f_equal.
  destruct (nth o (nth i cl []) false) eqn:Eo.
  - (* in the old cluster: available; if not in the new one, then in no cluster, by disjointness *)
    rewrite orb_true_r. destruct (nth o r false) eqn:Er; [apply orb_true_r|]. rewrite orb_false_r.
    apply negb_true_iff. destruct (any_group (upd i (fun _ => r) cl) o) eqn:Eg; auto. exfalso.
    unfold any_group in Eg. apply existsb_exists in Eg as (c & Hc & Hoc). apply (In_nth _ _ []) in Hc as (j & Hj & <-).
    destruct (Nat.eq_dec i j) as [<-|Hne].
    + rewrite nth_upd_same in Hoc by auto. congruence.
    + rewrite nth_upd_other in Hoc by auto. apply Hne. eapply Hd; eauto.
  - rewrite orb_false_r. destruct (any_group cl o) eqn:Eg; simpl.
    + assert (Ha : nth_error a o = Some false) by (rewrite Hav, Eg, Eo; auto).
      rewrite (Hout o Ho Ha), Eo, orb_false_r. apply negb_false_iff.
      unfold any_group in Eg. apply existsb_exists in Eg as (c & Hc & Hoc). apply (In_nth _ _ []) in Hc as (j & Hj & <-).
      apply any_group_true with (i := j). rewrite nth_upd_other; auto. intros ->. congruence.
    + destruct (nth o r false) eqn:Er; [apply orb_true_r|]. rewrite orb_false_r. apply negb_true_iff.
      destruct (any_group (upd i (fun _ => r) cl) o) eqn:Eg'; auto.
      unfold any_group in Eg'. apply existsb_exists in Eg' as (c & Hc & Hoc). apply (In_nth _ _ []) in Hc as (j & Hj & <-).
      destruct (Nat.eq_dec i j) as [<-|Hne].
      * rewrite nth_upd_same in Hoc by auto. congruence.
      * rewrite nth_upd_other in Hoc by auto. apply any_group_true in Hoc. congruence.
Qed.

Lemma one_k n q : inv_nat n * q == q / inject_Z (Z.of_nat n).
Proof.
  unfold inv_nat. destruct n as [|n].
  - simpl. unfold Qdiv, inject_Z. simpl. unfold Qinv; simpl. ring.
  - field. unfold Qeq, inject_Z; simpl; lia.
Qed.

Theorem gibbsish2_reversible x y q qb : cluster_shape k (n_objects e) (x_clusters x) -> disjoint_groups (x_clusters x) ->
  sizes_in (e_min e) (e_max e) (x_clusters x) -> source_ok e x ->
  supp (gibbsish2 e x) (Propose y q qb) ->
  (forall r, q = Some r -> mass (gibbsish2 e x) y == r / inject_Z (Z.of_nat k)) /\
  (forall r, qb = Some r -> mass (gibbsish2 e y) x == r / inject_Z (Z.of_nat k)).
Proof.
  intros Hsh Hd Hsz Hok Hsup. pose proof Hsh as [Hk Hn].
  unfold gibbsish2 in Hsup. apply supp_choose in Hsup as [[Hx _]|(i & Hi & Hsup)]; [discriminate|]. apply in_ids in Hi.
  unfold gibbsish2_at in Hsup. cbv zeta in Hsup.
  apply supp_bind in Hsup as (new & Hnew & Hsup).
  pose proof (old_length Hsh Hi) as Hold. pose proof (avail_length Hsh Hi) as Hal. pose proof (ps_length Hsh Hi) as Hps.
  pose proof (@old_avail x i Hsh Hi) as Hoa.
  set (a := available e (x_clusters x) i) in *. set (old := nth i (x_clusters x) []) in *.
  set (ps := gather a (map (cluster_posterior e (x_clusters x) i) (seq 0 (n_objects e)))) in *.
  destruct (Nat.leb_spec (e_min e) (size new)) as [Hmin|Hmin]; [|apply supp_ret in Hsup; discriminate].
  destruct (Nat.leb_spec (size new) (e_max e)) as [Hmax|Hmax]; [|apply supp_ret in Hsup; discriminate].
  simpl negb in Hsup. cbv iota in Hsup.
  assert (Hl : length new = size a).
  { apply supp_prod_dist, Forall2_len in Hnew. rewrite map_length in Hnew. congruence. }
  assert (Hgl : length (gather a old) = size a) by (apply gather_length; congruence).
  destruct (forallb _ _) eqn:Ef; [apply supp_ret in Hsup; discriminate|].
  assert (Hne : new <> gather a old). { intros E. apply eqb_all in E; congruence. }
  rewrite nth_upd_same in Hsup by auto.
  assert (Hlt : Forall (fun o => (o < n_objects e)%nat) (nonzero (map2 xorb old (scatter a old new)))).
  { apply Forall_forall. intros o Ho. apply in_nonzero in Ho.
    assert (H : (o < length (map2 xorb old (scatter a old new)))%nat) by (apply nth_error_Some; congruence).
    rewrite map2_length, Hold in H. lia. }
  apply supp_finish_full in Hsup as (Ht & Hq & Hqb & Htb & Hoky); auto; [|apply NoDup_nonzero].
  split; intros r Hr.
  - destruct (oeq_some Hq Hr) as (t & Ht' & ->). apply omult_some in Ht' as (u & s & Hu & Hs & ->).
    rewrite (@gibbsish2_mass x i Hsh Hi y new s Hl (conj Hmin Hmax) Hne Hok Ht Hs u Hu), one_k, Hk. reflexivity.
  - destruct (oeq_some Hqb Hr) as (t & Ht' & ->). apply omult_some in Ht' as (u & s & Hu & Hs & ->).
    pose proof Ht as [Hcl _].
    assert (Hsl : length (scatter a old new) = n_objects e) by (rewrite scatter_length; congruence).
    assert (Hsh' : cluster_shape k (n_objects e) (x_clusters y)) by (rewrite Hcl; apply shape_upd'; auto).
    assert (Hiy : (i < length (x_clusters y))%nat) by (destruct Hsh' as [-> _]; lia).
    assert (Hay : available e (x_clusters y) i = a) by (rewrite Hcl; apply avail_same; auto).
    assert (Hoy : nth i (x_clusters y) [] = scatter a old new) by (rewrite Hcl; apply nth_upd_same; auto).
    assert (Hsc : scatter a (scatter a old new) (gather a old) = old) by (apply scatter_gather; congruence).
    assert (Hxx : upd i (fun _ => old) (x_clusters y) = x_clusters x).
    { rewrite Hcl. apply nth_error_ext. intros j. rewrite !nth_error_upd. destruct (Nat.eqb_spec i j) as [<-|Hj]; auto.
      unfold old. rewrite (nth_error_nth' _ [] Hi). reflexivity. }
    assert (Hsizeo : size (gather a old) = size old).
    { rewrite <- (size_scatter (a := a) (c := old) (n := gather a old)); auto; [|congruence].
      rewrite scatter_self; congruence. }
    assert (Hszo : (e_min e <= size (gather a old) <= e_max e)%nat).
    { rewrite Hsizeo. unfold sizes_in in Hsz. rewrite Forall_forall in Hsz. rewrite size_count. apply Hsz, nth_In; auto. }
    assert (Hps' : gather a (map (cluster_posterior e (x_clusters y) i) (seq 0 (n_objects e))) = ps).
    { unfold ps. f_equal. apply map_ext. intros o. apply cluster_posterior_clusters. }
    pose proof (@gibbsish2_mass y i Hsh' Hiy x (gather a old) s) as G.
    rewrite Hay, Hoy, Hsc, Hxx, Hps' in G. rewrite (xorb_sym (scatter a old new) old) in G.
    rewrite (G Hgl Hszo); auto.
    + rewrite one_k, (proj1 Hsh'). reflexivity.
    + rewrite gather_scatter by congruence. congruence.
    + exact Hu.
Qed.
End G2.
