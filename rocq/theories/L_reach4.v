(** Lemmas for C75 and C76: every state of positive posterior is reached, and the chain converges. *)
From Coq Require Import Relations Reals Qreals Lra.
From Verif Require Import M_source S_model S_operators S_source S_mcmc S_honest S_gsource S_ergodic
  L_model L_cache L_operators L_reverse L_gibbsish L_gibbsish2 L_source L_params L_balance L_honest L_honest2 L_gsource L_gsource2
  L_progress L_doeblin L_labels L_reach1 L_reach2 L_lreach L_reach3.
Set Implicit Arguments.
Unset Strict Implicit.
Open Scope R_scope.

Section Reach.
Variables (e : env) (k : nat) (moves : list (R * move)) (r : bmat -> R) (states : list cstate).
Hypothesis P : positive_env e.
Hypothesis Hpc : (0 <= e_pconn e <= 1)%Q.
Hypothesis Hce : length (e_ce e) = k.
Hypothesis Hres : e_resample e = true.
Hypothesis Hr : forall cl, 0 < r cl.
Hypothesis Hf : full_schedule e moves.
Hypothesis Hn : NoDup states.
Hypothesis Hs : forall x, In x states <-> good_src e k x.
Let ll := log_lh e.
Let prior := log_prior e r.
Let M := sampler_matrix e moves ll prior states.
Let V : valid_env e := positive_valid P Hpc.
Let Hst : stochastic states M := sampler_stochastic ll prior V Hn (proj1 (proj2 Hf)) (proj1 Hf).
Notation nstep := (nstep cstate_eq_dec M states).
(** Reached with positive probability. *)
Definition reach (x y : cstate) : Prop := exists m, 0 < nstep m x y.

Lemma reach_refl x : reach x x.
Proof. exists 0%nat. simpl. destruct (cstate_eq_dec x x); [lra|congruence]. Qed.
Lemma reach_trans x y z : In x states -> In y states -> In z states -> reach x y -> reach y z -> reach x z.
Proof. intros Hx Hy Hz (m & H1) (m' & H2). exists (m + m')%nat. eapply nstep_pos_trans with (z := y); eauto. Qed.
Lemma reach_step w m x y : In (w, m) moves -> 0 < w -> In x states -> In y states ->
  0 < kernel cstate_eq_dec 1 ll prior (move_props e m) x y -> reach x y.
Proof.
  intros Hm Hp Hx Hy Hk. exists 1%nat. rewrite nstep_one by auto. apply (@sampler_pos e moves ll prior states V Hn (proj1 (proj2 Hf)) w m); auto.
Qed.
Lemma Q2R_pos q : (0 < q)%Q -> 0 < Q2R q.
Proof. intros H. apply Qlt_Rlt in H. rewrite RMicromega.Q2R_0 in H. exact H. Qed.
Lemma adm_positive x : good_src e k x -> rows_adm e x -> 0 < posterior e r x.
Proof. intros G A. unfold posterior. apply Rmult_lt_0_compat; auto. apply Q2R_pos. apply (adm_density P Hce G A). Qed.
(** Log-likelihood and log-prior are finite where the posterior is positive. *)
Lemma positive_finite x : good_src e k x -> 0 < posterior e r x -> exists a b, ll x = Fin a /\ prior x = Fin b.
Proof.
  intros G H. rewrite <- (posterior_value P Hce (fun cl => Rlt_le _ _ (Hr cl)) G) in H. unfold target_density in H. rewrite xscale_one in H. fold ll prior in H.
  destruct (ll x) as [a| | |], (prior x) as [b| | |]; simpl in H; try lra; eauto.
Qed.
Lemma cluster_step w o x cl' : In (w, Cluster o) moves -> 0 < w -> good_src e k x -> rows_adm e x -> steps_to e (rows_adm e) o x cl' ->
  exists y, reach x y /\ good_src e k y /\ rows_adm e y /\ x_clusters y = cl'.
Proof.
  intros Hm Hp G A (y & q & qb & S & Hq & Hqb & Hc & Ay).
  assert (Gy : good_src e k y) by (apply (@good_src_closed e k (Cluster o) x y (Some q) (Some qb)); auto).
  exists y. conj; auto. apply reach_step with w (Cluster o); try apply Hs; auto.
  apply kernel_pos with (Some q) (Some qb); auto.
  destruct (positive_finite G (adm_positive G A)) as (a & b & -> & ->). destruct (positive_finite Gy (adm_positive Gy Ay)) as (a' & b' & -> & ->).
  cbn [xq]. rewrite !xln_pos by (apply Q2R_pos; auto). apply acc_pos.
Qed.
(** The source operator reaches every state of positive posterior with the same clusters. *)
Lemma source_reach x y : good_src e k x -> good_src e k y -> x_clusters y = x_clusters x -> (0 < source_density e y)%Q ->
  0 < kernel cstate_eq_dec 1 ll prior (move_props e Source) x y.
Proof.
  intros G Gy Hc Hd. rewrite source_kernel. apply Q2R_pos. rewrite (source_mass P Hce G Gy). destruct (list_eq_dec _ _ _); [|congruence].
  apply Qlt_shift_div_l; [|rewrite Qmult_0_l; auto].
  destruct G as [G (s0 & Hx)], Gy as [Gy (s & Hy)]. destruct (good_clusters Hce G) as [D L].
  pose proof (good_valid Hce G Hx) as V0. pose proof (good_valid Hce Gy Hy) as V1.
  unfold evidence, state_weights. destruct (e_from_prior e) eqn:Ef; [reflexivity|]. rewrite (weights_W P D L).
  destruct (@full_conditional e _ P D L x s0 s Ef eq_refl Hx (proj1 V0) V1) as (a & m & _ & -> & Hm & _). exact Hm.
Qed.
Lemma source_move : exists w, In (w, Source) moves /\ 0 < w.
Proof. apply Hf. Qed.
Lemma source_reaches x y : good_src e k x -> good_src e k y -> x_clusters y = x_clusters x -> (0 < source_density e y)%Q -> reach x y.
Proof. intros G Gy Hc Hd. destruct source_move as (w & Hw & Hp). apply reach_step with w Source; try apply Hs; auto. apply source_reach; auto. Qed.
Lemma source_adm x : good_src e k x -> exists y, reach x y /\ good_src e k y /\ rows_adm e y /\ x_clusters y = x_clusters x.
Proof.
  intros G. destruct (source_step P Hce G) as (y & q & qb & S & Hc & A).
  assert (Gy : good_src e k y) by (apply (@good_src_closed e k Source x y q qb); auto).
  exists y. conj; auto. apply source_reaches; auto. apply (adm_density P Hce Gy A).
Qed.

Let n := n_objects e.
Theorem irreducible x y : (k * e_min e < n)%nat -> good_src e k x -> good_src e k y -> 0 < posterior e r y -> reach x y.
Proof.
  intros Hk G Gy Hy. destruct (source_adm G) as (x1 & R1 & G1 & A1 & E1).
  pose proof G1 as [(S1 & D1 & Z1 & _) _]. destruct (clusters_labels S1 D1 Z1) as (u & Lu & Eu).
  pose proof Gy as [(S2 & D2 & Z2 & _) _]. destruct (clusters_labels S2 D2 Z2) as (v & Lv & Ev).
  pose proof Hf as (_ & _ & _ & w & o & Ho & Hp & C).
  destruct (@label_reach e k o P Hpc Hce C (good_src e k) (rows_adm e) reach) with (u := u) (v := v) (x := x1) as (x2 & R2 & G2 & A2 & _ & E2).
  { intros z Gz Az must cl' objs a b. apply (@finish_step e P k Hce z must cl' objs a b); auto. }
  { apply reach_refl. }
  { intros a b c Ga Gb Gc. apply reach_trans; apply Hs; auto. }
  { intros z cl' Gz Az. apply (@cluster_step w o z cl' Ho Hp Gz Az). }
  { apply (labels_connected Hk Lu Lv). }
  { unfold at_labels. auto. }
  assert (R3 : reach x2 y).
  { apply source_reaches; auto; [congruence|]. unfold posterior in Hy. apply Rlt_Qlt. rewrite RMicromega.Q2R_0.
    destruct (Rlt_dec 0 (Q2R (source_density e y))) as [H|H]; auto. exfalso. specialize (Hr (x_clusters y)).
    assert (Q2R (source_density e y) <= 0) by lra. nra. }
  apply reach_trans with x1; try apply Hs; auto. apply reach_trans with x2; try apply Hs; auto.
Qed.
Lemma self_loop y : good_src e k y -> rows_adm e y -> 0 < M y y.
Proof.
  intros G A. destruct source_move as (w & Hw & Hp). apply (@sampler_pos e moves ll prior states V Hn (proj1 (proj2 Hf)) w Source); try apply Hs; auto.
  apply source_reach; auto. apply (adm_density P Hce G A).
Qed.
End Reach.
