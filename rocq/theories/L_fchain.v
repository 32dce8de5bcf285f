(** Lemmas for C107: chains whose transition matrices are close. *)
From Coq Require Import Reals Lra.
From Verif Require Import M_source S_model S_operators S_mcmc S_ergodic L_balance L_doeblin.
Set Implicit Arguments.
Unset Strict Implicit.
Open Scope R_scope.

Lemma Rsum_abs A (f : A -> R) l : Rabs (Rsum (map f l)) <= Rsum (map (fun a => Rabs (f a)) l).
Proof.
  induction l as [|x l IH]; simpl; [rewrite Rabs_R0; lra|]. eapply Rle_trans; [apply Rabs_triang|]. unfold Rsum in *. lra.
Qed.
Lemma Rsum_minus A (f g : A -> R) l : Rsum (map (fun a => f a - g a) l) = Rsum (map f l) - Rsum (map g l).
Proof. induction l as [|x l IH]; simpl; [ring|]. unfold Rsum in *. rewrite IH. ring. Qed.

(** The sum of (1-d)^(j/m) for j below n. *)
Fixpoint decay (d : R) (m n : nat) : R := match n with O => 0 | Datatypes.S j => decay d m j + (1 - d) ^ (j / m) end.
Lemma decay_first d m i : (0 < m)%nat -> (i <= m)%nat -> decay d m i = INR i.
Proof. intros Hm. induction i as [|i IH]; intros Hi; [reflexivity|]. cbn [decay]. rewrite IH, Nat.div_small by lia. rewrite S_INR. simpl. ring. Qed.
Lemma decay_block d m n : (0 < m)%nat -> decay d m (m + n) = INR m + (1 - d) * decay d m n.
Proof.
  intros Hm. induction n as [|n IH].
  - rewrite Nat.add_0_r. change (decay d m 0) with 0. rewrite Rmult_0_r, Rplus_0_r. apply decay_first; lia.
  - rewrite Nat.add_succ_r. cbn [decay]. rewrite IH. replace ((m + n) / m)%nat with (Datatypes.S (n / m)) by (replace (m + n)%nat with (n + 1 * m)%nat by lia; rewrite Nat.div_add by lia; lia). simpl pow. ring.
Qed.
Lemma decay_bound d m n : (0 < m)%nat -> 0 < d <= 1 -> decay d m n <= INR m / d.
Proof.
  intros Hm Hd. assert (M : 0 < INR m) by (apply lt_0_INR; auto). assert (D : INR m <= INR m / d).
  { apply Rmult_le_reg_r with d; [lra|]. unfold Rdiv. rewrite Rmult_assoc, Rinv_l by lra. nra. }
  induction n as [n IH] using (well_founded_induction lt_wf). destruct (Nat.le_gt_cases m n) as [H|H].
  - replace n with (m + (n - m))%nat by lia. rewrite decay_block by auto. specialize (IH (n - m)%nat ltac:(lia)).
    assert (E : INR m / d = INR m + (1 - d) * (INR m / d)) by (field; lra). rewrite E. apply Rplus_le_compat_l, Rmult_le_compat_l; [lra|exact IH].
  - rewrite decay_first by lia. apply Rle_trans with (INR m); auto. apply le_INR. lia.
Qed.

Section Perturb.
Variable T : Type.
Variable dec : forall x y : T, {x = y} + {x <> y}.
Variable states : list T.
Hypothesis nodup : NoDup states.
Variables (P Q : T -> T -> R) (eps : R).
Hypothesis sto : stochastic states P.
Hypothesis Qpos : forall x y, In x states -> In y states -> 0 <= Q x y.
Hypothesis Qrow : forall x, In x states -> Rsum (map (Q x) states) <= 1.
Hypothesis near : forall x, In x states -> Rsum (map (fun y => Rabs (Q x y - P x y)) states) <= eps.
Hypothesis eps0 : 0 <= eps.

Lemma differ f g x a b c : In x states -> (forall z, In z states -> Rabs (f z - g z) <= a) -> 0 <= a ->
  (Rsum (map (Q x) states) = 1 \/ c = 0) -> (forall z, In z states -> Rabs (g z - c) <= b) -> 0 <= b ->
  Rabs (Rsum (map (fun z => Q x z * f z) states) - Rsum (map (fun z => P x z * g z) states)) <= a + eps * b.
Proof.
  intros Hx Hf Ha Hc Hg Hb. rewrite <- Rsum_minus.
  assert (E : Rsum (map (fun z => Q x z * f z - P x z * g z) states) = Rsum (map (fun z => Q x z * (f z - g z)) states) + Rsum (map (fun z => (Q x z - P x z) * (g z - c)) states)).
  { rewrite (@Rsum_ext _ (fun z => (Q x z - P x z) * (g z - c)) (fun z => (Q x z - P x z) * g z - c * (Q x z - P x z))) by (intros; ring).
    rewrite (@Rsum_minus _ (fun z => (Q x z - P x z) * g z) (fun z => c * (Q x z - P x z))), Rsum_scal, (@Rsum_minus _ (Q x) (P x)). rewrite (proj2 sto x Hx).
    replace (c * (Rsum (map (Q x) states) - 1)) with 0 by (destruct Hc as [->| ->]; ring). rewrite Rminus_0_r, <- Rsum_plus. apply Rsum_ext. intros; ring. }
  rewrite E. eapply Rle_trans; [apply Rabs_triang|]. apply Rplus_le_compat.
  - eapply Rle_trans; [apply Rsum_abs|]. apply Rle_trans with (Rsum (map (fun z => a * Q x z) states)).
    + apply Rsum_le. intros z Hz. rewrite Rabs_mult, (Rabs_pos_eq (Q x z)) by auto. rewrite Rmult_comm. apply Rmult_le_compat_r; auto.
    + rewrite Rsum_scal. specialize (Qrow Hx). rewrite <- (Rmult_1_r a) at 2. apply Rmult_le_compat_l; auto.
  - eapply Rle_trans; [apply Rsum_abs|]. apply Rle_trans with (Rsum (map (fun z => b * Rabs (Q x z - P x z)) states)).
    + apply Rsum_le. intros z Hz. rewrite Rabs_mult, Rmult_comm. apply Rmult_le_compat_r; [apply Rabs_pos|auto].
    + rewrite Rsum_scal, Rmult_comm. apply Rmult_le_compat_r; auto.
Qed.

Lemma run_apart n x y : In x states -> In y states -> Rabs (nstep dec Q states n x y - nstep dec P states n x y) <= INR n * eps.
Proof.
  revert x. induction n as [|n IH]; intros x Hx Hy; [simpl; unfold Rminus; rewrite Rplus_opp_r, Rabs_R0; lra|].
  replace (INR (Datatypes.S n) * eps) with (INR n * eps + eps * 1) by (rewrite S_INR; ring). cbn [nstep].
  apply (@differ (fun z => nstep dec Q states n z y) (fun z => nstep dec P states n z y) x (INR n * eps) 1 0); auto; try lra.
  - apply Rmult_le_pos; [apply pos_INR|auto].
  - intros z Hz. rewrite Rminus_0_r, Rabs_pos_eq; [apply nstep_le1|apply nstep_nonneg]; auto.
Qed.

Section Forever.
Variables (mu : T -> R) (m : nat) (d : R).
Hypothesis Hm : (0 < m)%nat.
Hypothesis Hd : 0 < d <= 1.
Hypothesis rate : forall n x y, In x states -> In y states -> Rabs (nstep dec P states n x y - mu y) <= (1 - d) ^ (n / m).
Hypothesis Qone : forall x, In x states -> Rsum (map (Q x) states) = 1.

Lemma run_decay n x y : In x states -> In y states -> Rabs (nstep dec Q states n x y - nstep dec P states n x y) <= eps * decay d m n.
Proof.
  assert (D : forall j, 0 <= decay d m j) by (induction j as [|j IH]; cbn [decay]; [lra|]; assert (0 <= (1 - d) ^ (j / m)) by (apply pow_le; lra); lra).
  revert x. induction n as [|n IH]; intros x Hx Hy; [simpl; unfold Rminus; rewrite Rplus_opp_r, Rabs_R0; lra|].
  cbn [nstep decay]. rewrite Rmult_plus_distr_l.
  apply (@differ (fun z => nstep dec Q states n z y) (fun z => nstep dec P states n z y) x (eps * decay d m n) ((1 - d) ^ (n / m)) (mu y)); auto.
  - apply Rmult_le_pos; auto.
  - apply pow_le. lra.
Qed.
Lemma run_forever n x y : In x states -> In y states -> Rabs (nstep dec Q states n x y - mu y) <= (1 - d) ^ (n / m) + eps * (INR m / d).
Proof.
  intros Hx Hy. replace (nstep dec Q states n x y - mu y) with ((nstep dec P states n x y - mu y) + (nstep dec Q states n x y - nstep dec P states n x y)) by ring.
  eapply Rle_trans; [apply Rabs_triang|]. apply Rplus_le_compat; [apply rate; auto|]. eapply Rle_trans; [apply run_decay; auto|].
  apply Rmult_le_compat_l; auto. apply decay_bound; auto.
Qed.
Lemma stationary_near nu y : stationary_distribution Q states nu -> In y states -> Rabs (nu y - mu y) <= eps * (INR m / d).
Proof.
  intros Hnu Hy. assert (stoQ : stochastic states Q) by (split; auto).
  assert (B : forall n, Rabs (nu y - mu y) <= (1 - d) ^ (n / m) + eps * (INR m / d)).
  { intros n. pose proof (@stationary_nstep T dec states nodup Q nu n y Hnu Hy) as E. destruct Hnu as (N0 & N1 & _). rewrite <- E.
    assert (E2 : mu y = Rsum (map (fun x => nu x * mu y) states)).
    { rewrite (@Rsum_ext _ _ (fun x => mu y * nu x)) by (intros; ring). rewrite Rsum_scal, N1. ring. }
    rewrite E2, <- Rsum_minus. eapply Rle_trans; [apply Rsum_abs|]. set (b := _ + _).
    apply Rle_trans with (Rsum (map (fun x => b * nu x) states)); [|rewrite Rsum_scal, N1; lra].
    apply Rsum_le. intros x Hx. rewrite <- Rmult_minus_distr_l, Rabs_mult, (Rabs_pos_eq (nu x)) by auto. rewrite Rmult_comm. apply Rmult_le_compat_r; auto. apply run_forever; auto. }
  apply le_epsilon. intros e He. destruct (@pow_lt_1_zero (1 - d)) with (y := e) as (N & HN); [rewrite Rabs_pos_eq; lra|auto|].
  specialize (B (N * m)%nat). rewrite Nat.div_mul in B by lia. specialize (HN N (le_n _)). rewrite Rabs_pos_eq in HN by (apply pow_le; lra). lra.
Qed.
End Forever.
End Perturb.

(** ** One row of the transition matrix *)
Section Row.
Variable T : Type.
Variable dec : forall x y : T, {x = y} + {x <> y}.
Variable states : list T.
Hypothesis nodup : NoDup states.

Lemma Rsum_hit (v : R) y : In y states -> Rsum (map (fun z => if dec y z then v else 0) states) = v.
Proof.
  intros H. rewrite (@Rsum_ext _ _ (fun z => if dec z y then v else 0)); [apply Rsum_single; auto|]. intros z _. destruct (dec y z), (dec z y); congruence.
Qed.
Lemma Rsum_hit_le (v : R) y : 0 <= v -> Rsum (map (fun z => if dec y z then v else 0) states) <= v.
Proof.
  intros H. destruct (in_dec dec y states) as [I|I]; [rewrite Rsum_hit by auto; lra|]. rewrite Rsum_zero; [lra|]. intros z Hz. destruct (dec y z) as [->|]; [contradiction|auto].
Qed.

Variable x : T.
Hypothesis Hx : In x states.
(** Two rows: close away from [x], the first sums to at least [1 - s] and at most 1, the second to 1. *)
Lemma row_near (F G : T -> R) a s : Rsum (map (fun y => if dec x y then 0 else Rabs (F y - G y)) states) <= a ->
  1 - s <= Rsum (map F states) <= 1 -> Rsum (map G states) = 1 -> Rsum (map (fun y => Rabs (F y - G y)) states) <= 2 * a + s.
Proof.
  intros H [S1 S2] G1.
  assert (E : Rsum (map (fun y => Rabs (F y - G y)) states) = Rsum (map (fun y => if dec x y then 0 else Rabs (F y - G y)) states) + Rabs (F x - G x)).
  { rewrite <- (Rsum_hit (Rabs (F x - G x)) Hx), <- Rsum_plus. apply Rsum_ext. intros y _. destruct (dec x y) as [<-|]; ring. }
  assert (D : F x - G x = (Rsum (map F states) - 1) - Rsum (map (fun y => if dec x y then 0 else F y - G y) states)).
  { rewrite <- G1, <- Rsum_minus. rewrite <- (Rsum_hit (F x - G x) Hx). rewrite <- Rsum_minus. apply Rsum_ext. intros y _. destruct (dec x y) as [<-|]; ring. }
  assert (B : Rabs (Rsum (map (fun y => if dec x y then 0 else F y - G y) states)) <= a).
  { eapply Rle_trans; [apply Rsum_abs|]. eapply Rle_trans; [|exact H]. apply Rsum_le. intros y _. destruct (dec x y); [rewrite Rabs_R0|]; lra. }
  assert (C : Rabs (F x - G x) <= s + a).
  { rewrite D. unfold Rminus at 1. eapply Rle_trans; [apply Rabs_triang|]. rewrite Rabs_Ropp. apply Rplus_le_compat; auto. rewrite Rabs_left1 by lra. lra. }
  rewrite E. lra.
Qed.
End Row.
