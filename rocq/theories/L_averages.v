(** Lemmas for C77: mean square error of averages over runs of a finite Markov chain. *)
From Coq Require Import Reals Lra.
From Verif Require Import Base S_mcmc S_ergodic L_balance L_doeblin S_averages.
Set Implicit Arguments.
Unset Strict Implicit.
Open Scope R_scope.

Lemma Rsum_plus A (f g : A -> R) l : Rsum (map (fun a => f a + g a) l) = Rsum (map f l) + Rsum (map g l).
Proof. induction l as [|x l IH]; simpl; [ring|]. rewrite IH. ring. Qed.
Lemma Rsum_scal A c (f : A -> R) l : Rsum (map (fun a => c * f a) l) = c * Rsum (map f l).
Proof. induction l as [|x l IH]; simpl; [ring|]. rewrite IH. ring. Qed.
Lemma Rsum_abs A (f : A -> R) l : Rabs (Rsum (map f l)) <= Rsum (map (fun a => Rabs (f a)) l).
Proof. induction l as [|x l IH]; simpl; [rewrite Rabs_R0; lra|]. eapply Rle_trans; [apply Rabs_triang|]. lra. Qed.

Lemma Rabs_le_iff a b : Rabs a <= b -> - b <= a <= b.
Proof. intros H. unfold Rabs in H. destruct (Rcase_abs a); lra. Qed.

(** * Geometric sums *)
Section Geo.
Variables (m : nat) (d : R).
Hypothesis Hm : (0 < m)%nat.
Hypothesis Hd : 0 < d <= 1.
Lemma geo_nonneg i : 0 <= (1 - d) ^ (i / m).
Proof. apply pow_le. lra. Qed.
Lemma geo_blocks q : Rsum (map (fun i => (1 - d) ^ (i / m)) (seq 0 (q * m))) * d = INR m * (1 - (1 - d) ^ q).
Proof.
  induction q as [|q IH]; [simpl; ring|].
  replace (Datatypes.S q * m)%nat with (q * m + m)%nat by lia. rewrite seq_app, map_app, Rsum_app, Rmult_plus_distr_r, IH.
  assert (E : Rsum (map (fun i => (1 - d) ^ (i / m)) (seq (0 + q * m) m)) = INR m * (1 - d) ^ q).
  { rewrite (@Rsum_ext _ _ (fun _ => (1 - d) ^ q)).
    - generalize ((1 - d) ^ q) as c. intros c. pose proof (seq_length m (0 + q * m)) as Hl. revert Hl.
      generalize (seq (0 + q * m) m) as l. intros l Hl. rewrite <- Hl. clear Hl. induction l as [|x l IHl]; [simpl; ring|].
      change (Rsum (map (fun _ : nat => c) (x :: l))) with (c + Rsum (map (fun _ : nat => c) l)). rewrite IHl. cbn [length]. rewrite S_INR. ring.
    - intros i Hi. apply in_seq in Hi. f_equal. symmetry. apply (Nat.div_unique i m q (i - q * m)); lia. }
  rewrite E. simpl. ring.
Qed.
Lemma geo_sum n : Rsum (map (fun i => (1 - d) ^ (i / m)) (seq 0 n)) <= INR m / d.
Proof.
  apply Rle_trans with (Rsum (map (fun i => (1 - d) ^ (i / m)) (seq 0 (n * m)))).
  - replace (n * m)%nat with (n + (n * m - n))%nat by nia. rewrite seq_app, map_app, Rsum_app.
    assert (0 <= Rsum (map (fun i => (1 - d) ^ (i / m)) (seq (0 + n) (n * m - n)))) by (apply Rsum_nonneg; intros; apply geo_nonneg). lra.
  - apply Rmult_le_reg_r with d; [lra|]. rewrite geo_blocks. unfold Rdiv. rewrite Rmult_assoc, Rinv_l, Rmult_1_r by lra.
    rewrite <- (Rmult_1_r (INR m)) at 2. apply Rmult_le_compat_l; [apply pos_INR|].
    assert (0 <= (1 - d) ^ n) by (apply pow_le; lra). lra.
Qed.
End Geo.

Section Chain.
Variable T : Type.
Variable dec : forall x y : T, {x = y} + {x <> y}.
Variable states : list T.
Hypothesis nodup : NoDup states.
Variable P : T -> T -> R.
Hypothesis sto : stochastic states P.
Notation nstep := (nstep dec P states).
Notation pm := (path_mean P states).

(** * Expectations over runs *)
Lemma pm_ext n : forall x F G, (forall l, length l = n -> F l = G l) -> pm n x F = pm n x G.
Proof.
  induction n as [|n IH]; intros x F G H; simpl; [apply H; reflexivity|].
  apply Rsum_ext. intros y _. f_equal. apply IH. intros l Hl. apply H. simpl. congruence.
Qed.
Lemma pm_le n : forall x F G, In x states -> (forall l, length l = n -> F l <= G l) -> pm n x F <= pm n x G.
Proof.
  induction n as [|n IH]; intros x F G Hx H; simpl; [apply H; reflexivity|].
  apply Rsum_le. intros y Hy. apply Rmult_le_compat_l; [apply sto; auto|]. apply IH; auto. intros l Hl. apply H. simpl. congruence.
Qed.
Lemma pm_lin n : forall x a b F G, pm n x (fun l => a * F l + b * G l) = a * pm n x F + b * pm n x G.
Proof.
  induction n as [|n IH]; intros x a b F G; simpl; [reflexivity|].
  rewrite <- !Rsum_scal, <- Rsum_plus. apply Rsum_ext. intros y _. rewrite IH. ring.
Qed.
Lemma pm_const n : forall x c, In x states -> pm n x (fun _ => c) = c.
Proof.
  induction n as [|n IH]; intros x c Hx; simpl; [reflexivity|].
  rewrite (@Rsum_ext _ _ (fun y => c * P x y)).
  - rewrite Rsum_scal, (proj2 sto x Hx). ring.
  - intros y Hy. rewrite IH by auto. ring.
Qed.
Lemma pm_scal n x a F : pm n x (fun l => a * F l) = a * pm n x F.
Proof. rewrite (@pm_ext n x _ (fun l => a * F l + 0 * F l)) by (intros; ring). rewrite pm_lin. ring. Qed.

(** * Sums over the logged steps *)
Definition shift (log : nat -> bool) : nat -> bool := fun i => log (Datatypes.S i).
Definition tot (h : T -> R) (log : nat -> bool) (l : list T) : R := Rsum (map h (kept log l)).
Lemma tot_cons h log y l : tot h log (y :: l) = (if log 0%nat then h y else 0) + tot h (shift log) l.
Proof. unfold tot, shift. simpl. destruct (log 0%nat); simpl; ring. Qed.
Definition M (h : T -> R) (n : nat) (log : nat -> bool) (x : T) : R := pm n x (tot h log).
Definition V (h : T -> R) (n : nat) (log : nat -> bool) (x : T) : R := pm n x (fun l => tot h log l * tot h log l).
Lemma M_step h n log x : M h (Datatypes.S n) log x = Rsum (map (fun y => P x y * ((if log 0%nat then h y else 0) * pm n y (fun _ => 1) + M h n (shift log) y)) states).
Proof.
  unfold M. cbn [path_mean]. apply Rsum_ext. intros y _. f_equal.
  rewrite (@pm_ext n y _ (fun l => (if log 0%nat then h y else 0) * 1 + 1 * tot h (shift log) l)).
  - rewrite pm_lin. ring.
  - intros l _. rewrite tot_cons. ring.
Qed.
Lemma V_step h n log x : V h (Datatypes.S n) log x =
  Rsum (map (fun y => P x y * (let g := if log 0%nat then h y else 0 in g * g * pm n y (fun _ => 1) + 2 * g * M h n (shift log) y + V h n (shift log) y)) states).
Proof.
  unfold V, M. cbn [path_mean]. apply Rsum_ext. intros y _. f_equal. cbv zeta. set (g := if log 0%nat then h y else 0).
  rewrite (@pm_ext n y _ (fun l => 1 * (g * g * 1 + 2 * g * tot h (shift log) l) + 1 * (tot h (shift log) l * tot h (shift log) l))).
  - rewrite pm_lin, pm_lin. ring.
  - intros l _. rewrite tot_cons. fold g. ring.
Qed.

(** The expectation of the sum: step by step with the [i]-step matrix. *)
Definition ex (h : T -> R) (i : nat) (x : T) : R := Rsum (map (fun y => nstep i x y * h y) states).
Lemma ex_zero h x : In x states -> ex h 0 x = h x.
Proof.
  intros Hx. unfold ex. simpl. rewrite (@Rsum_ext _ _ (fun y => if dec y x then h x else 0)); [apply Rsum_single; auto|].
  intros y _. destruct (dec x y) as [E|E], (dec y x) as [E'|E']; subst; try congruence; ring.
Qed.
Lemma ex_step h i x : ex h (Datatypes.S i) x = Rsum (map (fun y => P x y * ex h i y) states).
Proof.
  unfold ex. simpl.
  rewrite (@Rsum_ext _ _ (fun y => Rsum (map (fun z => P x z * nstep i z y * h y) states))).
  - rewrite Rsum_swap. apply Rsum_ext. intros z _. rewrite <- Rsum_scal. apply Rsum_ext. intros; ring.
  - intros y _. rewrite (Rmult_comm _ (h y)), <- Rsum_scal. apply Rsum_ext. intros; ring.
Qed.
Lemma M_sum h n : forall log x, In x states -> M h n log x = Rsum (map (fun i => if log i then ex h (Datatypes.S i) x else 0) (seq 0 n)).
Proof.
  induction n as [|n IH]; intros log x Hx; [reflexivity|]. rewrite M_step. cbn [seq map]. rewrite <- seq_shift, map_map. unfold Rsum at 2. simpl fold_right.
  change (fold_right Rplus 0 (map (fun i => if log (Datatypes.S i) then ex h (Datatypes.S (Datatypes.S i)) x else 0) (seq 0 n)))
    with (Rsum (map (fun i => if log (Datatypes.S i) then ex h (Datatypes.S (Datatypes.S i)) x else 0) (seq 0 n))).
  rewrite (@Rsum_ext _ _ (fun y => P x y * (if log 0%nat then h y else 0) + P x y * M h n (shift log) y)).
  2:{ intros y Hy. rewrite pm_const by auto. ring. }
  rewrite Rsum_plus. f_equal.
  - destruct (log 0%nat).
    + rewrite ex_step. apply Rsum_ext. intros y Hy. rewrite ex_zero by auto. reflexivity.
    + rewrite (@Rsum_ext _ _ (fun y => 0 * P x y)) by (intros; ring). rewrite Rsum_scal. ring.
  - rewrite (@Rsum_ext _ _ (fun y => Rsum (map (fun i => if log (Datatypes.S i) then P x y * ex h (Datatypes.S i) y else 0) (seq 0 n)))).
    2:{ intros y Hy. rewrite IH by auto. rewrite <- Rsum_scal. apply Rsum_ext. intros i _. unfold shift. destruct (log (Datatypes.S i)); ring. }
    rewrite Rsum_swap. apply Rsum_ext. intros i _. destruct (log (Datatypes.S i)).
    + rewrite (ex_step h (Datatypes.S i)). reflexivity.
    + rewrite (@Rsum_ext _ _ (fun y => 0 * P x y)) by (intros; ring). rewrite Rsum_scal. ring.
Qed.

(** * Mean square error *)
Section Bound.
Variables (m : nat) (d : R) (mu : T -> R).
Hypothesis Hm : (0 < m)%nat.
Hypothesis Hd : 0 < d <= 1.
Hypothesis rate : forall n x y, In x states -> In y states -> Rabs (nstep n x y - mu y) <= (1 - d) ^ (n / m).
Variable h : T -> R.
Hypothesis h_bound : forall y, In y states -> Rabs (h y) <= 1.
Hypothesis h_mean : Rsum (map (fun y => mu y * h y) states) = 0.
Definition K : R := INR (length states) * (INR m / d).

Lemma ex_bound i x : In x states -> Rabs (ex h i x) <= INR (length states) * (1 - d) ^ (i / m).
Proof.
  intros Hx. unfold ex. replace (Rsum (map (fun y => nstep i x y * h y) states)) with (Rsum (map (fun y => (nstep i x y - mu y) * h y) states)).
  2:{ rewrite (@Rsum_ext _ _ (fun y => nstep i x y * h y + (-1) * (mu y * h y))) by (intros; ring). rewrite Rsum_plus, Rsum_scal, h_mean. ring. }
  eapply Rle_trans; [apply Rsum_abs|].
  apply Rle_trans with (Rsum (map (fun _ => (1 - d) ^ (i / m)) states)).
  - apply Rsum_le. intros y Hy. rewrite Rabs_mult. rewrite <- (Rmult_1_r ((1 - d) ^ (i / m))). apply Rmult_le_compat; auto using Rabs_pos.
  - generalize ((1 - d) ^ (i / m)) as c. intros c. generalize states as l. induction l as [|y l IH]; [simpl; lra|].
    cbn [map length]. rewrite S_INR. unfold Rsum in *. simpl. lra.
Qed.
Lemma geo_decr i : (1 - d) ^ (Datatypes.S i / m) <= (1 - d) ^ (i / m).
Proof.
  assert (H : (i / m <= Datatypes.S i / m)%nat) by (apply Nat.div_le_mono; lia).
  replace (Datatypes.S i / m)%nat with (i / m + (Datatypes.S i / m - i / m))%nat by lia. rewrite pow_add.
  rewrite <- (Rmult_1_r ((1 - d) ^ (i / m))) at 2. apply Rmult_le_compat_l; [apply pow_le; lra|].
  generalize (Datatypes.S i / m - i / m)%nat as n. induction n as [|n IH]; simpl; [lra|].
  assert (0 <= (1 - d) ^ n) by (apply pow_le; lra). nra.
Qed.
Lemma M_bound n log x : In x states -> Rabs (M h n log x) <= K.
Proof.
  intros Hx. rewrite M_sum by auto. eapply Rle_trans; [apply Rsum_abs|].
  apply Rle_trans with (Rsum (map (fun i => INR (length states) * (1 - d) ^ (i / m)) (seq 0 n))).
  - apply Rsum_le. intros i _. destruct (log i).
    + eapply Rle_trans; [apply ex_bound; auto|]. apply Rmult_le_compat_l; [apply pos_INR|apply geo_decr].
    + rewrite Rabs_R0. apply Rmult_le_pos; [apply pos_INR|apply geo_nonneg; auto].
  - rewrite Rsum_scal. unfold K. apply Rmult_le_compat_l; [apply pos_INR|apply geo_sum; auto].
Qed.
Lemma K_nonneg : 0 <= K.
Proof.
  unfold K. apply Rmult_le_pos; [apply pos_INR|]. unfold Rdiv. apply Rmult_le_pos; [apply pos_INR|].
  left. apply Rinv_0_lt_compat. lra.
Qed.
Lemma n_logged_step log n : n_logged log (Datatypes.S n) = ((if log 0%nat then 1 else 0) + n_logged (shift log) n)%nat.
Proof.
  unfold n_logged. cbn [seq filter]. rewrite <- seq_shift.
  assert (E : length (filter log (map Datatypes.S (seq 0 n))) = length (filter (shift log) (seq 0 n))).
  { generalize (seq 0 n) as l. induction l as [|i l IH]; [reflexivity|]. cbn [map filter]. unfold shift at 1. destruct (log (Datatypes.S i)); simpl; auto. }
  destruct (log 0%nat); cbn [length]; rewrite E; reflexivity.
Qed.
Lemma V_bound n : forall log x, In x states -> V h n log x <= INR (n_logged log n) * (1 + 2 * K).
Proof.
  induction n as [|n IH]; intros log x Hx.
  - unfold V, n_logged, tot. simpl. lra.
  - rewrite V_step, n_logged_step, plus_INR.
    apply Rle_trans with (Rsum (map (fun y => P x y * (INR (if log 0%nat then 1 else 0) * (1 + 2 * K) + INR (n_logged (shift log) n) * (1 + 2 * K))) states)).
    + apply Rsum_le. intros y Hy. apply Rmult_le_compat_l; [apply sto; auto|]. cbv zeta.
      specialize (IH (shift log) y Hy). rewrite pm_const by auto. pose proof (M_bound n (shift log) Hy) as B. pose proof (h_bound Hy) as Hb.
      pose proof K_nonneg as HK. apply Rabs_le_iff in B. apply Rabs_le_iff in Hb. destruct (log 0%nat); simpl; [|lra].
      assert (h y * h y <= 1) by nra.
      assert (h y * M h n (shift log) y <= K) by nra. lra.
    + rewrite (@Rsum_ext _ _ (fun y => ((INR (if log 0%nat then 1 else 0) + INR (n_logged (shift log) n)) * (1 + 2 * K)) * P x y)) by (intros; ring).
      rewrite Rsum_scal, (proj2 sto x Hx). lra.
Qed.
End Bound.
End Chain.
