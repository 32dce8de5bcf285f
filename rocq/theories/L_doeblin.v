(** Lemmas for C76: convergence of finite chains with a state that can be reached from everywhere. *)
From Coq Require Import Reals Lra.
From Verif Require Import M_source S_model S_operators S_mcmc S_ergodic L_balance.
Set Implicit Arguments.
Unset Strict Implicit.
Open Scope R_scope.

Lemma Rsum_le A (f g : A -> R) l : (forall a, In a l -> f a <= g a) -> Rsum (map f l) <= Rsum (map g l).
Proof.
  induction l as [|x l IH]; intros H; simpl; [lra|]. pose proof (H x (or_introl eq_refl)).
  assert (Rsum (map f l) <= Rsum (map g l)) by (apply IH; intros; apply H; right; auto). lra.
Qed.
Lemma Rsum_swap A B (f : A -> B -> R) l r :
  Rsum (map (fun a => Rsum (map (f a) r)) l) = Rsum (map (fun b => Rsum (map (fun a => f a b) l)) r).
Proof.
  induction l as [|x l IH]; simpl.
  - rewrite Rsum_zero; auto.
  - rewrite IH, <- Rsum_plus. apply Rsum_ext. intros b _. reflexivity.
Qed.
Lemma Rsum_term A (f : A -> R) l a : (forall b, In b l -> 0 <= f b) -> In a l -> f a <= Rsum (map f l).
Proof.
  induction l as [|x l IH]; intros H Ha; [contradiction|]. simpl.
  assert (0 <= Rsum (map f l)) by (apply Rsum_nonneg; intros; apply H; right; auto). pose proof (H x (or_introl eq_refl)).
  destruct Ha as [->|Ha]; [lra|]. assert (f a <= Rsum (map f l)) by (apply IH; auto; intros; apply H; right; auto). lra.
Qed.

Section Chain.
Variable T : Type.
Variable dec : forall x y : T, {x = y} + {x <> y}.
Variable states : list T.
Hypothesis nodup : NoDup states.

Definition stochastic (P : T -> T -> R) : Prop :=
  (forall x y, In x states -> In y states -> 0 <= P x y) /\ forall x, In x states -> Rsum (map (P x) states) = 1.
Definition expect (P : T -> T -> R) (f : T -> R) (x : T) : R := Rsum (map (fun y => P x y * f y) states).

Lemma expect_bounds P f a b x : stochastic P -> (forall y, In y states -> a <= f y <= b) -> In x states -> a <= expect P f x <= b.
Proof.
  intros [Hp H1] Hf Hx. unfold expect.
  assert (Ea : Rsum (map (fun y => P x y * a) states) = a).
  { rewrite (@Rsum_ext _ _ (fun y => a * P x y)) by (intros; ring). rewrite Rsum_scal, H1 by auto. ring. }
  assert (Eb : Rsum (map (fun y => P x y * b) states) = b).
  { rewrite (@Rsum_ext _ _ (fun y => b * P x y)) by (intros; ring). rewrite Rsum_scal, H1 by auto. ring. }
  split.
  - rewrite <- Ea at 1. apply Rsum_le. intros y Hy. apply Rmult_le_compat_l; [apply Hp; auto|]. apply Hf; auto.
  - rewrite <- Eb at 1. apply Rsum_le. intros y Hy. apply Rmult_le_compat_l; [apply Hp; auto|]. apply Hf; auto.
Qed.

(** One step that reaches [y0] with probability at least [d] from everywhere. *)
Lemma doeblin P f a b x y0 d : stochastic P -> In y0 states -> (forall z, In z states -> d <= P z y0) ->
  (forall y, In y states -> a <= f y <= b) -> In x states ->
  (1 - d) * a + d * f y0 <= expect P f x <= (1 - d) * b + d * f y0.
Proof.
  intros [Hp H1] Hy0 Hd Hf Hx.
  assert (E : expect P f x = Rsum (map (fun y => (P x y - (if dec y y0 then d else 0)) * f y) states) + d * f y0).
  { unfold expect. rewrite <- (@Rsum_single _ dec (d * f y0) y0 states) by auto. rewrite <- Rsum_plus. apply Rsum_ext.
    intros y _. destruct (dec y y0) as [->|]; ring. }
  assert (S : Rsum (map (fun y => P x y - (if dec y y0 then d else 0)) states) = 1 - d).
  { rewrite (@Rsum_ext _ _ (fun y => P x y + (if dec y y0 then - d else 0))) by (intros y _; destruct (dec y y0); ring).
    rewrite Rsum_plus, H1 by auto. rewrite Rsum_single by auto. ring. }
  assert (N : forall y, In y states -> 0 <= P x y - (if dec y y0 then d else 0)).
  { intros y Hy. destruct (dec y y0) as [->|]; [specialize (Hd x Hx); lra|]. specialize (Hp x y Hx Hy). lra. }
  set (w := fun y => P x y - (if dec y y0 then d else 0)) in *.
  assert (C : forall c, (1 - d) * c = Rsum (map (fun y => w y * c) states)).
  { intros c. rewrite (@Rsum_ext _ _ (fun y => c * w y)) by (intros; ring). rewrite Rsum_scal. fold w in S. rewrite S. ring. }
  rewrite E, !C. split; apply Rplus_le_compat_r; apply Rsum_le; intros y Hy; (apply Rmult_le_compat_l; [apply N; auto|apply Hf; auto]).
Qed.

Variable P : T -> T -> R.
Hypothesis sto : stochastic P.
Notation nstep := (nstep dec P states).

Lemma nstep_row n x : In x states -> Rsum (map (nstep n x) states) = 1.
Proof.
  revert x. induction n as [|n IH]; intros x Hx; simpl.
  - rewrite (@Rsum_ext _ _ (fun y => if dec y x then 1 else 0)); [apply Rsum_single; auto|].
    intros y _. destruct (dec x y), (dec y x); congruence.
  - rewrite <- Rsum_swap. rewrite (@Rsum_ext _ _ (P x)); [apply (proj2 sto); auto|]. intros z Hz. rewrite Rsum_scal, IH by auto. ring.
Qed.
Lemma nstep_nonneg n x y : In x states -> In y states -> 0 <= nstep n x y.
Proof.
  revert x. induction n as [|n IH]; intros x Hx Hy; simpl.
  - destruct (dec x y); lra.
  - apply Rsum_nonneg. intros z Hz. apply Rmult_le_pos; [apply (proj1 sto); auto|auto].
Qed.
Lemma nstep_stochastic n : stochastic (nstep n).
Proof. split; [apply nstep_nonneg|apply nstep_row]. Qed.
Lemma nstep_add m n x y : In x states -> In y states -> nstep (m + n) x y = Rsum (map (fun z => nstep m x z * nstep n z y) states).
Proof.
  revert x. induction m as [|m IH]; intros x Hx Hy; simpl.
  - rewrite (@Rsum_ext _ _ (fun z => if dec z x then nstep n x y else 0)); [rewrite Rsum_single; auto|].
    intros z _. destruct (dec z x) as [E|E].
    + rewrite E. destruct (dec x x); [ring|congruence].
    + destruct (dec x z); [congruence|ring].
  - rewrite (@Rsum_ext _ _ (fun z => Rsum (map (fun w => P x z * (nstep m z w * nstep n w y)) states))).
    2:{ intros z Hz. rewrite IH by auto. rewrite <- Rsum_scal. reflexivity. }
    rewrite Rsum_swap. apply Rsum_ext. intros w Hw. rewrite Rmult_comm, <- Rsum_scal. apply Rsum_ext. intros z Hz. ring.
Qed.
Lemma nstep_one x y : In x states -> In y states -> nstep 1 x y = P x y.
Proof.
  intros Hx Hy. simpl. rewrite (@Rsum_ext _ _ (fun z => if dec z y then P x y else 0)); [apply Rsum_single; auto|].
  intros z _. destruct (dec z y) as [->|]; ring.
Qed.
Lemma nstep_pos_trans m n x z y : In x states -> In z states -> In y states -> 0 < nstep m x z -> 0 < nstep n z y -> 0 < nstep (m + n) x y.
Proof.
  intros Hx Hz Hy H1 H2. rewrite nstep_add by auto.
  apply Rlt_le_trans with (nstep m x z * nstep n z y); [apply Rmult_lt_0_compat; auto|].
  apply (@Rsum_term _ (fun w => nstep m x w * nstep n w y)); auto. intros w Hw. apply Rmult_le_pos; apply nstep_nonneg; auto.
Qed.
Lemma nstep_le1 n x y : In x states -> In y states -> nstep n x y <= 1.
Proof.
  intros Hx Hy. rewrite <- (nstep_row n Hx). apply (@Rsum_term _ (nstep n x)); auto. intros; apply nstep_nonneg; auto.
Qed.

Lemma stationary_nstep mu n y : stationary_distribution P states mu -> In y states ->
  Rsum (map (fun x => mu x * nstep n x y) states) = mu y.
Proof.
  intros (_ & _ & H) Hy. revert y Hy. induction n as [|n IH]; intros y Hy.
  - simpl. rewrite (@Rsum_ext _ _ (fun x => if dec x y then mu y else 0)); [apply Rsum_single; auto|].
    intros x _. destruct (dec x y) as [->|]; ring.
  - simpl. rewrite (@Rsum_ext _ _ (fun x => Rsum (map (fun z => mu x * P x z * nstep n z y) states))).
    2:{ intros x _. rewrite <- Rsum_scal. apply Rsum_ext. intros; ring. }
    rewrite Rsum_swap. rewrite <- (IH y Hy). apply Rsum_ext. intros z Hz. rewrite <- (H z Hz), Rmult_comm, <- Rsum_scal.
    apply Rsum_ext. intros; ring.
Qed.

Section Doeblin.
Variables (m : nat) (d : R) (y0 : T).
Hypothesis Hy0 : In y0 states.
Hypothesis Hd : 0 < d.
Hypothesis hit : forall x, In x states -> d <= nstep m x y0.

Lemma d_le1 : d <= 1.
Proof. eapply Rle_trans; [apply (hit Hy0)|]. apply nstep_le1; auto. Qed.
Lemma shrink_width j i y : In y states -> exists a b, b - a = (1 - d) ^ j /\ forall x, In x states -> a <= nstep (j * m + i) x y <= b.
Proof.
  intros Hy. induction j as [|j (a & b & Hw & Hab)].
  - exists 0, 1. split; [simpl; ring|]. intros x Hx. split; [apply nstep_nonneg|apply nstep_le1]; auto.
  - exists ((1 - d) * a + d * nstep (j * m + i) y0 y), ((1 - d) * b + d * nstep (j * m + i) y0 y). split.
    + simpl. rewrite <- Hw. ring.
    + intros x Hx. replace (Datatypes.S j * m + i)%nat with (m + (j * m + i))%nat by lia. rewrite (@nstep_add m (j * m + i)) by auto.
      apply (@doeblin (nstep m) (fun z => nstep (j * m + i) z y)); auto using nstep_stochastic.
Qed.
Lemma doeblin_rate mu n x y : (0 < m)%nat -> stationary_distribution P states mu -> In x states -> In y states ->
  Rabs (nstep n x y - mu y) <= (1 - d) ^ (n / m).
Proof.
  intros Hm Hmu Hx Hy. rewrite (Nat.div_mod n m) at 1 by lia. rewrite (Nat.mul_comm m).
  destruct (shrink_width (n / m) (n mod m) Hy) as (a & b & Hw & Hab). specialize (Hab) as Hb.
  set (N := (n / m * m + n mod m)%nat) in *.
  assert (Hmy : a <= mu y <= b).
  { rewrite <- (stationary_nstep N Hmu Hy). destruct Hmu as (H0 & H1 & _).
    assert (Ea : Rsum (map (fun y => mu y * a) states) = a).
    { rewrite (@Rsum_ext _ _ (fun y => a * mu y)) by (intros; ring). rewrite Rsum_scal, H1. ring. }
    assert (Eb : Rsum (map (fun y => mu y * b) states) = b).
    { rewrite (@Rsum_ext _ _ (fun y => b * mu y)) by (intros; ring). rewrite Rsum_scal, H1. ring. }
    split; [rewrite <- Ea at 1|rewrite <- Eb]; apply Rsum_le; intros z Hz; (apply Rmult_le_compat_l; [apply H0; auto|apply Hab; auto]). }
  specialize (Hb x Hx). rewrite <- Hw. apply Rabs_le. lra.
Qed.
End Doeblin.

(** A common number of steps and a common bound for all starting states. *)
Lemma common_steps y0 : In y0 states -> 0 < P y0 y0 -> (forall x, In x states -> exists n, 0 < nstep n x y0) ->
  exists m d, (0 < m)%nat /\ 0 < d /\ forall x, In x states -> d <= nstep m x y0.
Proof.
  intros Hy0 Hl Hr.
  assert (Stay : forall n x, In x states -> 0 < nstep n x y0 -> forall i, 0 < nstep (n + i) x y0).
  { intros n x Hx H i. induction i as [|i IH]; [rewrite Nat.add_0_r; auto|].
    replace (n + Datatypes.S i)%nat with ((n + i) + 1)%nat by lia. apply (@nstep_pos_trans _ _ x y0 y0); auto. rewrite nstep_one; auto. }
  assert (M : forall l, incl l states -> exists m, (0 < m)%nat /\ forall x, In x l -> 0 < nstep m x y0).
  { induction l as [|x l IH]; intros Hl'; [exists 1%nat; split; [lia|intros x []]|].
    destruct IH as (m & Hm & Hml); [intros z Hz; apply Hl'; right; auto|].
    assert (Hx : In x states) by (apply Hl'; left; auto). destruct (Hr x Hx) as (n & Hn). exists (m + n)%nat. split; [lia|].
    intros z [<-|Hz].
    - rewrite Nat.add_comm. apply Stay; auto.
    - apply Stay; auto. apply Hl'. right. auto. }
  destruct (M states (incl_refl _)) as (m & Hm & Hpos). 
  assert (D : forall l, incl l states -> exists d, 0 < d /\ forall x, In x l -> d <= nstep m x y0).
  { induction l as [|x l IH]; intros Hl'; [exists 1; split; [lra|intros x []]|].
    destruct IH as (d & Hd & Hdl); [intros z Hz; apply Hl'; right; auto|].
    assert (Hx : In x states) by (apply Hl'; left; auto). exists (Rmin d (nstep m x y0)). split.
    - apply Rmin_glb_lt; auto.
    - intros z [<-|Hz]; [apply Rmin_r|]. eapply Rle_trans; [apply Rmin_l|auto]. }
  destruct (D states (incl_refl _)) as (d & Hd & Hdl). exists m, d. auto.
Qed.

Theorem converges y0 mu : In y0 states -> 0 < P y0 y0 -> (forall x, In x states -> exists n, 0 < nstep n x y0) ->
  stationary_distribution P states mu ->
  exists m d, (0 < m)%nat /\ 0 < d <= 1 /\
    (forall n x y, In x states -> In y states -> Rabs (nstep n x y - mu y) <= (1 - d) ^ (n / m)) /\
    (forall nu, stationary_distribution P states nu -> forall y, In y states -> nu y = mu y).
Proof.
  intros Hy0 Hl Hr Hmu. destruct (common_steps Hy0 Hl Hr) as (m & d & Hm & Hd & Hh). exists m, d.
  pose proof (d_le1 Hy0 Hh) as Hd1.
  assert (Rate : forall nu, stationary_distribution P states nu -> forall n x y, In x states -> In y states -> Rabs (nstep n x y - nu y) <= (1 - d) ^ (n / m)).
  { intros nu Hnu n x y. apply (@doeblin_rate m d y0); auto. }
  conj; auto. intros nu Hnu y Hy.
  assert (C : forall eps, 0 < eps -> Rabs (nu y - mu y) <= 2 * eps).
  { intros eps He. destruct (@pow_lt_1_zero (1 - d)) with (y := eps) as (N & HN); [rewrite Rabs_pos_eq; lra|auto|].
    pose proof (Rate mu Hmu (N * m)%nat y0 y Hy0 Hy) as H1. pose proof (Rate nu Hnu (N * m)%nat y0 y Hy0 Hy) as H2.
    rewrite Nat.div_mul in H1, H2 by lia. specialize (HN N (le_n _)). rewrite Rabs_pos_eq in HN by (apply pow_le; lra).
    apply Rabs_le. destruct (Rcase_abs (nstep (N * m) y0 y - mu y)), (Rcase_abs (nstep (N * m) y0 y - nu y)); 
      unfold Rabs in H1, H2; destruct (Rcase_abs _) in H1; destruct (Rcase_abs _) in H2; lra. }
  destruct (Req_dec (nu y) (mu y)) as [|Hne]; auto. exfalso.
  assert (0 < Rabs (nu y - mu y)) by (apply Rabs_pos_lt; lra). specialize (C (Rabs (nu y - mu y) / 4)). lra.
Qed.
End Chain.
