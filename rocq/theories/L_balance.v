(** Lemmas for C15: detailed balance of the accept/reject step. *)
From Verif Require Import S_mcmc L_mcmc.
From Coq Require Import Lra.
Set Implicit Arguments.
Unset Strict Implicit.
Open Scope R_scope.

Lemma acceptance_probability ll_new ll_prev prior_new prior_prev q qb u : 0 < u < 1 ->
  accept ll_new ll_prev prior_new prior_prev q qb u = Ok true <-> u < acc_prob 1 ll_new ll_prev prior_new prior_prev q qb.
Proof.
  intros [H0 H1]. unfold accept, acc_prob, math_log. destruct (is_ninf qb); [split; [discriminate|lra]|].
  destruct (is_ninf q); [split; auto; lra|]. destruct (Rlt_dec 0 u); [|contradiction]. simpl rbind.
  destruct (metropolis_hastings_ratio _ _ _ _ _ _ _) as [r0| | |]; simpl; try (split; auto; [discriminate|lra]); try (split; auto; lra).
  destruct (Rlt_dec (ln u) r0) as [Hl|Hl].
  - split; auto. intros _. apply Rmin_glb_lt; auto. rewrite <- (exp_ln u) by auto. apply exp_increasing; auto.
  - split; [discriminate|]. intros Hu. exfalso. apply Hl. pose proof (Rmin_r 1 (exp r0)).
    rewrite <- (ln_exp r0). apply ln_increasing; lra.
Qed.

Lemma Rsum_app l r : Rsum (l ++ r) = Rsum l + Rsum r.
Proof. induction l as [|x l IH]; simpl; [ring|]. unfold Rsum in *; simpl. rewrite IH. ring. Qed.
Lemma Rsum_ext A (f g : A -> R) l : (forall a, In a l -> f a = g a) -> Rsum (map f l) = Rsum (map g l).
Proof.
  induction l as [|x l IH]; intros H; [reflexivity|]. simpl. rewrite H by (left; auto). f_equal. apply IH. intros; apply H; right; auto.
Qed.
Lemma Rsum_scal A (f : A -> R) c l : Rsum (map (fun a => c * f a) l) = c * Rsum (map f l).
Proof. induction l as [|x l IH]; simpl; [ring|]. rewrite IH. unfold Rsum; simpl. ring. Qed.
Lemma Rsum_zero A (f : A -> R) l : (forall a, In a l -> f a = 0) -> Rsum (map f l) = 0.
Proof. intros H. rewrite (@Rsum_ext _ f (fun _ => 0)) by auto. clear. induction l; simpl; auto. rewrite IHl. ring. Qed.
Lemma Rsum_nonneg A (f : A -> R) l : (forall a, In a l -> 0 <= f a) -> 0 <= Rsum (map f l).
Proof.
  induction l as [|x l IH]; intros H; simpl; [lra|]. pose proof (H x (or_introl eq_refl)).
  assert (0 <= Rsum (map f l)) by (apply IH; intros; apply H; right; auto). lra.
Qed.
Lemma Rsum_zero_inv A (f : A -> R) l : (forall a, In a l -> 0 <= f a) -> Rsum (map f l) = 0 -> forall a, In a l -> f a = 0.
Proof.
  induction l as [|x l IH]; intros H Hs a Ha; [contradiction|]. simpl in Hs.
  pose proof (H x (or_introl eq_refl)).
  assert (0 <= Rsum (map f l)) by (apply Rsum_nonneg; intros; apply H; right; auto).
  destruct Ha as [<-|Ha]; [lra|]. apply IH; auto; [intros; apply H; right; auto|lra].
Qed.

Section Kernel.
Variable T : Type.
Variable dec : forall x y : T, {x = y} + {x <> y}.
Variables (t : R) (ll prior : T -> xf).
Hypothesis Ht : 0 < t.
Variable props : T -> list (option (T * xf * xf) * R).
Hypothesis Hpos : forall x out p, In (out, p) (props x) -> 0 <= p.
Hypothesis Hll : forall x, log_density (ll x).
Hypothesis Hpr : forall x, log_density (prior x).
Let kernel := kernel dec t ll prior props.
Let mass := mass_r dec props.

Lemma mass_nonneg x y : 0 <= mass x y.
Proof.
  unfold mass, mass_r. apply Rsum_nonneg. intros [out p] H. apply Hpos in H. destruct out as [[[y' q] qb]|]; simpl; [|lra].
  destruct (dec y' y); lra.
Qed.
(** If all proposals report the same values, the kernel is mass times acceptance probability. *)
Lemma kernel_const x y q0 qb0 :
  (forall q qb p, In (Some (y, q, qb), p) (props x) -> 0 < p -> q = q0 /\ qb = qb0) ->
  kernel x y = mass x y * acc_prob t (ll y) (ll x) (prior y) (prior x) q0 qb0.
Proof.
  intros H. unfold kernel, S_mcmc.kernel, mass, mass_r. rewrite Rmult_comm, <- Rsum_scal. apply Rsum_ext.
  intros [out p] Hin. destruct out as [[[y' q] qb]|]; simpl; [|ring]. destruct (dec y' y) as [->|]; [|ring].
  pose proof (Hpos Hin). destruct (Rle_lt_or_eq_dec 0 p ltac:(auto)) as [Hp|<-]; [|ring].
  destruct (H _ _ _ Hin Hp) as [-> ->]. ring.
Qed.
Lemma kernel_zero x y : (forall q qb p, In (Some (y, q, qb), p) (props x) -> 0 < p ->
    acc_prob t (ll y) (ll x) (prior y) (prior x) q qb = 0) -> kernel x y = 0.
Proof.
  intros H. unfold kernel, S_mcmc.kernel. apply Rsum_zero. intros [out p] Hin.
  destruct out as [[[y' q] qb]|]; simpl; [|ring]. destruct (dec y' y) as [->|]; [|ring].
  pose proof (Hpos Hin). destruct (Rle_lt_or_eq_dec 0 p ltac:(auto)) as [Hp|<-]; [|ring].
  rewrite (H _ _ _ Hin Hp). ring.
Qed.
Lemma nan_kernel x y : nan_reports props x y -> kernel x y = 0.
Proof.
  intros H. apply kernel_zero. intros q qb p Hin Hp. destruct (H _ _ _ Hin Hp) as [->|[-> Hq]]; unfold acc_prob.
  - destruct qb; simpl; auto; unfold metropolis_hastings_ratio, xsub; simpl;
      destruct (xscale t _); simpl; auto.
  - destruct q; simpl; try congruence; unfold metropolis_hastings_ratio, xsub; simpl;
      destruct (xscale t _); simpl; auto.
Qed.

Lemma xln_pos x : 0 < x -> xln x = Fin (ln x).
Proof. intros H. unfold xln. destruct (Rlt_dec 0 x); [auto|contradiction]. Qed.
Lemma xln_zero : xln 0 = NInf.
Proof. unfold xln. destruct (Rlt_dec 0 0); [lra|auto]. Qed.

Lemma acc_zero_target a b c d M M' : log_density a -> log_density c -> dens (xscale t a) * dens c = 0 ->
  dens (xscale t b) * dens d <> 0 -> acc_prob t a b c d (Fin M) (Fin M') = 0.
Proof.
  intros Ha Hc Hz Hnz. unfold acc_prob; simpl.
  unfold xscale in Hz, Hnz. destruct (Rlt_dec 0 t) as [?|]; [|contradiction].
  destruct b as [b| | |]; simpl in Hnz; try (exfalso; apply Hnz; ring).
  destruct d as [d| | |]; simpl in Hnz; try (exfalso; apply Hnz; ring).
  unfold metropolis_hastings_ratio, xsub.
  destruct a as [a| | |]; simpl in Ha; try contradiction; destruct c as [c| | |]; simpl in Hc; try contradiction; simpl.
  - simpl in Hz. pose proof (exp_pos (t * a)). pose proof (exp_pos c). exfalso.
    assert (0 < exp (t * a) * exp c) by (apply Rmult_lt_0_compat; auto). lra.
  - reflexivity.
  - destruct (Rlt_dec 0 t); [reflexivity|lra].
  - destruct (Rlt_dec 0 t); [reflexivity|lra].
Qed.

Lemma min_balance A B : 0 < A -> 0 < B -> A * Rmin 1 (B / A) = B * Rmin 1 (A / B).
Proof.
  intros HA HB. destruct (Rle_dec A B) as [H|H].
  - rewrite Rmin_left, Rmin_right.
    + field. lra.
    + apply (Rmult_le_reg_r B); auto. unfold Rdiv. rewrite Rmult_assoc, Rinv_l by lra. lra.
    + apply (Rmult_le_reg_r A); auto. unfold Rdiv. rewrite Rmult_assoc, Rinv_l by lra. lra.
  - rewrite Rmin_right, Rmin_left.
    + field. lra.
    + apply (Rmult_le_reg_r B); auto. unfold Rdiv. rewrite Rmult_assoc, Rinv_l by lra. lra.
    + apply (Rmult_le_reg_r A); auto. unfold Rdiv. rewrite Rmult_assoc, Rinv_l by lra. lra.
Qed.

Lemma acc_finite a b c d M M' k : 0 < k -> 0 < M -> 0 < M' ->
  acc_prob t (Fin a) (Fin b) (Fin c) (Fin d) (Fin (ln (k * M))) (Fin (ln (k * M'))) =
  Rmin 1 ((exp (t * a) * exp c * M') / (exp (t * b) * exp d * M)).
Proof.
  intros Hk HM HM'. unfold acc_prob, metropolis_hastings_ratio, xsub. simpl. f_equal.
  rewrite !ln_mult by auto.
  replace (t * (a + - b) + - (ln k + ln M + - (ln k + ln M')) + (c + - d))
    with ((t * a + c + ln M') + - (t * b + d + ln M)) by ring.
  rewrite exp_plus, exp_Ropp, !exp_plus, !exp_ln by auto. reflexivity.
Qed.

Theorem detailed_balance c x y : 0 < c -> honest dec props c x y ->
  target_density t ll prior x * kernel x y = target_density t ll prior y * kernel y x.
Proof.
  intros Hc [[Hxy Hyx]|[Hxy Hyx]]; [|rewrite !nan_kernel by auto; ring].
  unfold exact_reports in *. change (mass_r dec props) with mass in Hxy, Hyx.
  rewrite (kernel_const (q0 := xln (c * mass x y)) (qb0 := xln (c * mass y x))) by auto.
  rewrite (kernel_const (q0 := xln (c * mass y x)) (qb0 := xln (c * mass x y))) by auto.
  destruct (Rle_lt_or_eq_dec _ _ (mass_nonneg x y)) as [H1|H1].
  2:{ rewrite <- H1, Rmult_0_r, xln_zero. unfold acc_prob; simpl. ring. }
  destruct (Rle_lt_or_eq_dec _ _ (mass_nonneg y x)) as [H2|H2].
  2:{ rewrite <- H2, Rmult_0_r, xln_zero. unfold acc_prob; simpl. ring. }
  rewrite !xln_pos by (apply Rmult_lt_0_compat; auto).
  unfold target_density.
  destruct (Req_EM_T (dens (xscale t (ll x)) * dens (prior x)) 0) as [Zx|Zx].
  - rewrite Zx. destruct (Req_EM_T (dens (xscale t (ll y)) * dens (prior y)) 0) as [Zy|Zy]; [rewrite Zy; ring|].
    rewrite (acc_zero_target (a := ll x)); auto. ring.
  - destruct (Req_EM_T (dens (xscale t (ll y)) * dens (prior y)) 0) as [Zy|Zy].
    + rewrite Zy. rewrite (acc_zero_target (a := ll y)); auto. ring.
    + pose proof (Hll x) as L1. pose proof (Hll y) as L2. pose proof (Hpr x) as L3. pose proof (Hpr y) as L4.
      unfold xscale in Zx, Zy |- *. destruct (Rlt_dec 0 t) as [?|]; [|contradiction].
      destruct (ll x) as [a| | |], (ll y) as [b| | |], (prior x) as [d| | |], (prior y) as [f| | |]; simpl in *; try contradiction;
        try (exfalso; first [apply Zx; ring | apply Zy; ring]).
      rewrite !acc_finite by auto.
      pose proof (exp_pos (t * a)). pose proof (exp_pos (t * b)). pose proof (exp_pos d). pose proof (exp_pos f).
      rewrite <- !Rmult_assoc. apply min_balance; repeat apply Rmult_lt_0_compat; auto.
Qed.

Lemma Rsum_plus A (f g : A -> R) l : Rsum (map (fun a => f a + g a) l) = Rsum (map f l) + Rsum (map g l).
Proof. induction l as [|x l IH]; simpl; [ring|]. rewrite IH. unfold Rsum; simpl. ring. Qed.
Lemma Rsum_single A (d : forall x y : A, {x = y} + {x <> y}) (v : R) a l : NoDup l -> In a l ->
  Rsum (map (fun x => if d x a then v else 0) l) = v.
Proof.
  induction l as [|x l IH]; intros Hn Hin; [contradiction|]. inversion Hn as [|? ? Hx Hn']; subst. simpl.
  destruct (d x a) as [->|Hne].
  - rewrite Rsum_zero; [unfold Rsum; simpl; ring|]. intros b Hb. destruct (d b a) as [->|]; [contradiction|auto].
  - destruct Hin as [->|Hin]; [congruence|]. rewrite IH by auto. ring.
Qed.

Theorem stationary c states y : 0 < c -> (forall x z, In x states -> In z states -> x <> z -> honest dec props c x z) ->
  NoDup states -> In y states ->
  Rsum (map (fun x => target_density t ll prior x * matrix dec t ll prior props states x y) states) = target_density t ll prior y.
Proof.
  intros Hc Hh Hn Hy. unfold matrix. fold kernel.
  set (pi := target_density t ll prior).
  set (out := Rsum (map (fun z => if dec y z then 0 else kernel y z) states)).
  rewrite (@Rsum_ext _ _ (fun x => (if dec x y then pi y * (1 - out) else 0) + (if dec y x then 0 else pi y * kernel y x))).
  - rewrite Rsum_plus, (Rsum_single dec (pi y * (1 - out)) (a := y)) by auto.
    rewrite (@Rsum_ext _ _ (fun x => pi y * (if dec y x then 0 else kernel y x))).
    + rewrite Rsum_scal. fold out. ring.
    + intros x _. destruct (dec y x); ring.
  - intros x Hx. destruct (dec x y) as [->|Hne].
    + destruct (dec y y); [|congruence]. fold out. ring.
    + destruct (dec y x) as [->|_]; [congruence|]. unfold pi.
      rewrite (detailed_balance Hc (Hh x y Hx Hy Hne)). ring.
Qed.
End Kernel.
