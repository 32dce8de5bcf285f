(** Lemmas for C77 and C78: averages over the logged samples of a chain that converges geometrically fast. *)
From Coq Require Import Reals Lra.
From Verif Require Import Base S_mcmc S_ergodic L_balance L_doeblin S_averages L_averages.
Open Scope R_scope.

Lemma kept_ext A (l : list A) : forall log log', (forall i, (i < length l)%nat -> log i = log' i) -> kept log l = kept log' l.
Proof.
  induction l as [|x l IH]; intros log log' H; [reflexivity|]. cbn [kept]. rewrite (H 0%nat) by (simpl; lia).
  rewrite (IH _ (fun i => log' (Datatypes.S i))) by (intros i Hi; apply H; simpl; lia). reflexivity.
Qed.
Lemma kept_length A (l : list A) : forall log, length (kept log l) = n_logged log (length l).
Proof.
  induction l as [|x l IH]; intros log; [reflexivity|]. cbn [length]. rewrite n_logged_step. cbn [kept].
  destruct (log 0%nat); cbn [length]; rewrite IH; reflexivity.
Qed.
(** Dropping the first [b] logged samples is the same as not logging them. *)
Definition later (b : nat) (log : nat -> bool) (i : nat) : bool := log i && (b <=? n_logged log i)%nat.
Lemma skip_kept A (l : list A) : forall b log, skipn b (kept log l) = kept (later b log) l.
Proof.
  induction l as [|x l IH]; intros b log; [destruct b; reflexivity|]. cbn [kept]. unfold later at 1. change (n_logged log 0) with 0%nat.
  destruct (log 0%nat) eqn:E0.
  - destruct b as [|b].
    + simpl. f_equal. apply kept_ext. intros i _. unfold later. rewrite Bool.andb_true_r. reflexivity.
    + simpl. rewrite IH. apply kept_ext. intros i _. unfold later. rewrite n_logged_step, E0. reflexivity.
  - simpl. rewrite IH. apply kept_ext. intros i _. unfold later. rewrite n_logged_step, E0. reflexivity.
Qed.
Lemma n_logged_kept log n : n_logged log n = length (kept log (seq 0 n)).
Proof. rewrite kept_length, seq_length. reflexivity. Qed.
Lemma n_logged_later b log n : n_logged (later b log) n = (n_logged log n - b)%nat.
Proof. rewrite !n_logged_kept, <- skip_kept, skipn_length. reflexivity. Qed.
Lemma n_logged_every s N : (0 < s)%nat -> n_logged (every s) (N * s) = N.
Proof.
  intros Hs. unfold n_logged. induction N as [|N IH]; [reflexivity|].
  replace (Datatypes.S N * s)%nat with (N * s + s)%nat by lia. rewrite seq_app, filter_app, app_length, IH.
  destruct s as [|s]; [lia|]. cbn [seq filter]. unfold every at 1. rewrite Nat.add_0_l, Nat.mod_mul by lia. cbn [Nat.eqb length].
  replace (filter (every (Datatypes.S s)) (seq (Datatypes.S (N * Datatypes.S s)) s)) with (@nil nat); [simpl; lia|].
  symmetry. assert (G : forall l, (forall i, In i l -> every (Datatypes.S s) i = false) -> filter (every (Datatypes.S s)) l = []).
  { induction l as [|i l IHl]; intros H; [reflexivity|]. simpl. rewrite (H i (or_introl eq_refl)). apply IHl. intros j Hj. apply H. right. exact Hj. }
  apply G. intros i Hi. apply in_seq in Hi. unfold every. apply Nat.eqb_neq. intros E.
  pose proof (Nat.div_mod i (Datatypes.S s)) as D. rewrite E in D. assert (i = Datatypes.S s * (i / Datatypes.S s))%nat by lia.
  assert (i / Datatypes.S s = N \/ i / Datatypes.S s < N \/ N < i / Datatypes.S s)%nat by lia. nia.
Qed.


Section Averages.
Variable T : Type.
Variable dec : forall x y : T, {x = y} + {x <> y}.
Variable states : list T.
Hypothesis Hnd : NoDup states.
Variable P : T -> T -> R.
Hypothesis sto : stochastic states P.
Variables (m : nat) (d : R) (mu : T -> R).
Hypothesis Hm : (0 < m)%nat.
Hypothesis Hd : 0 < d <= 1.
Hypothesis rate : forall n x y, In x states -> In y states -> Rabs (nstep dec P states n x y - mu y) <= (1 - d) ^ (n / m).
Hypothesis S1 : forall x, In x states -> 0 <= mu x.
Hypothesis S2 : Rsum (map mu states) = 1.
Let expectation (f : T -> R) : R := Rsum (map (fun y => mu y * f y) states).

Lemma mean_square : exists C, 0 < C /\ forall f, (forall x, In x states -> 0 <= f x <= 1) -> forall log n x, In x states -> (0 < n_logged log n)%nat ->
    path_mean P states n x (fun l => (average f (kept log l) - expectation f) ^ 2) <= C / INR (n_logged log n).
Proof.
  pose proof (@K_nonneg _ states m d Hd) as HK. exists (1 + 2 * K states m d). split; [lra|].
  intros f Hfb log n x Hx Hc.
  set (a := expectation f) in *. set (h := fun y => f y - a).
  assert (Ha : 0 <= a <= 1).
  { unfold a, expectation. split.
    - apply Rsum_nonneg. intros y Hy. apply Rmult_le_pos; [apply S1; auto|apply Hfb; auto].
    - rewrite <- S2. apply Rsum_le. intros y Hy. rewrite <- (Rmult_1_r (mu y)) at 2. apply Rmult_le_compat_l; [apply S1; auto|apply Hfb; auto]. }
  assert (Hh : forall y, In y states -> Rabs (h y) <= 1).
  { intros y Hy. unfold h. apply Rabs_le. pose proof (Hfb y Hy). lra. }
  assert (Hm0 : Rsum (map (fun y => mu y * h y) states) = 0).
  { unfold h. rewrite (@Rsum_ext _ _ (fun y => mu y * f y + (- a) * mu y)) by (intros; ring). rewrite Rsum_plus, Rsum_scal, S2. unfold a, expectation. ring. }
  pose proof (@V_bound _ dec states Hnd P sto m d mu Hm Hd rate h Hh Hm0 n log x Hx) as B.
  set (c := INR (n_logged log n)) in *. assert (Hc0 : 0 < c) by (apply lt_0_INR; auto).
  rewrite (@pm_ext _ states P n x _ (fun l => / (c * c) * (tot h log l * tot h log l))).
  - rewrite pm_scal. fold (V states P h n log x). apply Rmult_le_reg_l with (c * c); [apply Rmult_lt_0_compat; auto|].
    rewrite <- Rmult_assoc, Rinv_r, Rmult_1_l by nra. replace (c * c * ((1 + 2 * K states m d) / c)) with (c * (1 + 2 * K states m d)) by (field; lra). exact B.
  - intros l Hl. unfold average, tot, h. rewrite kept_length, Hl. fold c.
    assert (E : Rsum (map (fun y => f y - a) (kept log l)) = Rsum (map f (kept log l)) - c * a).
    { unfold c. rewrite <- Hl, <- (kept_length _ l log). generalize (kept log l) as r0. induction r0 as [|z r0 IH]; [simpl; ring|].
      cbn [map length]. rewrite S_INR. unfold Rsum in *. simpl. rewrite IH. ring. }
    rewrite E. field. lra.
Qed.
Lemma logged_consistent eps eta : 0 < eps -> 0 < eta -> exists N, forall f, (forall x, In x states -> 0 <= f x <= 1) ->
  forall x samples s b, In x states -> (0 < s)%nat -> (N + b <= samples)%nat ->
    path_prob P states (samples * s) x (fun l => far eps (average f (skipn b (kept (every s) l))) (expectation f)) <= eta.
Proof.
  intros He Ht. destruct mean_square as (C & HC & B).
  destruct (archimed_cor1 (eta * (eps * eps) / C)) as (N & HN & HN0).
  { apply Rdiv_lt_0_compat; auto. apply Rmult_lt_0_compat; auto. apply Rmult_lt_0_compat; auto. }
  exists N. intros f Hfb x samples s b Hx Hs0 HNb.
  specialize (B f Hfb (later b (every s)) (samples * s)%nat x Hx). rewrite n_logged_later, n_logged_every in B by auto.
  specialize (B ltac:(lia)).
  set (F := fun l => (average f (kept (later b (every s)) l) - expectation f) ^ 2) in *.
  change (path_mean P states (samples * s) x F <= C / INR (samples - b)) in B.
  apply Rle_trans with (path_mean P states (samples * s) x (fun l => / (eps * eps) * F l)).
  - unfold path_prob. apply (@pm_le _ states P sto); auto. intros l _. unfold F. rewrite <- skip_kept. set (a := average _ _). set (c := expectation f).
    assert (0 < / (eps * eps)) by (apply Rinv_0_lt_compat; nra).
    unfold far. destruct (Rlt_dec (Rabs (a - c)) eps) as [H1|H1].
    + apply Rmult_le_pos; [lra|]. apply pow2_ge_0.
    + apply Rnot_lt_le in H1. apply Rmult_le_reg_l with (eps * eps); [nra|]. rewrite <- Rmult_assoc, Rinv_r, Rmult_1_l, Rmult_1_r by nra.
      rewrite <- (pow2_abs (a - c)). simpl. rewrite Rmult_1_r. apply Rmult_le_compat; lra.
  - rewrite pm_scal. apply Rmult_le_reg_l with (eps * eps); [nra|]. rewrite <- Rmult_assoc, Rinv_r, Rmult_1_l by nra.
    eapply Rle_trans; [exact B|]. assert (HNR : 0 < INR N) by (apply lt_0_INR; auto).
    assert (HNs : INR N <= INR (samples - b)) by (apply le_INR; lia).
    apply Rle_trans with (C * / INR N).
    + unfold Rdiv. apply Rmult_le_compat_l; [lra|]. apply Rinv_le_contravar; auto.
    + apply Rmult_le_reg_l with (/ C); [apply Rinv_0_lt_compat; auto|]. rewrite <- Rmult_assoc, Rinv_l, Rmult_1_l by lra.
      replace (/ C * (eps * eps * eta)) with (eta * (eps * eps) / C) by (field; lra). lra.
Qed.
End Averages.
