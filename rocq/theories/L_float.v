(** Lemmas on the double precision operations and sums of M_float.v. *)
From Coq Require Import List ZArith Reals Permutation Lra Lia Bool.
From Flocq Require Import Core.Core IEEE754.BinarySingleNaN IEEE754.Binary IEEE754.Bits.
From Flocq Require Import Relative Plus_error.
From Verif Require Import Base M_float S_float.
Import ListNotations.
Set Implicit Arguments.
Unset Strict Implicit.
Local Open Scope R_scope.

Definition rd (x : R) : R := round radix2 (FLT_exp (-1074) 53) ZnearestE x.
Definition u : R := bpow radix2 (-53).
Definition fmt (x : R) : Prop := generic_format radix2 (FLT_exp (-1074) 53) x.
Definition ok (x : dbl) : Prop := is_finite 53 1024 x = true /\ 0 <= val x.

#[local] Instance p53 : Prec_gt_0 53. Proof. reflexivity. Qed.
Lemma u_pos : 0 < u. Proof. apply bpow_gt_0. Qed.
Lemma u_small : u <= / 1024. Proof. unfold u. replace (/1024) with (bpow radix2 (-10)) by (cbn; lra). apply bpow_le; lia. Qed.
Lemma fmt_val x : fmt (val x). Proof. apply generic_format_B2R. Qed.
Lemma rd_fmt x : fmt x -> rd x = x.
Proof. intros. apply round_generic; [apply valid_rnd_N|assumption]. Qed.
Lemma rd_le x y : x <= y -> rd x <= rd y.
Proof. intros. apply round_le; [apply FLT_exp_valid; reflexivity|apply valid_rnd_N|assumption]. Qed.
Lemma rd_0 : rd 0 = 0. Proof. apply round_0. apply valid_rnd_N. Qed.
Lemma fmt_bpow e : (-1074 <= e)%Z -> fmt (bpow radix2 e).
Proof. intros. apply generic_format_bpow. unfold FLT_exp. lia. Qed.
Lemma rd_bpow e : (-1074 <= e)%Z -> rd (bpow radix2 e) = bpow radix2 e.
Proof. intros. apply rd_fmt, fmt_bpow; assumption. Qed.
Lemma fmt_1 : fmt 1. Proof. apply (fmt_bpow (e := 0)). lia. Qed.
Lemma rd_nonneg x : 0 <= x -> 0 <= rd x. Proof. intros H. rewrite <- rd_0. apply rd_le, H. Qed.

Lemma rd_err x : exists e h, Rabs e <= u /\ Rabs h <= u * bpow radix2 (-1022) /\ rd x = x * (1 + e) + h.
Proof.
  destruct (@error_N_FLT radix2 (-1074) 53 eq_refl (fun x => negb (Z.even x)) x) as (e & h & A & B & _ & C).
  exists e, h. split; [|split].
  - eapply Rle_trans; [exact A|]. right. unfold u. change (/2) with (bpow radix2 (-1)). rewrite <- bpow_plus. reflexivity.
  - eapply Rle_trans; [exact B|]. right. unfold u. change (/2) with (bpow radix2 (-1)). rewrite <- !bpow_plus. reflexivity.
  - exact C.
Qed.

Lemma rd_rel x : x = 0 \/ bpow radix2 (-1022) <= x -> exists e, Rabs e <= u /\ rd x = x * (1 + e).
Proof.
  intros [->|H].
  { exists 0. rewrite Rabs_R0, rd_0. split; [apply Rlt_le, u_pos|ring]. }
  destruct (@relative_error_N_FLT_ex radix2 (-1074) 53 eq_refl (fun x => negb (Z.even x)) x) as (e & A & B).
  { eapply Rle_trans; [|apply Rle_abs]. exact H. }
  exists e. split; [|exact B]. eapply Rle_trans; [exact A|]. right. unfold u. change (/2) with (bpow radix2 (-1)). rewrite <- bpow_plus. reflexivity.
Qed.

Lemma rd_plus x y : fmt x -> fmt y -> exists e, Rabs e <= u /\ rd (x + y) = (x + y) * (1 + e).
Proof.
  intros Fx Fy. destruct (@FLT_plus_error_N_ex radix2 (-1074) 53 p53 (fun x => negb (Z.even x)) x y Fx Fy) as (e & A & B).
  exists e. split; [|exact B]. eapply Rle_trans; [exact A|]. eapply Rle_trans; [apply u_rod1pu_ro_le_u_ro|].
  right. unfold u_ro, u. change (/2) with (bpow radix2 (-1)). rewrite <- bpow_plus. reflexivity.
Qed.

Lemma one_big : 1 <= bpow radix2 1000.
Proof. apply (@bpow_le radix2 0 1000). lia. Qed.
Lemma big x : 0 <= x <= bpow radix2 1000 -> Rlt_bool (Rabs (rd x)) (bpow radix2 1024) = true.
Proof.
  intros [A B]. apply Rlt_bool_true. rewrite Rabs_pos_eq by (apply rd_nonneg, A).
  apply Rle_lt_trans with (bpow radix2 1000); [|apply bpow_lt; lia].
  rewrite <- (@rd_bpow 1000) by lia. apply rd_le, B.
Qed.

Lemma add_ok x y : ok x -> ok y -> val x + val y <= bpow radix2 1000 -> ok (add x y) /\ val (add x y) = rd (val x + val y).
Proof.
  intros [Fx Px] [Fy Py] B. unfold ok, val, add, b64_plus.
  match goal with |- context [Bplus 53 1024 ?a ?b ?n ?m x y] => pose proof (@Bplus_correct 53 1024 a b n m x y Fx Fy) as H end.
  change (round radix2 (SpecFloat.fexp 53 1024) (round_mode mode_NE)) with rd in H.
  unfold val in *. rewrite big in H by lra. destruct H as (H1 & H2 & _). rewrite H1, H2.
  split; [split; [reflexivity|apply rd_nonneg; lra]|reflexivity].
Qed.

Lemma mul_ok x y : ok x -> ok y -> val x * val y <= bpow radix2 1000 -> ok (mul x y) /\ val (mul x y) = rd (val x * val y).
Proof.
  intros [Fx Px] [Fy Py] B. unfold ok, val, mul, b64_mult.
  match goal with |- context [Bmult 53 1024 ?a ?b ?n ?m x y] => pose proof (@Bmult_correct 53 1024 a b n m x y) as H end.
  change (round radix2 (SpecFloat.fexp 53 1024) (round_mode mode_NE)) with rd in H.
  unfold val in *. assert (0 <= B2R 53 1024 x * B2R 53 1024 y) by (apply Rmult_le_pos; assumption).
  rewrite big in H by lra. destruct H as (H1 & H2 & _). rewrite H1, H2, Fx, Fy.
  split; [split; [reflexivity|apply rd_nonneg; lra]|reflexivity].
Qed.

Lemma div_ok x y : ok x -> ok y -> 0 < val y -> val x <= val y -> ok (div x y) /\ val (div x y) = rd (val x / val y) /\ val (div x y) <= 1.
Proof.
  intros [Fx Px] [Fy Py] Y B. unfold ok, val, div, b64_div. unfold val in *.
  match goal with |- context [Bdiv 53 1024 ?a ?b ?n ?m x y] => pose proof (@Bdiv_correct 53 1024 a b n m x y) as H end.
  change (round radix2 (SpecFloat.fexp 53 1024) (round_mode mode_NE)) with rd in H.
  assert (Q0 : 0 <= B2R 53 1024 x / B2R 53 1024 y) by (apply Rmult_le_pos; [assumption|apply Rlt_le, Rinv_0_lt_compat, Y]).
  assert (Q1 : B2R 53 1024 x / B2R 53 1024 y <= 1) by (apply (Rmult_le_reg_r (B2R 53 1024 y)); [exact Y|]; unfold Rdiv; rewrite Rmult_assoc, Rinv_l by lra; lra).
  rewrite big in H by (split; [exact Q0|eapply Rle_trans; [exact Q1|apply one_big]]).
  destruct H as (H1 & H2 & _); [lra|]. rewrite H1, H2.
  split; [split; [exact Fx|apply rd_nonneg, Q0]|]. split; [reflexivity|]. rewrite <- (rd_fmt fmt_1). apply rd_le, Q1.
Qed.

Lemma scaled_val m e : 0 <= IZR m * bpow radix2 e <= bpow radix2 1000 -> ok (scaled m e) /\ val (scaled m e) = rd (IZR m * bpow radix2 e).
Proof.
  intros B. unfold ok, val, scaled.
  match goal with |- context [binary_normalize 53 1024 ?a ?b ?m ?x ?y ?z] => pose proof (@binary_normalize_correct 53 1024 a b m x y z) as H end.
  change (round radix2 (SpecFloat.fexp 53 1024) (round_mode mode_NE)) with rd in H. unfold F2R in H. cbn [Fnum Fexp] in H.
  rewrite big in H by exact B. destruct H as (H1 & H2 & _). rewrite H1, H2. split; [split; [reflexivity|apply rd_nonneg, B]|reflexivity].
Qed.
Lemma one_val : ok one /\ val one = 1.
Proof.
  destruct (@scaled_val 1 0) as (A & B). { change (bpow radix2 0) with 1. rewrite Rmult_1_r. split; [lra|apply one_big]. }
  split; [exact A|]. unfold one. rewrite B. change (bpow radix2 0) with 1. rewrite Rmult_1_r. apply rd_fmt, fmt_1.
Qed.
Lemma zero_val : ok zero /\ val zero = 0. Proof. repeat split. cbn. lra. Qed.

(** The draws are exact. *)
Lemma uniform_val k : (0 <= k < 2 ^ 53)%Z -> ok (uniform k) /\ val (uniform k) = IZR k * u.
Proof.
  intros [A B]. apply IZR_le in A. apply IZR_lt in B. change (IZR (2 ^ 53)) with (bpow radix2 53) in B.
  assert (E : IZR k * bpow radix2 (-53) <= 1).
  { apply Rle_trans with (bpow radix2 53 * bpow radix2 (-53)); [apply Rmult_le_compat_r; [apply bpow_ge_0|lra]|]. rewrite <- bpow_plus. right. reflexivity. }
  assert (E0 : 0 <= IZR k * bpow radix2 (-53)) by (apply Rmult_le_pos; [exact A|apply bpow_ge_0]).
  destruct (@scaled_val k (-53)) as (C & D). { split; [exact E0|]. eapply Rle_trans; [exact E|apply one_big]. }
  split; [exact C|]. unfold uniform. rewrite D. apply rd_fmt.
  apply generic_format_FLT. exists (Float radix2 k (-53)); [reflexivity| |cbn; lia].
  cbn [Fnum]. apply lt_IZR. rewrite abs_IZR, Rabs_pos_eq by exact A. exact B.
Qed.

Lemma ltb_val x y : ok x -> ok y -> (ltb x y = true <-> val x < val y).
Proof.
  intros [Fx _] [Fy _]. unfold ltb, b64_compare. rewrite (@Bcompare_correct 53 1024 x y Fx Fy). fold (val x) (val y).
  destruct (Rcompare_spec (val x) (val y)); split; intros; try congruence; try lra; discriminate.
Qed.
