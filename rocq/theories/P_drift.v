(** C104: weights and effects as probability vectors in double precision. *)
From Coq Require Import List ZArith Reals Lra Lia Bool Psatz.
From Flocq Require Import Core.Core IEEE754.BinarySingleNaN IEEE754.Binary IEEE754.Bits.
From Verif Require Import Base M_float S_float L_float L_float2 L_float3 M_drift S_drift L_drift.
Import ListNotations.
Local Open Scope R_scope.

(** The full statement would be: after any number of steps a row is on the simplex up to a fixed tolerance.
    What holds: the error grows by at most 2^-50 per step. *)
Theorem C104_linear_partial : forall n cs row d, Forall (regular n) cs -> length row = n -> on_simplex d row -> d + INR (length cs) / 2 ^ 50 <= / 8 ->
  on_simplex (d + INR (length cs) / 2 ^ 50) (change_rows cs row).
Proof.
  intros n cs row d F L S B. assert (E : INR (length cs) / 2 ^ 50 = INR (length cs) * (8 * u)).
  { unfold Rdiv. rewrite pow2, <- bpow_opp. change 8 with (bpow radix2 3). unfold u. rewrite <- bpow_plus. reflexivity. }
  rewrite E in *. apply change_rows_ok with n; assumption.
Qed.
Print Assumptions C104_linear_partial.

(** Entries that no step touches keep their exact value; in particular the zeros of inapplicable states. *)
Theorem C104_untouched : forall k cs row, Forall (fun c => ch_i c <> k /\ ch_j c <> k) cs -> nth k (change_rows cs row) zero = nth k row zero.
Proof.
  intros k cs. induction cs as [|c cs IH]; intros row F; [reflexivity|]. apply Forall_cons_iff in F. destruct F as [[A B] F].
  change (change_rows (c :: cs) row) with (change_rows cs (change_row row c)). rewrite IH by exact F. unfold change_row, proposed.
  destruct (random_dirichlet (ch_g1 c) (ch_g2 c)) as [p q]. destruct (is_finite 53 1024 p && is_finite 53 1024 q); [|reflexivity]. destruct (ch_accept c); [|reflexivity].
  rewrite !nth_set_entry_other by assumption. reflexivity.
Qed.
Print Assumptions C104_untouched.

(** A draw that is not finite changes nothing, whatever the row and the acceptance. *)
Theorem C104_not_finite : forall c row, is_finite 53 1024 (fst (random_dirichlet (ch_g1 c) (ch_g2 c))) = false \/ is_finite 53 1024 (snd (random_dirichlet (ch_g1 c) (ch_g2 c))) = false -> change_row row c = row.
Proof.
  intros c row H. unfold change_row, proposed. destruct (random_dirichlet (ch_g1 c) (ch_g2 c)) as [p q]. cbn [fst snd] in H. destruct H as [-> | ->]; [reflexivity|]. rewrite andb_false_r. reflexivity.
Qed.
Print Assumptions C104_not_finite.

(** The worst case is met: twice the gamma variate 24.5 gives a draw below (1/2, 1/2), and the lost unit is
    never given back. *)
Definition half : dbl := scaled 1 (-1).
Definition step : change := {| ch_i := 0; ch_j := 1; ch_g1 := scaled 49 (-1); ch_g2 := scaled 49 (-1); ch_accept := true |}.

Lemma scaled_exact m e : (0 <= m <= 2 ^ 53)%Z -> (-1074 <= e <= 900)%Z -> ok (scaled m e) /\ val (scaled m e) = IZR m * bpow radix2 e.
Proof.
  intros M E. pose proof (IZR_le 0 m ltac:(lia)) as M0. pose proof (IZR_le m _ (proj2 M)) as M1. change (IZR (2 ^ 53)) with (bpow radix2 53) in M1.
  destruct (@scaled_val m e) as (A & B).
  { split; [apply Rmult_le_pos; [lra|apply bpow_ge_0]|]. apply Rle_trans with (bpow radix2 53 * bpow radix2 e); [apply Rmult_le_compat_r; [apply bpow_ge_0|lra]|]. rewrite <- bpow_plus. apply bpow_le. lia. }
  split; [exact A|]. rewrite B. destruct (Z.eq_dec m (2 ^ 53)) as [->|N].
  - change (IZR (2 ^ 53)) with (bpow radix2 53). rewrite <- bpow_plus. apply rd_bpow. lia.
  - apply rd_fmt. apply generic_format_FLT. exists (Float radix2 m e); [reflexivity| |cbn; lia]. cbn [Fnum]. change (radix2 ^ 53)%Z with (2 ^ 53)%Z. lia.
Qed.
Lemma rd_pred k : (2 ^ 52 < k <= 2 ^ 53)%Z -> rd (IZR k * bpow radix2 (-54) - IZR k * bpow radix2 (-107)) = IZR (k - 1) * bpow radix2 (-54).
Proof.
  intros [K1 K2]. pose proof (IZR_lt _ _ K1) as H1. pose proof (IZR_le _ _ K2) as H2. pose proof (IZR_le (2 ^ 52) (k - 1) ltac:(lia)) as H3. rewrite minus_IZR in *.
  change (IZR (2 ^ 52)) with (bpow radix2 52) in *. change (IZR (2 ^ 53)) with (bpow radix2 53) in *.
  set (x := IZR k * bpow radix2 (-54) - IZR k * bpow radix2 (-107)).
  assert (E54 : x = (IZR k - IZR k * u) * bpow radix2 (-54)) by (unfold x, u; rewrite Rmult_minus_distr_r, (Rmult_assoc (IZR k)), <- bpow_plus; reflexivity).
  assert (Ku : / 2 < IZR k * u <= 1).
  { split; [apply Rle_lt_trans with (bpow radix2 52 * u); [unfold u; rewrite <- bpow_plus; right; reflexivity|apply Rmult_lt_compat_r; [apply u_pos|exact H1]]|].
    apply Rle_trans with (bpow radix2 53 * u); [apply Rmult_le_compat_r; [apply Rlt_le, u_pos|exact H2]|unfold u; rewrite <- bpow_plus; right; reflexivity]. }
  pose proof (bpow_gt_0 radix2 (-54)) as P54.
  assert (Lo : bpow radix2 (-2) <= x). { rewrite E54. apply Rle_trans with (bpow radix2 52 * bpow radix2 (-54)); [rewrite <- bpow_plus; right; reflexivity|]. apply Rmult_le_compat_r; lra. }
  assert (Hi : x < bpow radix2 (-1)). { rewrite E54. apply Rlt_le_trans with (bpow radix2 53 * bpow radix2 (-54)); [|rewrite <- bpow_plus; right; reflexivity]. apply Rmult_lt_compat_r; lra. }
  assert (Mg : mag radix2 x = (-1)%Z :> Z). { apply mag_unique_pos. split; [exact Lo|exact Hi]. }
  unfold rd, round, scaled_mantissa, cexp. rewrite Mg. change (FLT_exp (-1074) 53 (-1)) with (-54)%Z. change (- (-54))%Z with 54%Z.
  assert (Em : x * bpow radix2 54 = IZR k - IZR k * u) by (rewrite E54, Rmult_assoc, <- bpow_plus; change (bpow radix2 (-54 + 54)) with 1; ring). rewrite Em.
  rewrite (@Znearest_imp (fun z => negb (Z.even z)) _ (k - 1)%Z). 2:{ rewrite minus_IZR. apply Rabs_def1; lra. }
  unfold F2R. cbn [Fnum Fexp]. rewrite minus_IZR. reflexivity.
Qed.

Lemma step_pair x k : ok x -> (2 ^ 52 < k <= 2 ^ 53)%Z -> val x = IZR k * bpow radix2 (-54) ->
  exists y, change_row [x; x] step = [y; y] /\ ok y /\ val y = IZR (k - 1) * bpow radix2 (-54).
Proof.
  intros Ox K E. assert (D : random_dirichlet (ch_g1 step) (ch_g2 step) = (scaled (2 ^ 53 - 1) (-54), scaled (2 ^ 53 - 1) (-54))) by (unfold random_dirichlet; cbv zeta; apply f_equal2; apply B2FF_inj; vm_compute; reflexivity).
  destruct (scaled_exact (2 ^ 53 - 1) (-54)) as (Op & Vp); [lia|lia|]. set (p := scaled (2 ^ 53 - 1) (-54)) in *. clearbody p. pose proof Op as [Fp _].
  unfold change_row, proposed. rewrite D, Fp. cbn [andb step ch_i ch_j ch_accept nth set_entry]. exists (mul p (add x x)). split; [reflexivity|].
  pose proof (IZR_le k _ (proj2 K)) as K2. pose proof (IZR_le 0 k ltac:(lia)) as K0. change (IZR (2 ^ 53)) with (bpow radix2 53) in K2.
  assert (Hx : IZR k * bpow radix2 (-54) <= / 2). { apply Rle_trans with (bpow radix2 53 * bpow radix2 (-54)); [apply Rmult_le_compat_r; [apply bpow_ge_0|exact K2]|]. rewrite <- bpow_plus. right. reflexivity. }
  assert (H4 : 1 <= bpow radix2 1000) by apply one_big. pose proof Ox as [_ Px].
  destruct (@add_ok x x Ox Ox) as (Os & Vs); [rewrite E; lra|].
  assert (Es : val (add x x) = IZR k * bpow radix2 (-53)).
  { rewrite Vs, E. replace (IZR k * bpow radix2 (-54) + IZR k * bpow radix2 (-54)) with (IZR k * bpow radix2 (-53)) by (change (-53)%Z with (1 + -54)%Z; rewrite bpow_plus; change (bpow radix2 1) with 2; ring).
    destruct (scaled_exact k (-53)) as (_ & V); [lia|lia|]. rewrite <- V. apply rd_fmt, fmt_val. }
  rewrite minus_IZR in Vp. change (IZR (2 ^ 53)) with (bpow radix2 53) in Vp.
  assert (Ep : val p * val (add x x) = IZR k * bpow radix2 (-54) - IZR k * bpow radix2 (-107)).
  { rewrite Vp, Es. replace ((bpow radix2 53 - 1) * bpow radix2 (-54) * (IZR k * bpow radix2 (-53))) with (IZR k * (bpow radix2 53 * bpow radix2 (-54) * bpow radix2 (-53)) - IZR k * (bpow radix2 (-54) * bpow radix2 (-53))) by ring. rewrite <- !bpow_plus. reflexivity. }
  pose proof (Rmult_le_pos _ _ K0 (bpow_ge_0 radix2 (-107))) as P107.
  destruct (@mul_ok p (add x x) Op Os) as (Om & Vm); [rewrite Ep; lra|]. split; [exact Om|]. rewrite Vm, Ep. apply rd_pred, K.
Qed.

Lemma drift_run T : (Z.of_nat T <= 2 ^ 51)%Z -> exists x, change_rows (repeat step T) [half; half] = [x; x] /\ ok x /\ val x = IZR (2 ^ 53 - Z.of_nat T) * bpow radix2 (-54).
Proof.
  induction T as [|T IH]; intros H.
  - exists half. destruct (scaled_exact 1 (-1)) as (A & B); [lia|lia|]. split; [reflexivity|]. split; [exact A|]. unfold half. rewrite B, Rmult_1_l. change (IZR (2 ^ 53 - Z.of_nat 0)) with (bpow radix2 53). rewrite <- bpow_plus. reflexivity.
  - destruct IH as (x & E & Ox & Vx); [lia|]. destruct (step_pair x (2 ^ 53 - Z.of_nat T) Ox ltac:(lia) Vx) as (y & Ey & Oy & Vy). exists y.
    cbn [repeat]. rewrite repeat_cons. unfold change_rows in *. rewrite fold_left_app, E. cbn [fold_left].
    split; [exact Ey|]. split; [exact Oy|]. rewrite Vy. do 2 f_equal. lia.
Qed.

(** After T such steps, all accepted, the sum is 1 - T / 2^53. *)
Theorem C104_drift : forall T, INR T <= 2 ^ 51 -> total (map val (change_rows (repeat step T) [half; half])) = 1 - INR T / 2 ^ 53.
Proof.
  intros T H. assert (HZ : (Z.of_nat T <= 2 ^ 51)%Z) by (apply le_IZR; rewrite <- INR_IZR_INZ; change (IZR (2 ^ 51)) with (bpow radix2 51); rewrite pow2 in H; exact H).
  destruct (drift_run T HZ) as (x & E & _ & V). rewrite E. cbn [map total]. rewrite V, minus_IZR, <- INR_IZR_INZ. change (IZR (2 ^ 53)) with (bpow radix2 53). unfold Rdiv. rewrite pow2, <- bpow_opp. change (- Z.of_nat 53)%Z with (-53)%Z.
  replace ((bpow radix2 53 - INR T) * bpow radix2 (-54) + ((bpow radix2 53 - INR T) * bpow radix2 (-54) + 0)) with (bpow radix2 53 * (2 * bpow radix2 (-54)) - INR T * (2 * bpow radix2 (-54))) by ring.
  replace (2 * bpow radix2 (-54)) with (bpow radix2 (-53)) by (change (-53)%Z with (1 + -54)%Z; rewrite bpow_plus; reflexivity). rewrite <- bpow_plus. reflexivity.
Qed.
Print Assumptions C104_drift.

Lemma step_regular : regular 2 step.
Proof.
  destruct (scaled_exact 49 (-1)) as ((F & P) & V); [lia|lia|]. unfold regular, step. cbn [ch_i ch_j ch_g1 ch_g2]. change (bpow radix2 (-1)) with (/ 2) in V. rewrite V.
  assert (A : 64 <= 2 ^ 900) by (replace 64 with (2 ^ 6) by (cbn; lra); apply Rle_pow; [lra|lia]). assert (B : / 2 ^ 900 <= / 64) by (apply Rinv_le; lra).
  repeat split; try lia; try exact F; try lra.
Qed.

Lemma half_simplex : on_simplex 0 [half; half].
Proof.
  destruct (scaled_exact 1 (-1)) as ((F & P) & V); [lia|lia|]. fold half in F, P, V. rewrite Rmult_1_l in V. change (bpow radix2 (-1)) with (/ 2) in V.
  split; [repeat (apply Forall_cons; [split; assumption|]); apply Forall_nil|]. cbn [map total]. rewrite V. replace (/ 2 + (/ 2 + 0) - 1) with 0 by field. rewrite Rabs_R0. lra.
Qed.

(** A row that is exactly on the simplex can leave it by more than the tolerance 10^-9 of scipy's check. *)
Theorem C104_refuted : exists row cs, on_simplex 0 row /\ Forall (regular 2) cs /\ ~ on_simplex (/ 10 ^ 9) (change_rows cs row).
Proof.
  set (T := Z.to_nat 10000000). assert (ET : INR T = 10000000) by (unfold T; rewrite INR_IZR_INZ, Z2Nat.id by lia; reflexivity). clearbody T.
  exists [half; half], (repeat step T). split; [exact half_simplex|]. split; [apply Forall_forall; intros c Hc; apply repeat_spec in Hc; subst c; exact step_regular|].
  intros (_ & H). rewrite C104_drift in H by (rewrite ET; cbn; lra). rewrite ET in H. apply Rabs_le_inv' in H. cbn in H. lra.
Qed.
Print Assumptions C104_refuted.

(** A row of three entries, two of them changed with variates of different size, once rejected; and a draw
    that is not finite. *)
Definition third : dbl := scaled 1 (-2).
Definition c1 : change := {| ch_i := 2; ch_j := 0; ch_g1 := scaled 3 0; ch_g2 := scaled 1 0; ch_accept := true |}.
Definition c2 : change := {| ch_i := 0; ch_j := 2; ch_g1 := scaled 1 0; ch_g2 := scaled 2 0; ch_accept := false |}.
Definition c3 : change := {| ch_i := 0; ch_j := 2; ch_g1 := zero; ch_g2 := zero; ch_accept := true |}.
Example C104_case : Forall (regular 3) [c1; c2] /\ on_simplex 0 [half; zero; half] /\
  change_rows [c1; c2] [half; zero; half] = [third; zero; scaled 3 (-2)] /\ change_row [half; zero; half] c3 = [half; zero; half] /\
  nth 0 (change_rows [c1; {| ch_i := 0; ch_j := 2; ch_g1 := scaled 1 0; ch_g2 := scaled 2 0; ch_accept := true |}] [half; zero; half]) zero = div one (scaled 3 0).
Proof.
  assert (A : 64 <= 2 ^ 900) by (replace 64 with (2 ^ 6) by (cbn; lra); apply Rle_pow; [lra|lia]). assert (B : / 2 ^ 900 <= / 64) by (apply Rinv_le; lra).
  assert (V : forall m, (0 <= m <= 100)%Z -> is_finite 53 1024 (scaled m 0) = true /\ val (scaled m 0) = IZR m) by (intros m Hm; destruct (scaled_exact m 0) as ((F & _) & V); [lia|lia|]; split; [exact F|]; rewrite V; change (bpow radix2 0) with 1; ring).
  split. { repeat constructor; cbn [c1 c2 ch_i ch_j ch_g1 ch_g2]; try lia; try (apply V; lia); try (rewrite (proj2 (V _ ltac:(lia))); lra); rewrite !(fun m H => proj2 (V m H)) by lia; lra. }
  split. { destruct half_simplex as (F & S). apply Forall_cons_iff in F. destruct F as [F _]. split; [apply Forall_cons; [exact F|]; apply Forall_cons; [split; [reflexivity|cbn; lra]|]; apply Forall_cons; [exact F|apply Forall_nil]|]. cbn [map total] in *. change (val zero) with 0. rewrite Rplus_0_l. exact S. }
  assert (Fl : forall a b : list dbl, map (B2FF 53 1024) a = map (B2FF 53 1024) b -> a = b) by (induction a as [|x a IH]; intros [|y b] E; cbn in E; try discriminate; [reflexivity|]; injection E as E1 E2; f_equal; [apply B2FF_inj, E1|apply IH, E2]).
  split; [apply Fl; vm_compute; reflexivity|]. split; [apply Fl; vm_compute; reflexivity|apply B2FF_inj; vm_compute; reflexivity].
Qed.
