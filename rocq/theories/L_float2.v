(** Lemmas: rounding errors of the sums, quotients and cumulative sums of M_float.v. *)
From Coq Require Import List ZArith Reals Permutation Lra Lia Bool Psatz.
From Flocq Require Import Core.Core IEEE754.BinarySingleNaN IEEE754.Binary IEEE754.Bits.
From Verif Require Import Base M_float S_float L_float.
Import ListNotations.
Set Implicit Arguments.
Unset Strict Implicit.
Local Open Scope R_scope.

Lemma total_app a b : total (a ++ b) = total a + total b.
Proof. induction a as [|x a IH]; cbn [total app]; [ring|rewrite IH; ring]. Qed.
Lemma total_perm a b : Permutation a b -> total a = total b.
Proof. induction 1; cbn [total]; lra. Qed.
Lemma total_nonneg l : Forall (fun x => 0 <= x) l -> 0 <= total l.
Proof. induction 1; cbn [total]; lra. Qed.
Lemma total_le_length l : Forall (fun x => x <= 1) l -> total l <= INR (length l).
Proof. induction 1; cbn [total length]; [cbn; lra|rewrite S_INR; lra]. Qed.
Lemma total_scale c l : total (map (fun x => x * c) l) = total l * c.
Proof. induction l as [|x l IH]; cbn [total map]; [ring|rewrite IH; ring]. Qed.
Lemma total_seq_nth A (f : A -> R) (d : A) x : total (map (fun i => f (nth i x d)) (seq 0 (length x))) = total (map f x).
Proof.
  induction x as [|a x IH]; [reflexivity|]. cbn [length seq map total]. rewrite <- seq_shift, map_map. cbn [nth].
  rewrite <- IH. reflexivity.
Qed.
Lemma nth_le_total l i : Forall (fun x => 0 <= x) l -> nth i l 0 <= total l.
Proof.
  intros F. revert i. induction F as [|x l Hx F IH]; intros [|i]; cbn [nth total]; try lra.
  - pose proof (total_nonneg F). lra.
  - specialize (IH i). lra.
Qed.

(** ** Sums *)
Lemma rel_plus (T v e a : R) : 0 <= T -> 0 <= a -> a * u <= / 2 -> Rabs (v - T) <= 2 * a * u * T -> Rabs e <= u -> 0 <= v ->
  Rabs (v * (1 + e) - T) <= 2 * (a + 1) * u * T.
Proof.
  intros HT Ha Hau Hv He Hp. pose proof u_pos as Hu.
  replace (v * (1 + e) - T) with ((v - T) + v * e) by ring.
  eapply Rle_trans; [apply Rabs_triang|]. rewrite Rabs_mult, (Rabs_pos_eq v Hp).
  assert (V : v <= T + 2 * a * u * T). { apply Rabs_def2b in Hv || idtac. pose proof (Rle_abs (v - T)). lra. }
  assert (V2 : v <= 2 * T). { assert (a * u * T <= / 2 * T) by (apply Rmult_le_compat_r; assumption). lra. }
  assert (v * Rabs e <= 2 * T * u). { apply Rmult_le_compat; try assumption. apply Rabs_pos. }
  lra.
Qed.

Lemma sum_in_ok o x : (forall i, In i (leaves o) -> ok (nth i x zero) /\ val (nth i x zero) <= 1) -> INR (length (leaves o)) * u <= / 1024 ->
  let T := total (map (fun i => val (nth i x zero)) (leaves o)) in
  ok (sum_in o x) /\ Rabs (val (sum_in o x) - T) <= 2 * (INR (length (leaves o)) - 1) * u * T /\ 0 <= T <= INR (length (leaves o)) /\
  1 <= INR (length (leaves o)) /\ (forall i, In i (leaves o) -> val (nth i x zero) <= val (sum_in o x)).
Proof.
  pose proof u_pos as Hu. revert x. induction o as [i|l IHl r IHr]; intros x; cbn [leaves sum_in]; intros H Hn; cbv zeta.
  - destruct (H i (or_introl eq_refl)) as (O & L). cbn [length map total In]. change (INR 1) with 1. destruct O as [O1 O2].
    repeat split; try assumption; try lra. + rewrite Rplus_0_r, Rminus_diag_eq by reflexivity. rewrite Rabs_R0. lra.
    + intros j [<-|[]]. lra.
  - rewrite map_app, total_app, app_length, plus_INR in *. rewrite Rmult_plus_distr_r in Hn.
    set (a := INR (length (leaves l))) in *. set (b := INR (length (leaves r))) in *.
    assert (A0 : 0 <= a) by apply pos_INR. assert (B0 : 0 <= b) by apply pos_INR.
    assert (Au : 0 <= a * u) by (apply Rmult_le_pos; lra). assert (Bu : 0 <= b * u) by (apply Rmult_le_pos; lra).
    destruct (IHl x) as (Ol & El & Tl & Al & Ml); [intros i Hi; apply H, in_or_app; left; exact Hi|lra|].
    destruct (IHr x) as (Or & Er & Tr & Br & Mr); [intros i Hi; apply H, in_or_app; right; exact Hi|lra|]. fold a in El, Tl, Al. fold b in Er, Tr, Br.
    set (tl := total (map (fun i => val (nth i x zero)) (leaves l))) in *. set (tr := total (map (fun i => val (nth i x zero)) (leaves r))) in *.
    assert (E : Rabs (val (sum_in l x) + val (sum_in r x) - (tl + tr)) <= 2 * (a + b - 2) * u * (tl + tr)).
    { replace (val (sum_in l x) + val (sum_in r x) - (tl + tr)) with ((val (sum_in l x) - tl) + (val (sum_in r x) - tr)) by ring.
      eapply Rle_trans; [apply Rabs_triang|].
      assert (X : 2 * (a - 1) * u * tl <= 2 * (a + b - 2) * u * tl) by (apply Rmult_le_compat_r; [lra|]; apply Rmult_le_compat_r; lra).
      assert (Y : 2 * (b - 1) * u * tr <= 2 * (a + b - 2) * u * tr) by (apply Rmult_le_compat_r; [lra|]; apply Rmult_le_compat_r; lra). lra. }
    assert (N : (a + b - 2) * u <= / 2) by nra.
    assert (V : val (sum_in l x) + val (sum_in r x) <= 2 * (a + b)).
    { pose proof (Rle_abs (val (sum_in l x) + val (sum_in r x) - (tl + tr))).
      assert (2 * (a + b - 2) * u * (tl + tr) <= tl + tr) by (rewrite <- (Rmult_1_l (tl + tr)) at 2; apply Rmult_le_compat_r; lra). lra. }
    assert (W : val (sum_in l x) + val (sum_in r x) <= bpow radix2 1000).
    { apply Rle_trans with (2 * (a + b)); [exact V|]. apply Rle_trans with (bpow radix2 53); [|apply bpow_le; lia].
      assert (U : u * bpow radix2 53 = 1) by (unfold u; rewrite <- bpow_plus; reflexivity). pose proof (bpow_gt_0 radix2 53). nra. }
    destruct (add_ok Ol Or W) as (Oa & Ea). destruct (rd_plus (fmt_val (sum_in l x)) (fmt_val (sum_in r x))) as (e & He & Ee).
    split; [exact Oa|]. split; [|split; [lra|split; [lra|]]].
    + rewrite Ea, Ee. replace (a + b - 1) with ((a + b - 2) + 1) by ring. apply rel_plus; try assumption; try lra. destruct Ol, Or. lra.
    + intros i Hi. rewrite Ea. destruct Ol as [_ Pl], Or as [_ Pr]. apply in_app_or in Hi as [Hi|Hi].
      * apply Rle_trans with (val (sum_in l x)); [apply Ml, Hi|]. rewrite <- (rd_fmt (fmt_val (sum_in l x))) at 1. apply rd_le. lra.
      * apply Rle_trans with (val (sum_in r x)); [apply Mr, Hi|]. rewrite <- (rd_fmt (fmt_val (sum_in r x))) at 1. apply rd_le. lra.
Qed.

Definition vals (x : list dbl) : list R := map val x.
Definition small (n : nat) : Prop := INR n * u <= / 1024.

Lemma fraction_ok x : fraction x -> ok x. Proof. intros [A B]. split; [exact A|lra]. Qed.

Lemma row_sum o x : Forall fraction x -> order_of o (length x) -> small (length x) ->
  ok (sum_in o x) /\ Rabs (val (sum_in o x) - total (vals x)) <= 2 * INR (length x) * u * total (vals x) /\
  (forall i, (i < length x)%nat -> val (nth i x zero) <= val (sum_in o x)).
Proof.
  intros F P Sm. pose proof u_pos as Hu. pose proof (Permutation_length P) as L. rewrite seq_length in L.
  destruct (@sum_in_ok o x) as (A & B & C & _ & D).
  - intros i Hi. apply (Permutation_in _ P), in_seq in Hi. rewrite Forall_forall in F. destruct (F (nth i x zero)) as (F1 & F2); [apply nth_In; lia|]. split; [split; [exact F1|lra]|lra].
  - rewrite L. exact Sm.
  - rewrite L in *. rewrite (total_perm (Permutation_map _ P)), total_seq_nth in B, C. fold (vals x) in B, C.
    split; [exact A|]. split.
    + eapply Rle_trans; [exact B|]. apply Rmult_le_compat_r; [lra|]. apply Rmult_le_compat_r; [lra|]. lra.
    + intros i Hi. apply D, (Permutation_in _ (Permutation_sym P)), in_seq. lia.
Qed.

(** ** Quotients *)
Lemma quotient_err (p s t n e h : R) : 1 <= n -> n * u <= / 1024 -> 0 <= p <= t -> 0 < t -> Rabs (s - t) <= 2 * n * u * t -> Rabs e <= u -> Rabs h <= u * bpow radix2 (-1022) ->
  0 < s /\ Rabs (p / s * (1 + e) + h - p / t) <= 5 * n * u * (p / t) + u * bpow radix2 (-1022).
Proof.
  intros Hn Hu Hp Ht Hs He Hh. pose proof u_pos as U. set (y := n * u) in *. assert (Y0 : 0 < y) by (unfold y; nra). assert (Uy : u <= y) by (unfold y; nra).
  replace (2 * n * u * t) with (2 * y * t) in Hs by (unfold y; ring). replace (5 * n * u) with (5 * y) by (unfold y; ring).
  assert (S1 : - (2 * y * t) <= s - t <= 2 * y * t) by (apply Rabs_def2b, Hs || (pose proof (Rle_abs (s - t)); pose proof (Rle_abs (- (s - t))); rewrite Rabs_Ropp in *; lra)).
  assert (Sp : 0 < s) by nra. split; [exact Sp|].
  set (g := p / t). assert (G : 0 <= g) by (apply Rmult_le_pos; [lra|apply Rlt_le, Rinv_0_lt_compat; lra]).
  set (r := t / s). assert (Er : r * s = t) by (unfold r; field; lra).
  assert (R1 : r <= 1 + 3 * y). { apply (Rmult_le_reg_r s); [exact Sp|]. rewrite Er. nra. }
  assert (R2 : 1 - 3 * y <= r). { apply (Rmult_le_reg_r s); [exact Sp|]. rewrite Er. nra. }
  replace (p / s) with (g * r) by (unfold g, r; field; lra).
  replace (g * r * (1 + e) + h - g) with (g * (r * (1 + e) - 1) + h) by ring.
  eapply Rle_trans; [apply Rabs_triang|]. apply Rplus_le_compat; [|exact Hh]. rewrite Rabs_mult, (Rabs_pos_eq g G), Rmult_comm. apply Rmult_le_compat_r; [exact G|].
  assert (E : - u <= e <= u) by (pose proof (Rle_abs e); pose proof (Rle_abs (- e)); rewrite Rabs_Ropp in *; lra).
  apply Rabs_le. assert (0 <= r) by lra. split; nra.
Qed.

Lemma normalize_row_length o p : length (normalize_row o p) = length p.
Proof. apply map_length. Qed.
Lemma nth_normalize o p i : (i < length p)%nat -> nth i (normalize_row o p) zero = div (nth i p zero) (sum_in o p).
Proof. intros H. unfold normalize_row. rewrite (nth_indep _ zero (div zero (sum_in o p))) by (rewrite map_length; exact H). apply (@map_nth _ _ (fun a => div a (sum_in o p))). Qed.

Lemma nth_vals x i : nth i (vals x) 0 = val (nth i x zero).
Proof. unfold vals. change 0 with (val zero). apply map_nth. Qed.

Lemma vals_nonneg x : Forall fraction x -> Forall (fun y => 0 <= y) (vals x).
Proof. intros H. apply Forall_forall. intros y Hy. apply in_map_iff in Hy as (z & <- & Hz). rewrite Forall_forall in H. destruct (H z Hz). lra. Qed.

Lemma nth_fraction x i : Forall fraction x -> (i < length x)%nat -> fraction (nth i x zero).
Proof. intros H Hi. rewrite Forall_forall in H. apply H, nth_In, Hi. Qed.

Lemma normalize_row_ok o p : Forall fraction p -> order_of o (length p) -> small (length p) -> 0 < total (vals p) ->
  Forall fraction (normalize_row o p) /\
  (forall i, (i < length p)%nat -> (exists e h, Rabs e <= u /\ Rabs h <= u * bpow radix2 (-1022) /\ val (nth i (normalize_row o p) zero) = val (nth i p zero) / val (sum_in o p) * (1 + e) + h) /\
    Rabs (val (nth i (normalize_row o p) zero) - share (vals p) i) <= 5 * INR (length p) * u * share (vals p) i + u * bpow radix2 (-1022) /\
    (val (nth i p zero) = 0 -> val (nth i (normalize_row o p) zero) = 0) /\
    (0 < val (nth i p zero) / val (sum_in o p) -> val (nth i (normalize_row o p) zero) = rd (val (nth i p zero) / val (sum_in o p)))) /\ 0 < val (sum_in o p).
Proof.
  intros F O Sm T. destruct (row_sum F O Sm) as (A & B & C).
  assert (N : 1 <= INR (length p)). { destruct p; [cbn in T; lra|]. cbn [length]. rewrite S_INR. pose proof (pos_INR (length p)). lra. }
  assert (Sp : 0 < val (sum_in o p)).
  { destruct (@quotient_err 0 (val (sum_in o p)) (total (vals p)) (INR (length p)) 0 0) as (X & _); try assumption; try lra; rewrite ?Rabs_R0; try (pose proof u_pos; lra).
    apply Rmult_le_pos; [apply Rlt_le, u_pos|apply bpow_ge_0]. }
  assert (D : forall i, (i < length p)%nat -> fraction (nth i (normalize_row o p) zero) /\ val (nth i (normalize_row o p) zero) = rd (val (nth i p zero) / val (sum_in o p))).
  { intros i Hi. rewrite nth_normalize by exact Hi. pose proof (nth_fraction F Hi) as Fi. destruct (div_ok (fraction_ok Fi) A Sp (C i Hi)) as (X & Y & Z). destruct X. repeat split; try assumption; lra. }
  split; [|split; [|exact Sp]].
  - apply Forall_forall. intros y Hy. apply (In_nth _ _ zero) in Hy as (i & Hi & <-). apply D. rewrite normalize_row_length in Hi. exact Hi.
  - intros i Hi. destruct (D i Hi) as (_ & E). rewrite E. destruct (rd_err (val (nth i p zero) / val (sum_in o p))) as (e & h & He & Hh & Eq). pose proof (nth_fraction F Hi) as [Fi1 Fi2].
    split; [exists e, h; repeat split; assumption|]. split; [|split].
    + rewrite Eq. unfold share. rewrite nth_vals. apply quotient_err; try assumption. split; [lra|]. rewrite <- nth_vals. apply nth_le_total, vals_nonneg, F.
    + intros ->. unfold Rdiv. rewrite Rmult_0_l. apply rd_0.
    + reflexivity.
Qed.

(** ** Cumulative sums *)
Lemma cumsum_from_length acc q : length (cumsum_from acc q) = length q.
Proof. revert acc. induction q; intros; cbn; [reflexivity|]. f_equal. apply IHq. Qed.
Lemma cumsum_length q : length (cumsum q) = length q.
Proof. destruct q; [reflexivity|]. cbn. f_equal. apply cumsum_from_length. Qed.

Definition bounded (B : R) (x : dbl) : Prop := is_finite 53 1024 x = true /\ 0 <= val x <= B.

Lemma cumsum_from_ok B r : 0 <= B -> forall acc A a, ok acc -> 0 <= A -> A + INR (length r) * B <= bpow radix2 900 -> 0 <= a -> (a + INR (length r)) * u <= / 1024 -> Rabs (val acc - A) <= 2 * a * u * A -> Forall (bounded B) r ->
  forall j, (j < length r)%nat -> let c i := nth i (cumsum_from acc r) zero in
    ok (c j) /\ Rabs (val (c j) - (A + total (firstn (Datatypes.S j) (vals r)))) <= 2 * (a + INR (length r)) * u * (A + total (firstn (Datatypes.S j) (vals r))) /\
    val (match j with O => acc | Datatypes.S i => c i end) <= val (c j) /\ (val (nth j r zero) = 0 -> val (c j) = val (match j with O => acc | Datatypes.S i => c i end)) /\ val (nth j r zero) <= val (c j).
Proof.
  intros HB0. pose proof u_pos as Hu.
  induction r as [|x r IH]; intros acc A a Oa HA HB Ha Hn Err F j Hj; [cbn in Hj; lia|]. inversion F as [|? ? Fx Fr]; subst.
  cbn [length] in *. rewrite S_INR in *. pose proof (pos_INR (length r)) as Pr. destruct Fx as [Fx1 Fx2].
  assert (Hau : 0 <= a * u) by (apply Rmult_le_pos; lra). assert (Hru : 0 <= INR (length r) * u) by (apply Rmult_le_pos; lra).
  assert (Hau2 : a * u <= / 1024) by lra.
  assert (V : val acc <= 2 * A). { pose proof (Rle_abs (val acc - A)). assert (2 * a * u * A <= A) by (rewrite <- (Rmult_1_l A) at 2; apply Rmult_le_compat_r; lra). lra. }
  assert (RB : 0 <= INR (length r) * B) by (apply Rmult_le_pos; assumption).
  assert (W : val acc + val x <= bpow radix2 1000).
  { assert (3 * bpow radix2 900 <= bpow radix2 1000). { apply Rle_trans with (bpow radix2 902); [|apply bpow_le; lia]. change 902%Z with (2 + 900)%Z. rewrite bpow_plus. apply Rmult_le_compat_r; [apply bpow_ge_0|]. cbn. lra. }
    lra. }
  destruct Oa as [Fa Pa]. destruct (@add_ok acc x) as (O2 & E2); [split; assumption|split; [assumption|lra]|exact W|].
  destruct (rd_plus (fmt_val acc) (fmt_val x)) as (e & He & Ee).
  assert (Err2 : Rabs (val (add acc x) - (A + val x)) <= 2 * (a + 1) * u * (A + val x)).
  { rewrite E2, Ee. apply rel_plus; try assumption; try lra.
    replace (val acc + val x - (A + val x)) with (val acc - A) by ring. eapply Rle_trans; [exact Err|]. apply Rmult_le_compat_l; lra. }
  destruct j as [|j].
  - cbn [cumsum_from nth firstn vals map total]. cbn zeta. split; [exact O2|]. split; [|split; [|split]].
    + rewrite Rplus_0_r. eapply Rle_trans; [exact Err2|]. apply Rmult_le_compat_r; [lra|]. apply Rmult_le_compat_r; lra.
    + rewrite E2. rewrite <- (rd_fmt (fmt_val acc)) at 1. apply rd_le. lra.
    + intros Z. rewrite E2, Z, Rplus_0_r. apply rd_fmt, fmt_val.
    + rewrite E2. rewrite <- (rd_fmt (fmt_val x)) at 1. apply rd_le. lra.
  - specialize (IH (add acc x) (A + val x) (a + 1) O2 ltac:(lra) ltac:(lra) ltac:(lra) ltac:(lra) Err2 Fr j ltac:(lia)). cbv zeta in IH. destruct IH as (I1 & I2 & I3 & I4 & I5).
    cbv zeta. cbn [cumsum_from nth]. change (firstn (Datatypes.S (Datatypes.S j)) (vals (x :: r))) with (val x :: firstn (Datatypes.S j) (vals r)). cbn [total].
    split; [exact I1|]. split; [|split; [|split; [|exact I5]]].
    + replace (A + (val x + total (firstn (Datatypes.S j) (vals r)))) with (A + val x + total (firstn (Datatypes.S j) (vals r))) by ring.
      eapply Rle_trans; [exact I2|]. right. ring.
    + destruct j; exact I3.
    + destruct j; exact I4.
Qed.

Definition partial (v : list R) (j : nat) : R := total (firstn (Datatypes.S j) v).

Lemma small_big n : small n -> INR n <= bpow radix2 53.
Proof.
  unfold small. intros H. assert (U : u * bpow radix2 53 = 1) by (unfold u; rewrite <- bpow_plus; reflexivity). pose proof (bpow_gt_0 radix2 53). pose proof u_pos. pose proof (pos_INR n). nra.
Qed.

Lemma cumsum_ok q : Forall fraction q -> small (length q) -> forall j, (j < length q)%nat -> let c i := nth i (cumsum q) zero in
  ok (c j) /\ Rabs (val (c j) - partial (vals q) j) <= 2 * INR (length q) * u * partial (vals q) j /\
  (forall i, j = Datatypes.S i -> val (c i) <= val (c j) /\ (val (nth j q zero) = 0 -> val (c j) = val (c i))) /\ (j = O -> val (c j) = val (nth 0 q zero)).
Proof.
  intros F Sm j Hj. pose proof u_pos as Hu. destruct q as [|x q]; [cbn in Hj; lia|]. inversion F as [|? ? Fx Fr]; subst. cbv zeta. cbn [cumsum].
  pose proof (small_big Sm) as Bg. unfold small in Sm. cbn [length] in *. rewrite S_INR in *. pose proof (pos_INR (length q)) as Pq. destruct Fx as [Fx1 Fx2].
  assert (Hqu : 0 <= INR (length q) * u) by (apply Rmult_le_pos; lra).
  destruct j as [|j].
  - cbn [nth partial]. unfold partial. cbn [firstn vals map total]. split; [split; [assumption|lra]|]. split; [|split; [intros; discriminate|reflexivity]].
    replace (val x - (val x + 0)) with 0 by ring. rewrite Rabs_R0. apply Rmult_le_pos; [|lra]. nra.
  - cbn [nth]. unfold partial. change (firstn (Datatypes.S (Datatypes.S j)) (vals (x :: q))) with (val x :: firstn (Datatypes.S j) (vals q)). cbn [total].
    assert (Pt : 0 <= total (firstn (Datatypes.S j) (vals q))). { apply total_nonneg, Forall_forall. intros y Hy. apply firstn_In in Hy || idtac. pose proof (vals_nonneg Fr) as Fv. rewrite Forall_forall in Fv. apply Fv. rewrite <- (firstn_skipn (Datatypes.S j) (vals q)). apply in_or_app. left. exact Hy. }
    pose proof (@bpow_le radix2 53 900 ltac:(lia)) as B9.
    destruct (@cumsum_from_ok 1 q) with (acc := x) (A := val x) (a := 0) (j := j) as (A & B & C & D & _); try assumption; try lra; try lia; [split; [assumption|lra]| |].
    { rewrite Rminus_diag_eq by reflexivity. rewrite Rabs_R0. lra. }
    split; [exact A|]. split; [|split; [|discriminate]].
    + eapply Rle_trans; [exact B|]. apply Rmult_le_compat_r; [lra|]. apply Rmult_le_compat_r; lra.
    + intros i [= <-]. destruct j; split; try assumption.
Qed.
