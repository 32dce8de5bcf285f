(** C103: the choice of the operator of a step in double precision. *)
From Coq Require Import List ZArith Reals Permutation Lra Lia Bool Psatz.
From Flocq Require Import Core.Core IEEE754.BinarySingleNaN IEEE754.Binary IEEE754.Bits.
From Verif Require Import Base M_float S_float L_float L_float2 L_float3 L_float4 M_fchoice S_fchoice L_fchoice.
Import ListNotations.
Local Open Scope R_scope.

Definition near (x : dbl) (y : R) : Prop := bounded (bpow radix2 401) x /\ 0 <= y /\ Rabs (val x - y) <= 3 * u * y.

Lemma pow_bpow n : 2 ^ n = bpow radix2 (Z.of_nat n).
Proof. rewrite bpow_powerRZ. apply pow_powerRZ. Qed.
Lemma pow_bpow_inv n : / 2 ^ n = bpow radix2 (- Z.of_nat n).
Proof. rewrite pow_bpow, bpow_opp. reflexivity. Qed.

Lemma near_self x : frequency x -> near x (val x).
Proof.
  intros (F & H). rewrite pow_bpow_inv, pow_bpow in H. change (Z.of_nat 400) with 400%Z in H. pose proof (bpow_gt_0 radix2 (- (400))) as P. pose proof (@bpow_le radix2 400 401 ltac:(lia)) as Q. pose proof (bpow_gt_0 radix2 400). pose proof u_pos.
  assert (0 <= val x <= bpow radix2 401) by (destruct H as [->|]; lra). split; [split; [exact F|lra]|]. split; [lra|]. rewrite Rminus_diag_eq, Rabs_R0 by reflexivity. nra.
Qed.
Lemma rel2 x e1 e2 : 0 <= x -> Rabs e1 <= u -> Rabs e2 <= u -> Rabs (x * (1 + e1) * (1 + e2) - x) <= 3 * u * x /\ 0 <= x * (1 + e1) * (1 + e2) <= 2 * x.
Proof.
  intros X A B. pose proof u_pos. pose proof u_small. apply Rabs_le_inv' in A. apply Rabs_le_inv' in B.
  replace (x * (1 + e1) * (1 + e2) - x) with (x * (e1 + e2 + e1 * e2)) by ring.
  assert (C : - (3 * u) <= e1 + e2 + e1 * e2 <= 3 * u) by (split; nra).
  replace (x * (1 + e1) * (1 + e2)) with (x * (1 + (e1 + e2 + e1 * e2))) by ring. split; [apply Rabs_le; split; nra|split; nra].
Qed.
Lemma mul_fin_rel r x : ok r -> ok x -> val r <= 1 -> val x <= bpow radix2 400 -> (val r * val x = 0 \/ bpow radix2 (-1022) <= val r * val x) ->
  ok (mul r x) /\ exists e, Rabs e <= u /\ val (mul r x) = val r * val x * (1 + e).
Proof.
  intros Or Ox R1 X1 H. pose proof Or as [_ R0]. pose proof Ox as [_ X0]. destruct (mul_ok Or Ox) as (A & B).
  { apply Rle_trans with (1 * bpow radix2 400); [apply Rmult_le_compat; lra|]. rewrite Rmult_1_l. apply bpow_le. lia. }
  split; [exact A|]. destruct (rd_rel H) as (e & He & E). exists e. split; [exact He|]. rewrite B. exact E.
Qed.
Lemma mul_comm_val x y : ok x -> ok y -> val x * val y <= bpow radix2 1000 -> is_finite 53 1024 (mul x y) = true /\ val (mul x y) = val (mul y x).
Proof. intros Ox Oy B. destruct (mul_ok Ox Oy B) as ((A & _) & E). rewrite Rmult_comm in B. destruct (mul_ok Oy Ox B) as (_ & E2). split; [exact A|]. rewrite E, E2, Rmult_comm. reflexivity. Qed.

Lemma half_val : ok half /\ val half = / 2.
Proof.
  destruct (@scaled_val 1 (-1)) as (A & B). { rewrite Rmult_1_l. split; [apply bpow_ge_0|apply bpow_le; lia]. }
  split; [exact A|]. unfold half. rewrite B, Rmult_1_l, rd_bpow by lia. reflexivity.
Qed.
Lemma frequency_ok x : frequency x -> ok x /\ val x <= bpow radix2 400 /\ (val x = 0 \/ bpow radix2 (-400) <= val x).
Proof.
  intros (F & H). rewrite pow_bpow_inv, pow_bpow in H. pose proof (bpow_gt_0 radix2 (-400)). pose proof (bpow_gt_0 radix2 400).
  change (- Z.of_nat 400)%Z with (-400)%Z in H. change (Z.of_nat 400) with 400%Z in H. repeat split; try assumption; destruct H; try lra; tauto.
Qed.
Lemma near_half x : frequency x -> near (mul half x) (val x / 2).
Proof.
  intros F. destruct (frequency_ok x F) as (O & X1 & X2). destruct half_val as (Oh & Eh). pose proof O as [_ X0].
  destruct (mul_fin_rel half x) as (A & e & He & E); try assumption; try (rewrite Eh; lra).
  { rewrite Eh. destruct X2 as [->|X2]; [left; ring|right]. apply Rle_trans with (bpow radix2 (-1) * bpow radix2 (-400)); [rewrite <- bpow_plus; apply bpow_le; lia|]. apply Rmult_le_compat; try apply bpow_ge_0; [|exact X2]. right. reflexivity. }
  rewrite Eh in E. replace (/ 2 * val x * (1 + e)) with (val x / 2 * (1 + 0) * (1 + e)) in E by (field).
  destruct (@rel2 (val x / 2) 0 e) as (B & C); [lra|rewrite Rabs_R0; apply Rlt_le, u_pos|exact He|]. rewrite <- E in B, C.
  pose proof (@bpow_le radix2 400 401 ltac:(lia)). destruct A as [A _]. split; [split; [exact A|lra]|]. split; [lra|exact B].
Qed.
Lemma per_confounder_val n : (0 < n)%nat -> INR n <= 2 ^ 19 -> ok (per_confounder n) /\ val (per_confounder n) <= 1 /\ exists e, Rabs e <= u /\ val (per_confounder n) = / INR n * (1 + e).
Proof.
  intros N B. assert (N1 : 1 <= INR n) by (change 1 with (INR 1); apply le_INR; lia). rewrite pow_bpow in B. change (Z.of_nat 19) with 19%Z in B.
  destruct (@scaled_val (Z.of_nat n) 0) as (A & E). { rewrite <- INR_IZR_INZ. change (bpow radix2 0) with 1. pose proof (@bpow_le radix2 19 1000 ltac:(lia)). lra. }
  assert (E2 : val (scaled (Z.of_nat n) 0) = INR n).
  { rewrite E, <- INR_IZR_INZ. change (bpow radix2 0) with 1. rewrite Rmult_1_r. apply rd_fmt. apply generic_format_FLT. exists (Float radix2 (Z.of_nat n) 0).
    - unfold F2R. cbn [Fnum Fexp bpow]. rewrite Rmult_1_r. apply INR_IZR_INZ.
    - cbn [Fnum]. rewrite INR_IZR_INZ in B. change (bpow radix2 19) with (IZR (2 ^ 19)) in B. apply le_IZR in B. change (radix2 ^ 53)%Z with (2 ^ 53)%Z. lia.
    - cbn. lia. }
  destruct one_val as (O1 & V1). destruct (@div_ok one (scaled (Z.of_nat n) 0)) as (X & Y & W); try assumption; rewrite ?V1, ?E2 in *; try lra.
  split; [exact X|]. split; [exact W|]. unfold per_confounder. rewrite Y. unfold Rdiv. rewrite Rmult_1_l. apply rd_rel. right.
  apply Rle_trans with (/ bpow radix2 19); [rewrite <- bpow_opp; apply bpow_le; lia|]. apply Rinv_le; lra.
Qed.
Lemma near_confounder n x : (0 < n)%nat -> INR n <= 2 ^ 19 -> frequency x -> near (mul (per_confounder n) x) (val x / INR n) /\ near (mul x (per_confounder n)) (val x / INR n).
Proof.
  intros N B F. destruct (frequency_ok x F) as (O & X1 & X2). destruct (per_confounder_val n N B) as (Or & R1 & e1 & He1 & Er). pose proof O as [_ X0]. pose proof Or as [_ R0].
  assert (N1 : 1 <= INR n) by (change 1 with (INR 1); apply le_INR; lia).
  assert (Rl : bpow radix2 (-20) <= val (per_confounder n)).
  { rewrite Er. assert (I : bpow radix2 (-19) <= / INR n) by (rewrite pow_bpow in B; change (-19)%Z with (- Z.of_nat 19)%Z; rewrite bpow_opp; apply Rinv_le; lra).
    assert (H : bpow radix2 (-20) = bpow radix2 (-19) * / 2) by (change (-20)%Z with (-19 + -1)%Z; rewrite bpow_plus; reflexivity). pose proof u_small. apply Rabs_le_inv' in He1. pose proof (bpow_gt_0 radix2 (-19)). nra. }
  destruct (mul_fin_rel (per_confounder n) x) as (A & e & He & E); try assumption.
  { destruct X2 as [->|X2]; [left; ring|right]. apply Rle_trans with (bpow radix2 (-20) * bpow radix2 (-400)); [rewrite <- bpow_plus; apply bpow_le; lia|]. apply Rmult_le_compat; try apply bpow_ge_0; assumption. }
  rewrite Er in E. replace (/ INR n * (1 + e1) * val x * (1 + e)) with (val x / INR n * (1 + e1) * (1 + e)) in E by (field; lra).
  assert (Q0 : 0 <= val x / INR n) by (apply Rmult_le_pos; [exact X0|apply Rlt_le, Rinv_0_lt_compat; lra]).
  assert (Q1 : val x / INR n <= val x) by (apply (Rmult_le_reg_r (INR n)); [lra|]; unfold Rdiv; rewrite Rmult_assoc, Rinv_l by lra; nra).
  destruct (@rel2 (val x / INR n) e1 e Q0 He1 He) as (C & D). rewrite <- E in C, D.
  assert (Q2 : 2 * bpow radix2 400 = bpow radix2 401) by (change 401%Z with (1 + 400)%Z; rewrite bpow_plus; reflexivity). destruct A as [A A0].
  split; [split; [split; [exact A|lra]|split; [lra|exact C]]|].
  destruct (mul_comm_val x (per_confounder n)) as (F1 & F2); try assumption. { apply Rle_trans with (bpow radix2 400 * 1); [apply Rmult_le_compat; lra|]. rewrite Rmult_1_r. apply bpow_le. lia. }
  split; [split; [exact F1|rewrite F2; lra]|split; [lra|rewrite F2; exact C]].
Qed.

Lemma near_raw s n c : all_frequencies c -> (0 < n)%nat -> INR n <= 2 ^ 19 -> Forall2 near (raw_weights s n c) (exact_frequencies s n c).
Proof.
  intros (A & B & C & D & E) N H. assert (R2 : forall m (x : dbl) (y : R), near x y -> Forall2 near (repeat x m) (repeat y m)) by (induction m as [|m IH]; intros; cbn; constructor; auto).
  unfold raw_weights, exact_frequencies. destruct s; cbn [app]; repeat (apply Forall2_cons; [first [apply near_self; assumption|apply near_half; assumption]|]); apply R2; apply near_confounder; assumption.
Qed.

Lemma share_close a b i : Forall2 (fun x y => 0 <= y /\ Rabs (x - y) <= 3 * u * y) a b -> 0 < total b -> (i < length b)%nat -> Rabs (share a i - share b i) <= 7 * u /\ 0 < total a.
Proof.
  intros H T Hi. pose proof u_pos as U. pose proof u_small as U1.
  assert (Pb : Forall (fun y => 0 <= y) b) by (clear - H; induction H as [|? ? ? ? [X _]]; constructor; assumption).
  assert (L : length a = length b) by (clear - H; induction H; cbn; congruence).
  destruct (@total_close (3 * u) 0 a b) with (k := length b) as (B & _); [lra|lra| |exact Pb|].
  { clear - H. induction H as [|? ? ? ? [_ X]]; constructor; [rewrite Rplus_0_r; exact X|assumption]. }
  rewrite Rmult_0_r, Rplus_0_r in B. rewrite firstn_all in B. rewrite <- L, firstn_all in B.
  assert (D : Rabs (nth i a 0 - nth i b 0) <= 3 * u * nth i b 0). { clear - H Hi. revert i Hi. induction H as [|? ? ? ? [_ X]]; intros [|i] Hi; cbn in *; try lia; [exact X|apply IHForall2; lia]. }
  apply Rabs_le_inv' in B. apply Rabs_le_inv' in D.
  assert (Ta : 0 < total a) by nra. split; [|exact Ta]. unfold share.
  assert (Bi : 0 <= nth i b 0 <= total b) by (split; [rewrite Forall_forall in Pb; apply Pb, nth_In, Hi|apply nth_le_total, Pb]).
  set (g := nth i b 0 / total b). assert (Eg : g * total b = nth i b 0) by (unfold g; field; lra).
  assert (G : 0 <= g <= 1) by (split; [unfold g; apply Rmult_le_pos; [lra|apply Rlt_le, Rinv_0_lt_compat, T]|apply (Rmult_le_reg_r (total b)); [exact T|]; rewrite Eg; lra]).
  set (h := nth i a 0 / total a). assert (Eh : h * total a = nth i a 0) by (unfold h; field; lra).
  assert (H1 : h <= g + 7 * u) by (apply (Rmult_le_reg_r (total a)); [exact Ta|]; rewrite Eh; nra).
  assert (H2 : g - 7 * u <= h) by (apply (Rmult_le_reg_r (total a)); [exact Ta|]; rewrite Eh; nra).
  apply Rabs_le. lra.
Qed.

(** The weights after normalization meet the hypotheses of the lemmas on [choice]. *)
Lemma chosen_setting s n c : all_frequencies c -> (0 < n)%nat -> INR n <= 2 ^ 19 -> 0 < total (exact_frequencies s n c) ->
  exists p, normalize_weights (raw_weights s n c) = Some p /\ length p = length (exact_frequencies s n c) /\ Forall fraction p /\ INR (length p) <= 2 ^ 20 /\
  length p = length (vals (raw_weights s n c)) /\ Forall (fun y => 0 <= y) (vals (raw_weights s n c)) /\ 0 < total (vals (raw_weights s n c)) /\
  (forall i, (i < length p)%nat -> Rabs (val (nth i p zero) - share (vals (raw_weights s n c)) i) <= 5 * INR (length p) * u * share (vals (raw_weights s n c)) i + u * bpow radix2 (-1022)) /\
  (forall i, (i < length p)%nat -> nth i (vals (raw_weights s n c)) 0 = 0 -> val (nth i p zero) = 0) /\
  (forall i, (i < length p)%nat -> Rabs (share (vals (raw_weights s n c)) i - share (exact_frequencies s n c) i) <= 7 * u) /\
  (forall i, (i < length p)%nat -> 0 < nth i (vals (raw_weights s n c)) 0 -> 0 < nth i (exact_frequencies s n c) 0).
Proof.
  intros A N B T. pose proof (near_raw s n c A N B) as H. set (l := raw_weights s n c) in *. set (v := exact_frequencies s n c) in *. pose proof u_pos as U.
  assert (L : length l = length v) by (clear - H; induction H; cbn; congruence).
  assert (Fl : Forall (bounded (bpow radix2 401)) l) by (clear - H; induction H as [|? ? ? ? [X _]]; constructor; assumption).
  assert (H2 : Forall2 (fun x y => 0 <= y /\ Rabs (x - y) <= 3 * u * y) (vals l) v) by (clear - H; induction H as [|? ? ? ? [_ X]]; constructor; assumption).
  assert (Ln : INR (length v) <= 2 ^ 20).
  { unfold v, exact_frequencies. rewrite app_length, repeat_length, plus_INR. assert (X : INR (length (if s then [val (f_clusters c) / 2; val (f_clusters c) / 2; val (f_source c); val (f_weights c); val (f_cluster_effect c)] else [val (f_clusters c); val (f_weights c); val (f_cluster_effect c)])) <= 5) by (destruct s; cbn; lra). cbn [pow] in *. lra. }
  assert (Sm : small (length l)).
  { rewrite L. unfold small. apply Rle_trans with (2 ^ 20 * u); [apply Rmult_le_compat_r; lra|]. rewrite pow_bpow. unfold u. rewrite <- bpow_plus. replace (/1024) with (bpow radix2 (-10)) by (cbn; lra). apply bpow_le. lia. }
  assert (HN : INR (length l) * bpow radix2 401 <= bpow radix2 900).
  { rewrite L. apply Rle_trans with (2 ^ 20 * bpow radix2 401); [apply Rmult_le_compat_r; [apply bpow_ge_0|exact Ln]|]. rewrite pow_bpow, <- bpow_plus. apply bpow_le. lia. }
  assert (Ne : (0 < length v)%nat) by (unfold v, exact_frequencies; destruct s; cbn; lia).
  destruct (share_close (vals l) v 0 H2 T Ne) as (_ & Tl).
  destruct (@normalize_weights_ok (bpow radix2 401) l (bpow_ge_0 _ _) HN Sm Fl Tl) as (p & E & Lp & Fp & Q). exists p.
  split; [exact E|]. split; [lia|]. split; [exact Fp|]. split; [rewrite Lp, L; exact Ln|]. split; [unfold vals; rewrite map_length; exact Lp|]. split; [apply bounded_nonneg with (bpow radix2 401), Fl|]. split; [exact Tl|].
  split; [intros i Hi; rewrite Lp in *; apply Q, Hi|]. split; [intros i Hi Z; rewrite Lp in Hi; rewrite nth_vals in Z; apply Q; assumption|].
  split; [intros i Hi; apply share_close; [exact H2|exact T|lia]|].
  intros i Hi X. assert (D : 0 <= nth i v 0 /\ Rabs (nth i (vals l) 0 - nth i v 0) <= 3 * u * nth i v 0).
  { rewrite Lp, L in Hi. clear - H2 Hi. revert i Hi. induction H2 as [|? ? ? ? Y]; intros [|i] Hi; cbn in *; try lia; [exact Y|apply IHForall2; lia]. }
  destruct D as [D0 D]. destruct (Req_dec (nth i v 0) 0) as [Z|Z]; [|lra]. rewrite Z, Rmult_0_r in D. apply Rabs_le_inv' in D. lra.
Qed.

(** No exception, and an operator with frequency zero is never chosen. *)
Theorem C103_chosen : forall s n c k, all_frequencies c -> (0 < n)%nat -> INR n <= 2 ^ 19 -> 0 < total (exact_frequencies s n c) -> (0 <= k < 2 ^ 53)%Z ->
  exists i, choose_operator s n c k = Some i /\ (i < length (exact_frequencies s n c))%nat /\ 0 < nth i (exact_frequencies s n c) 0.
Proof.
  intros s n c k A N B T Hk. destruct (chosen_setting s n c A N B T) as (p & E & L & Fp & Sp & Lv & Pv & Tv & Q & Z & _ & Pos).
  destruct (@choice_iff p (vals (raw_weights s n c)) Fp Sp Lv Pv Tv Q Z k Hk) as (i & C & Hi & _ & _ & P). exists i. unfold choose_operator. destruct (Nat.eqb_spec n 0) as [N0|_]; [lia|]. rewrite E.
  split; [exact C|]. split; [rewrite <- L; exact Hi|]. apply Pos; assumption.
Qed.
Print Assumptions C103_chosen.

(** Every operator is chosen with its share of the configured frequencies, up to m / 2^47 for m operators. *)
Theorem C103_distribution : forall s n c i, all_frequencies c -> (0 < n)%nat -> INR n <= 2 ^ 19 -> 0 < total (exact_frequencies s n c) -> (i < length (exact_frequencies s n c))%nat ->
  Rabs (probability (fun k => match choose_operator s n c k with Some j => Nat.eqb j i | None => false end) - share (exact_frequencies s n c) i) <= INR (length (exact_frequencies s n c)) / 2 ^ 47.
Proof.
  intros s n c i A N B T Hi. destruct (chosen_setting s n c A N B T) as (p & E & L & Fp & Sp & Lv & Pv & Tv & Q & Z & Sh & _).
  unfold choose_operator. destruct (Nat.eqb_spec n 0) as [N0|_]; [lia|]. rewrite E. rewrite <- L in Hi. pose proof (@choice_probability p (vals (raw_weights s n c)) Fp Sp Lv Pv Tv Q Z i Hi) as X. pose proof (Sh i Hi) as Y.
  rewrite L in X. set (m := length (exact_frequencies s n c)) in *. assert (M : 1 <= INR m) by (change 1 with (INR 1); apply le_INR; lia). pose proof u_pos as U.
  replace (INR m / 2 ^ 47) with (64 * INR m * u).
  2:{ unfold Rdiv. rewrite pow_bpow_inv. change 64 with (bpow radix2 6). unfold u. rewrite (Rmult_comm (bpow radix2 6)), Rmult_assoc, <- bpow_plus. reflexivity. }
  apply Rabs_le_inv' in X. apply Rabs_le_inv' in Y. assert (u <= INR m * u) by nra. apply Rabs_le. lra.
Qed.
Print Assumptions C103_distribution.

(** Outside this range the normalization fails: finite frequencies can have an infinite sum, and half of
    the smallest double is zero. *)
Definition huge : dbl := scaled 1 1023.
Definition tiny : dbl := scaled 1 (-1074).
Definition fq (a b c d e : dbl) : frequencies := {| f_clusters := a; f_weights := b; f_cluster_effect := c; f_confounding_effects := d; f_source := e |}.
Theorem C103_overflow : exists c, Forall (fun x => is_finite 53 1024 x = true /\ ltb x zero = false) [f_clusters c; f_weights c; f_cluster_effect c; f_confounding_effects c; f_source c] /\
  (exists x, In x (raw_weights false 1 c) /\ ltb zero x = true) /\ forall k, choose_operator false 1 c k = None.
Proof.
  exists (fq huge huge huge zero zero). split; [repeat constructor|]. split; [exists huge; split; [left; reflexivity|vm_compute; reflexivity]|].
  intros k. unfold choose_operator. cbn [Nat.eqb]. destruct (normalize_weights (raw_weights false 1 (fq huge huge huge zero zero))) as [p|] eqn:E; [|reflexivity].
  unfold choice. assert (C : match normalize_weights (raw_weights false 1 (fq huge huge huge zero zero)) with Some q => checked q | None => false end = false) by (vm_compute; reflexivity).
  rewrite E in C. rewrite C. reflexivity.
Qed.
Print Assumptions C103_overflow.
Theorem C103_underflow : exists c, Forall (fun x => is_finite 53 1024 x = true /\ ltb x zero = false) [f_clusters c; f_weights c; f_cluster_effect c; f_confounding_effects c; f_source c] /\
  ltb zero (f_clusters c) = true /\ forall k, choose_operator true 1 c k = None.
Proof.
  exists (fq tiny zero zero zero zero). split; [repeat constructor|]. split; [vm_compute; reflexivity|].
  intros k. unfold choose_operator. cbn [Nat.eqb]. destruct (normalize_weights (raw_weights true 1 (fq tiny zero zero zero zero))) as [p|] eqn:E; [|reflexivity].
  exfalso. assert (C : match normalize_weights (raw_weights true 1 (fq tiny zero zero zero zero)) with Some q => false | None => true end = true) by (vm_compute; reflexivity).
  rewrite E in C. discriminate.
Qed.
Print Assumptions C103_underflow.

(** The default frequencies with two confounders, and with weights and effects switched off. *)
Definition int (m : Z) : dbl := scaled m 0.
Lemma int_frequency m : (1 <= m <= 100)%Z -> frequency (int m).
Proof.
  intros H. pose proof (IZR_le 1 m ltac:(lia)) as A. pose proof (IZR_le m 100 ltac:(lia)) as B.
  destruct (@scaled_val m 0) as ((F & _) & E). { change (bpow radix2 0) with 1. rewrite Rmult_1_r. split; [lra|]. apply Rle_trans with (bpow radix2 7); [cbn; lra|apply bpow_le; lia]. }
  split; [exact F|]. right. change (val (int m)) with (val (scaled m 0)). rewrite E. change (bpow radix2 0) with 1. rewrite Rmult_1_r. split.
  - rewrite pow_bpow_inv. apply Rle_trans with 1; [apply (bpow_le radix2 (-400) 0); lia|]. rewrite <- (rd_fmt fmt_1). apply rd_le, A.
  - rewrite pow_bpow. change (Z.of_nat 400) with 400%Z. rewrite <- (@rd_bpow 400) by lia. apply rd_le. apply Rle_trans with (bpow radix2 7); [cbn; lra|apply bpow_le; lia].
Qed.
Lemma zero_frequency : frequency zero. Proof. split; [reflexivity|left; reflexivity]. Qed.
Lemma int_pos m : (1 <= m <= 100)%Z -> 0 < val (int m).
Proof.
  intros Hm. destruct (int_frequency m Hm) as (_ & [Z|[Z _]]); [|eapply Rlt_le_trans; [|exact Z]; apply Rinv_0_lt_compat, pow_lt; lra].
  exfalso. destruct (@scaled_val m 0) as (_ & E). { pose proof (IZR_le 1 m ltac:(lia)). pose proof (IZR_le m 100 ltac:(lia)). change (bpow radix2 0) with 1. rewrite Rmult_1_r. split; [lra|]. apply Rle_trans with (bpow radix2 7); [cbn; lra|apply bpow_le; lia]. }
  unfold int in Z. rewrite E in Z. change (bpow radix2 0) with 1 in Z. rewrite Rmult_1_r in Z. pose proof (rd_le (IZR_le 1 m ltac:(lia))) as X. rewrite (rd_fmt fmt_1) in X. lra.
Qed.
Definition C103_defaults : frequencies := fq (int 45) (int 15) (int 5) (int 15) (int 10).
(** At least one confounder is needed as well: without one, the share of each is a division by zero for
    every setting of the frequencies (as in exact arithmetic, C50_no_confounders_refuted). *)
Theorem C103_no_confounders : exists c, all_frequencies c /\ 0 < total (exact_frequencies true 0 c) /\ forall s k, choose_operator s 0 c k = None.
Proof.
  exists C103_defaults. split; [repeat split; try (apply int_frequency; lia)|]. split; [|reflexivity].
  unfold exact_frequencies, C103_defaults, fq. cbn [f_clusters f_weights f_cluster_effect f_confounding_effects f_source repeat app total].
  pose proof (int_pos 45%Z ltac:(lia)). pose proof (int_pos 15%Z ltac:(lia)). pose proof (int_pos 5%Z ltac:(lia)). pose proof (int_pos 10%Z ltac:(lia)). lra.
Qed.
Print Assumptions C103_no_confounders.
Example C103_case : all_frequencies (fq (int 45) (int 15) (int 5) (int 15) (int 10)) /\ 0 < total (exact_frequencies true 2 (fq (int 45) (int 15) (int 5) (int 15) (int 10))) /\
  all_frequencies (fq (int 45) zero zero zero (int 10)) /\
  map (choose_operator true 2 (fq (int 45) (int 15) (int 5) (int 15) (int 10))) [0; 2 ^ 51; 2 ^ 52; 3 * 2 ^ 51; 2 ^ 53 - 1]%Z = map Some [0; 1; 2; 3; 6]%nat /\
  map (choose_operator true 2 (fq (int 45) zero zero zero (int 10))) [0; 2 ^ 51; 2 ^ 52; 3 * 2 ^ 51; 2 ^ 53 - 1]%Z = map Some [0; 0; 1; 1; 2]%nat.
Proof.
  split; [repeat split; try (apply int_frequency; lia)|]. split.
  { unfold exact_frequencies, fq. cbn [f_clusters f_weights f_cluster_effect f_confounding_effects f_source repeat app total].
    assert (P : forall m, (1 <= m <= 100)%Z -> 0 < val (int m)). { intros m Hm. destruct (int_frequency m Hm) as (_ & [Z|[Z _]]); [|eapply Rlt_le_trans; [|exact Z]; apply Rinv_0_lt_compat, pow_lt; lra].
      exfalso. destruct (@scaled_val m 0) as (_ & E). { pose proof (IZR_le 1 m ltac:(lia)). pose proof (IZR_le m 100 ltac:(lia)). change (bpow radix2 0) with 1. rewrite Rmult_1_r. split; [lra|]. apply Rle_trans with (bpow radix2 7); [cbn; lra|apply bpow_le; lia]. }
      unfold int in Z. rewrite E in Z. change (bpow radix2 0) with 1 in Z. rewrite Rmult_1_r in Z. pose proof (rd_le (IZR_le 1 m ltac:(lia))) as X. rewrite (rd_fmt fmt_1) in X. lra. }
    pose proof (P 45%Z ltac:(lia)). pose proof (P 15%Z ltac:(lia)). pose proof (P 5%Z ltac:(lia)). pose proof (P 10%Z ltac:(lia)). replace (INR 2) with 2 by (cbn; lra). lra. }
  split; [repeat split; try (apply int_frequency; lia); try (left; reflexivity)|]. split; vm_compute; reflexivity.
Qed.
