(** C102: drawing source assignments in double precision. *)
From Coq Require Import List ZArith Reals Permutation Lra Lia Bool Psatz.
From Flocq Require Import Core.Core IEEE754.BinarySingleNaN IEEE754.Binary IEEE754.Bits.
From Verif Require Import Base M_float S_float L_float L_float2 L_float3 L_float4.
Import ListNotations.
Local Open Scope R_scope.

Lemma bpow_inv e : (0 <= e)%Z -> bpow radix2 (- e) = / 2 ^ Z.to_nat e.
Proof. intros H. rewrite bpow_opp, <- (Z2Nat.id e H) at 1. rewrite bpow_powerRZ. rewrite <- pow_powerRZ. reflexivity. Qed.

Lemma small_of n : INR n <= 2 ^ 40 -> small n.
Proof.
  intros H. unfold small. pose proof u_pos as U. assert (E : 2 ^ 40 * u = bpow radix2 (-13)).
  { replace (2 ^ 40) with (bpow radix2 40) by (rewrite bpow_powerRZ; apply (eq_sym (pow_powerRZ 2 40))). unfold u. rewrite <- bpow_plus. reflexivity. }
  apply Rle_trans with (2 ^ 40 * u); [apply Rmult_le_compat_r; lra|]. rewrite E. replace (/ 1024) with (bpow radix2 (-10)) by (cbn; lra). apply bpow_le. lia.
Qed.

(** A row of masked weights and the products have a positive entry. *)
Lemma positive_entry x i : Forall fraction x -> 0 < val (nth i x zero) -> 0 < total (vals x).
Proof. intros F H. apply Rlt_le_trans with (nth i (vals x) 0); [rewrite nth_vals; exact H|]. apply nth_le_total, vals_nonneg, F. Qed.

Lemma products_positive o1 has w lh i : Forall fraction w -> Forall fraction lh -> length w = length has -> length lh = length has -> order_of o1 (length has) -> small (length has) ->
  nth i has false = true -> bpow radix2 (-500) <= val (nth i w zero) -> bpow radix2 (-500) <= val (nth i lh zero) ->
  0 < total (vals (map2 mul w (map of_bool has))) /\ 0 < total (vals (map2 mul lh (site_weights o1 has w))).
Proof.
  intros Fw Fl Lw Ll O1 Sn H A B.
  assert (Hi : (i < length has)%nat). { destruct (Nat.lt_ge_cases i (length has)) as [X|X]; [exact X|]. rewrite nth_overflow in H by exact X. discriminate. }
  assert (T : 0 < total (vals (map2 mul w (map of_bool has)))).
  { apply positive_entry with i; [apply m_fraction; assumption|]. destruct (@m_nth has w Fw Lw i Hi) as (_ & ->). rewrite H. eapply Rlt_le_trans; [apply (bpow_gt_0 radix2 (-500))|exact A]. }
  split; [exact T|]. apply positive_entry with i; [apply p_fraction; assumption|]. apply p_positive; assumption.
Qed.

(** Partial: the full statement -- every component drawn is available and has a positive weight and
    likelihood -- fails for the draws next to 1 (C102_refuted). It holds for all other draws, and for
    every draw if a component other than the first is returned. *)
Theorem C102_available_partial : forall o1 o2 has w lh k,
  Forall fraction w -> Forall fraction lh -> length w = length has -> length lh = length has -> INR (length has) <= 2 ^ 40 ->
  order_of o1 (length has) -> order_of o2 (length has) ->
  (exists i, nth i has false = true /\ / 2 ^ 500 <= val (nth i w zero) /\ / 2 ^ 500 <= val (nth i lh zero)) ->
  (0 <= k < 2 ^ 53)%Z ->
  let j := draw_source o1 o2 has w lh k in
  (j < length has)%nat /\
  ((nth j has false = true /\ 0 < val (nth j w zero) /\ 0 < val (nth j lh zero)) \/ (j = O /\ (2 ^ 53 - 8 * Z.of_nat (length has) <= k)%Z)).
Proof.
  intros o1 o2 has w lh k Fw Fl Lw Ll Hn O1 O2 (i & H & A & B) Hk j. apply small_of in Hn.
  change (/ 2 ^ 500) with (/ 2 ^ Z.to_nat 500) in A, B. rewrite <- bpow_inv in A, B by lia.
  destruct (@products_positive o1 has w lh i) as (T1 & T2); try assumption.
  destruct (@draw_exact o1 o2 has w lh Fw Fl Lw Ll O1 O2 Hn T1 T2 k Hk) as (X & Y). split; [exact X|]. destruct Y as [Y|Y]; [left|right; exact Y].
  unfold j. rewrite exact_nth in Y by assumption. set (d := draw_source o1 o2 has w lh k) in *. destruct (nth d has false); [|lra]. split; [reflexivity|].
  assert (F1 : fraction (nth d w zero)) by (apply nth_fraction; [exact Fw|rewrite Lw; exact X]).
  assert (F2 : fraction (nth d lh zero)) by (apply nth_fraction; [exact Fl|rewrite Ll; exact X]).
  destruct F1 as [_ F1], F2 as [_ F2]. split; [destruct (Req_dec (val (nth d w zero)) 0) as [E|E]; [rewrite E in Y|]|destruct (Req_dec (val (nth d lh zero)) 0) as [E|E]; [rewrite E in Y|]]; lra.
Qed.
Print Assumptions C102_available_partial.

(** The probability of a component is its exact posterior probability up to n / 2^48. *)
Theorem C102_distribution : forall o1 o2 has w lh,
  Forall fraction w -> Forall fraction lh -> length w = length has -> length lh = length has -> INR (length has) <= 2 ^ 40 ->
  order_of o1 (length has) -> order_of o2 (length has) ->
  (forall i, (i < length has)%nat -> val (nth i w zero) = 0 \/ / 2 ^ 400 <= val (nth i w zero)) ->
  (forall i, (i < length has)%nat -> val (nth i lh zero) = 0 \/ / 2 ^ 400 <= val (nth i lh zero)) ->
  0 < total (exact_terms has w lh) ->
  forall i, (i < length has)%nat ->
  Rabs (probability (fun k => Nat.eqb (draw_source o1 o2 has w lh k) i) - share (exact_terms has w lh) i) <= INR (length has) / 2 ^ 48.
Proof.
  intros o1 o2 has w lh Fw Fl Lw Ll Hn O1 O2 Gw Gl T i Hi. apply small_of in Hn.
  assert (Ex : exists l, (l < length has)%nat /\ nth l (exact_terms has w lh) 0 <> 0).
  { pose proof (@exact_length has w lh Lw Ll) as L. destruct (Exists_dec (fun y => y <> 0) (exact_terms has w lh)) as [E|E].
    - intros y. destruct (Req_EM_T y 0); [right; intros F; apply F; assumption|left; assumption].
    - apply Exists_exists in E as (y & Hy & E). apply (In_nth _ _ 0) in Hy as (l & Hl & <-). exists l. split; [rewrite <- L; exact Hl|exact E].
    - exfalso. assert (Z : forall v, ~ Exists (fun y => y <> 0) v -> total v = 0).
      { induction v as [|y v IH]; intros N; [reflexivity|]. cbn [total]. rewrite IH by (intros F; apply N, Exists_cons_tl, F). destruct (Req_dec y 0) as [->|F]; [ring|]. exfalso. apply N, Exists_cons_hd, F. }
      rewrite (Z _ E) in T. lra. }
  destruct Ex as (l & Hl & El). rewrite exact_nth in El by assumption. destruct (nth l has false) eqn:Hh; [|lra].
  change (/ 2 ^ 400) with (/ 2 ^ Z.to_nat 400) in Gw, Gl. rewrite <- bpow_inv in Gw, Gl by lia. pose proof (@bpow_le radix2 (-500) (-400) ltac:(lia)) as B.
  destruct (@products_positive o1 has w lh l) as (T1 & T2); try assumption.
  { destruct (Gw l Hl) as [E|E]; [rewrite E, Rmult_0_l in El; lra|]. eapply Rle_trans; [exact B|exact E]. }
  { destruct (Gl l Hl) as [E|E]; [rewrite E, Rmult_0_r in El; lra|]. eapply Rle_trans; [exact B|exact E]. }
  eapply Rle_trans; [apply (@draw_probability o1 o2 has w lh); assumption|].
  right. change (2 ^ 48) with (2 ^ Z.to_nat 48). unfold Rdiv. rewrite <- bpow_inv by lia. rewrite (Rmult_comm 32), Rmult_assoc. f_equal.
  change 32 with (bpow radix2 5). unfold u. rewrite <- bpow_plus. reflexivity.
Qed.
Print Assumptions C102_distribution.

(** At most 8 n of the 2^53 draws return a component that is not available. *)
Theorem C102_rare : forall o1 o2 has w lh,
  Forall fraction w -> Forall fraction lh -> length w = length has -> length lh = length has -> INR (length has) <= 2 ^ 40 ->
  order_of o1 (length has) -> order_of o2 (length has) ->
  (exists i, nth i has false = true /\ / 2 ^ 500 <= val (nth i w zero) /\ / 2 ^ 500 <= val (nth i lh zero)) ->
  probability (fun k => negb (nth (draw_source o1 o2 has w lh k) has false)) <= 8 * INR (length has) / 2 ^ 53.
Proof.
  intros o1 o2 has w lh Fw Fl Lw Ll Hn O1 O2 Ex.
  assert (H : forall n, (Z.of_nat n <= 2 ^ 53)%Z -> (Z.of_nat (count (fun k => negb (nth (draw_source o1 o2 has w lh k) has false)) n) <= Z.max 0 (Z.of_nat n - (2 ^ 53 - 8 * Z.of_nat (length has))))%Z).
  { induction n as [|n IH]; intros Hb; [cbn [count]; lia|]. cbn [count]. specialize (IH ltac:(lia)).
    destruct (C102_available_partial o1 o2 has w lh (Z.of_nat n)) as (_ & [(E & _)|(_ & E)]); try assumption; try lia.
    - rewrite E. cbn [negb]. lia.
    - destruct (negb _); lia. }
  specialize (H draws). rewrite draws_Z in H. specialize (H ltac:(lia)). apply IZR_le in H. rewrite <- INR_IZR_INZ in H.
  replace (Z.max 0 (2 ^ 53 - (2 ^ 53 - 8 * Z.of_nat (length has)))) with (8 * Z.of_nat (length has))%Z in H by lia. rewrite mult_IZR, <- INR_IZR_INZ in H.
  rewrite probability_u. unfold Rdiv. change (2 ^ 53) with (2 ^ Z.to_nat 53). rewrite <- bpow_inv by lia. apply Rmult_le_compat_r; [apply bpow_ge_0|exact H].
Qed.
Print Assumptions C102_rare.

(** The full statement is false: an object outside the clusters whose weights for the components are
    0.8, 0.1, 0.1 and whose likelihoods are 0, 0.1 and 0.3 gets the cluster as source if the draw is
    1 - 2^-53, although the weight of the cluster is exactly zero for this object. *)
Definition tenth (m : Z) : dbl := div (scaled m 0) (scaled 10 0).
Definition fw : list dbl := [tenth 8; tenth 1; tenth 1].
Definition fl : list dbl := [zero; tenth 1; tenth 3].
Definition fhas : list bool := [false; true; true].
Definition lr3 : order := left_to_right 2.

Lemma tenth_val m : (0 <= m <= 10)%Z -> fraction (tenth m) /\ val (tenth m) = rd (IZR m / 10).
Proof.
  intros H. assert (E : forall x, (0 <= x <= 10)%Z -> ok (scaled x 0) /\ val (scaled x 0) = IZR x).
  { intros x Hx. pose proof (IZR_le 0 x ltac:(lia)). pose proof (IZR_le x 10 ltac:(lia)). destruct (@scaled_val x 0) as (A & B).
    - change (bpow radix2 0) with 1. rewrite Rmult_1_r. split; [assumption|]. apply Rle_trans with (bpow radix2 4); [cbn; lra|apply bpow_le; lia].
    - split; [exact A|]. rewrite B. change (bpow radix2 0) with 1. rewrite Rmult_1_r. apply rd_fmt. apply generic_format_FLT. exists (Float radix2 x 0); [unfold F2R; cbn [Fnum Fexp bpow]; ring|cbn [Fnum]; rewrite Z.abs_eq by lia; change (radix2 ^ 53)%Z with 9007199254740992%Z; lia|cbn; lia]. }
  destruct (E m H) as (A & B). destruct (E 10%Z ltac:(lia)) as (C & D). apply proj2, IZR_le in H as H2. 
  destruct (div_ok A C) as ((X1 & X2) & Y & Z); rewrite ?B, ?D in *; try lra. split; [split; [exact X1|split; assumption]|exact Y].
Qed.
Lemma tenth_large m : (1 <= m <= 10)%Z -> / 2 ^ 400 <= val (tenth m).
Proof.
  intros H. destruct (tenth_val m ltac:(lia)) as (_ & ->). change (/ 2 ^ 400) with (/ 2 ^ Z.to_nat 400). rewrite <- bpow_inv by lia. change (bpow radix2 (-400) <= rd (IZR m / 10)). rewrite <- (@rd_bpow (-400)) by lia. apply rd_le.
  apply Rle_trans with (bpow radix2 (-4)); [apply bpow_le; lia|]. pose proof (IZR_le 1 m ltac:(lia)). cbn. lra.
Qed.
Lemma fw_fraction : Forall fraction fw. Proof. unfold fw. repeat (apply Forall_cons; [apply tenth_val; lia|]). apply Forall_nil. Qed.
Lemma fl_fraction : Forall fraction fl. Proof. unfold fl. apply Forall_cons; [|repeat (apply Forall_cons; [apply tenth_val; lia|]); apply Forall_nil]. destruct zero_val as ((A & B) & C). split; [exact A|]. rewrite C. lra. Qed.
Lemma lr3_order : order_of lr3 3. Proof. unfold order_of. cbn. apply Permutation_refl. Qed.
Lemma three_small : INR 3 <= 2 ^ 40.
Proof. replace (INR 3) with 3 by (cbn; lra). apply Rle_trans with (2 ^ 2); [lra|]. apply Rle_pow; [lra|lia]. Qed.
Lemma le_500 x : / 2 ^ 400 <= x -> / 2 ^ 500 <= x.
Proof. intros H. eapply Rle_trans; [|exact H]. apply Rinv_le; [apply pow_lt; lra|]. apply Rle_pow; [lra|]. apply leb_complete. vm_compute. reflexivity. Qed.

Theorem C102_refuted : exists o1 o2 has w lh k, Forall fraction w /\ Forall fraction lh /\ length w = length has /\ length lh = length has /\ INR (length has) <= 2 ^ 40 /\
  order_of o1 (length has) /\ order_of o2 (length has) /\ (exists i, nth i has false = true /\ / 2 ^ 500 <= val (nth i w zero) /\ / 2 ^ 500 <= val (nth i lh zero)) /\ (0 <= k < 2 ^ 53)%Z /\
  nth (draw_source o1 o2 has w lh k) has false = false /\ val (nth (draw_source o1 o2 has w lh k) (site_weights o1 has w) zero) = 0.
Proof.
  exists lr3, lr3, fhas, fw, fl, (2 ^ 53 - 1)%Z.
  split; [exact fw_fraction|]. split; [exact fl_fraction|]. split; [reflexivity|]. split; [reflexivity|]. split; [exact three_small|]. split; [exact lr3_order|]. split; [exact lr3_order|].
  split. { exists 1%nat. split; [reflexivity|]. split; apply le_500, tenth_large; lia. }
  split; [lia|].
  assert (E : draw_source lr3 lr3 fhas fw fl (2 ^ 53 - 1) = 0%nat) by (vm_compute; reflexivity). rewrite E. split; [reflexivity|].
  assert (Z : nth 0 (site_weights lr3 fhas fw) zero = zero) by (vm_compute; reflexivity). rewrite Z. apply zero_val.
Qed.
Print Assumptions C102_refuted.

(** The hypotheses hold for the example, with draws of each available component. *)
Example C102_case : Forall fraction fw /\ Forall fraction fl /\ order_of lr3 (length fhas) /\ INR (length fhas) <= 2 ^ 40 /\
  (forall i, (i < 3)%nat -> val (nth i fw zero) = 0 \/ / 2 ^ 400 <= val (nth i fw zero)) /\ (forall i, (i < 3)%nat -> val (nth i fl zero) = 0 \/ / 2 ^ 400 <= val (nth i fl zero)) /\
  0 < total (exact_terms fhas fw fl) /\
  draw_source lr3 lr3 fhas fw fl 0 = 1%nat /\ draw_source lr3 lr3 fhas fw fl (2 ^ 51) = 2%nat /\ draw_source lr3 lr3 fhas fw fl (2 ^ 53 - 2) = 2%nat.
Proof.
  split; [exact fw_fraction|]. split; [exact fl_fraction|]. split; [exact lr3_order|]. split; [exact three_small|].
  split. { intros [|[|[|i]]] Hi; try lia; right; apply tenth_large; lia. }
  split. { intros [|[|[|i]]] Hi; try lia; [left; apply zero_val|right; apply tenth_large; lia|right; apply tenth_large; lia]. }
  split. { unfold exact_terms, fhas, fw, fl. cbn [map2 total]. pose proof (tenth_large 1 ltac:(lia)) as A. pose proof (tenth_large 3 ltac:(lia)) as B. assert (X : 0 < / 2 ^ 400) by (apply Rinv_0_lt_compat, pow_lt; lra). generalize dependent (/ 2 ^ 400). intros. nra. }
  split; [vm_compute; reflexivity|]. split; vm_compute; reflexivity.
Qed.
