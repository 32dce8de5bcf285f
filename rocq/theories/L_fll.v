(** Lemmas: sums of doubles of either sign, one mixture, and logarithms of perturbed numbers. *)
From Coq Require Import List ZArith Reals Permutation Lra Lia Bool Psatz.
From Flocq Require Import Core.Core IEEE754.BinarySingleNaN IEEE754.Binary IEEE754.Bits.
From Verif Require Import Base M_float S_float L_float L_float2 L_float3 L_float4 M_fchoice L_fchoice M_fll S_fll.
Import ListNotations.
Set Implicit Arguments.
Unset Strict Implicit.
Local Open Scope R_scope.

(** ** Sums in any order *)
Lemma sum_signed o x B : 0 <= B -> (forall i, In i (leaves o) -> fin (nth i x zero) /\ Rabs (val (nth i x zero)) <= B) -> INR (length (leaves o)) * u <= / 1024 -> 2 * (INR (length (leaves o)) * B) <= bpow radix2 1000 ->
  let T := total (map (fun i => val (nth i x zero)) (leaves o)) in let A := total (map (fun i => Rabs (val (nth i x zero))) (leaves o)) in
  fin (sum_in o x) /\ Rabs (val (sum_in o x) - T) <= 2 * (INR (length (leaves o)) - 1) * u * A /\ Rabs T <= A /\ A <= INR (length (leaves o)) * B /\ 1 <= INR (length (leaves o)).
Proof.
  intros HB. pose proof u_pos as Hu. induction o as [i|l IHl r IHr]; cbn [leaves sum_in]; intros H Hn Hb; cbv zeta.
  - destruct (H i (or_introl eq_refl)) as (F & L). cbn [length map total In]. change (INR 1) with 1. rewrite !Rplus_0_r.
    split; [exact F|]. split; [rewrite Rminus_diag_eq, Rabs_R0 by reflexivity; lra|]. repeat split; lra.
  - rewrite !map_app, !total_app, app_length, plus_INR in *. set (a := INR (length (leaves l))) in *. set (b := INR (length (leaves r))) in *.
    assert (A0 : 0 <= a) by apply pos_INR. assert (B0 : 0 <= b) by apply pos_INR.
    assert (Au : 0 <= a * u) by (apply Rmult_le_pos; lra). assert (Bu : 0 <= b * u) by (apply Rmult_le_pos; lra).
    assert (AB : 0 <= a * B) by (apply Rmult_le_pos; lra). assert (BB : 0 <= b * B) by (apply Rmult_le_pos; lra).
    destruct IHl as (Fl & El & Tl & Al & Nl); [intros i Hi; apply H, in_or_app; left; exact Hi|lra|lra|].
    destruct IHr as (Fr & Er & Tr & Ar & Nr); [intros i Hi; apply H, in_or_app; right; exact Hi|lra|lra|].
    set (tl := total (map (fun i => val (nth i x zero)) (leaves l))) in *. set (tr := total (map (fun i => val (nth i x zero)) (leaves r))) in *.
    set (al := total (map (fun i => Rabs (val (nth i x zero))) (leaves l))) in *. set (ar := total (map (fun i => Rabs (val (nth i x zero))) (leaves r))) in *.
    set (sl := val (sum_in l x)) in *. set (sr := val (sum_in r x)) in *. set (y := a * u) in *. set (z := b * u) in *.
    assert (P1 : 0 <= al) by (pose proof (Rabs_pos tl); lra). assert (P2 : 0 <= ar) by (pose proof (Rabs_pos tr); lra).
    replace (2 * (a - 1) * u * al) with (2 * (y - u) * al) in El by (unfold y; ring). replace (2 * (b - 1) * u * ar) with (2 * (z - u) * ar) in Er by (unfold z; ring).
    assert (Y1 : u <= y) by (unfold y; nra). assert (Z1 : u <= z) by (unfold z; nra). replace ((a + b) * u) with (y + z) in Hn by (unfold y, z; ring).
    assert (E1 : Rabs (sl + sr - (tl + tr)) <= 2 * (y - u) * al + 2 * (z - u) * ar). { replace (sl + sr - (tl + tr)) with ((sl - tl) + (sr - tr)) by ring. eapply Rle_trans; [apply Rabs_triang|]. lra. }
    assert (E2 : Rabs (sl + sr) <= al + ar + (2 * (y - u) * al + 2 * (z - u) * ar)). { replace (sl + sr) with ((sl + sr - (tl + tr)) + (tl + tr)) by ring. eapply Rle_trans; [apply Rabs_triang|]. pose proof (Rabs_triang tl tr). lra. }
    assert (E3 : 2 * (y - u) * al + 2 * (z - u) * ar <= 2 * (y + z - 2 * u) * (al + ar)). { assert (0 <= (z - u) * al) by (apply Rmult_le_pos; lra). assert (0 <= (y - u) * ar) by (apply Rmult_le_pos; lra). lra. }
    assert (E4 : Rabs (sl + sr) <= 2 * (al + ar)). { assert (2 * (y + z - 2 * u) * (al + ar) <= al + ar); [|lra]. rewrite <- (Rmult_1_l (al + ar)) at 2. apply Rmult_le_compat_r; lra. }
    destruct (@add_fin (sum_in l x) (sum_in r x) Fl Fr) as (F & e & He & E). { fold sl sr. lra. } fold sl sr in E. split; [exact F|]. rewrite E.
    split. { replace ((sl + sr) * (1 + e) - (tl + tr)) with ((sl + sr - (tl + tr)) + (sl + sr) * e) by ring. eapply Rle_trans; [apply Rabs_triang|]. rewrite Rabs_mult.
      assert (Rabs (sl + sr) * Rabs e <= 2 * (al + ar) * u) by (apply Rmult_le_compat; try apply Rabs_pos; assumption).
      replace (2 * (a + b - 1) * u * (al + ar)) with (2 * (y + z - 2 * u) * (al + ar) + 2 * (al + ar) * u) by (unfold y, z; ring). lra. }
    split; [pose proof (Rabs_triang tl tr); lra|]. split; [lra|lra].
Qed.

(** ** Logarithms *)
Lemma ln_near x e : 0 < x -> Rabs e <= / 4 -> Rabs (ln (x * (1 + e)) - ln x) <= 2 * Rabs e.
Proof.
  intros Hx He. pose proof (Rabs_le_inv' He) as H. rewrite ln_mult by lra. replace (ln x + ln (1 + e) - ln x) with (ln (1 + e)) by ring.
  assert (G : forall y, 0 < y -> ln y <= y - 1) by (intros y Hy; pose proof (exp_ineq1_le (ln y)) as X; rewrite exp_ln in X by exact Hy; lra).
  pose proof (G (1 + e) ltac:(lra)) as U. assert (I : 0 < / (1 + e)) by (apply Rinv_0_lt_compat; lra). pose proof (G _ I) as L. rewrite ln_Rinv in L by lra.
  assert (X : / (1 + e) - 1 <= 2 * Rabs e). { assert (Y : / (1 + e) * (1 + e) = 1) by (field; lra). assert (Z : / (1 + e) <= 2) by (apply (Rmult_le_reg_r (1 + e)); lra). pose proof (Rabs_pos e). pose proof (Rle_abs (- e)) as W. rewrite Rabs_Ropp in W. nra. }
  pose proof (Rle_abs e). apply Rabs_le. lra.
Qed.

Lemma positive_large x : fin x -> 0 < val x -> bpow radix2 (-1074) <= val x.
Proof.
  intros F P. pose proof (fmt_val x) as G. unfold fmt in G. unfold generic_format in G. set (m := Ztrunc _) in G. set (e := cexp _ _ _) in G.
  assert (Hm : (0 < m)%Z). { apply lt_IZR. apply (Rmult_lt_reg_r (bpow radix2 e)); [apply bpow_gt_0|]. rewrite Rmult_0_l. rewrite G in P. exact P. }
  rewrite G. unfold F2R. cbn [Fnum Fexp]. apply Rle_trans with (1 * bpow radix2 e).
  - rewrite Rmult_1_l. apply bpow_le. unfold e, cexp, FLT_exp. cbn. lia.
  - apply Rmult_le_compat_r; [apply bpow_ge_0|]. apply (IZR_le 1). lia.
Qed.
Lemma ln_bpow n : - INR n <= ln (bpow radix2 (- Z.of_nat n)).
Proof.
  rewrite bpow_opp, ln_Rinv by apply bpow_gt_0. replace (bpow radix2 (Z.of_nat n)) with (2 ^ n) by (rewrite bpow_powerRZ; apply pow_powerRZ). rewrite ln_pow by lra.
  pose proof (exp_ineq1_le (ln 2)) as X. rewrite exp_ln in X by lra. pose proof (pos_INR n). nra.
Qed.
Lemma ln_size x : fin x -> 0 < val x <= bpow radix2 54 -> Rabs (ln (val x)) <= 1074.
Proof.
  intros F [P Q]. pose proof (positive_large F P) as L. pose proof (@ln_bpow (Z.to_nat 1074)) as B. rewrite Z2Nat.id in B by lia. replace (INR (Z.to_nat 1074)) with 1074 in B by (rewrite INR_IZR_INZ, Z2Nat.id by lia; reflexivity).
  assert (Mono : forall a b, 0 < a -> a <= b -> ln a <= ln b) by (intros a b Ha [H| ->]; [apply Rlt_le, ln_increasing; assumption|lra]).
  pose proof (Mono _ _ (bpow_gt_0 radix2 (-1074)) L) as L1. change (- (1074))%Z with (-1074)%Z in B. pose proof (Mono _ _ P Q) as Q1.
  pose proof (@ln_bpow (Z.to_nat 54)) as B2. rewrite Z2Nat.id in B2 by lia. replace (INR (Z.to_nat 54)) with 54 in B2 by (rewrite INR_IZR_INZ, Z2Nat.id by lia; reflexivity). rewrite bpow_opp, ln_Rinv in B2 by apply bpow_gt_0. apply Rabs_le. lra.
Qed.

Section Mixture.
  Variable (o1 o2 : order) (n : nat) (c : cell).
  Hypothesis (Pc : proper n c) (Sn : small n) (O1 : order_of o1 n) (O2 : order_of o2 n).
  Let m : list dbl := map2 mul (weights c) (map of_bool (has c)).
  Let q : list dbl := map2 mul (site_weights o1 (has c) (weights c)) (lhs c).
  Let p : list dbl := map2 mul (lhs c) (site_weights o1 (has c) (weights c)).

  Lemma available_total : total (vals m) = available (has c) (weights c).
  Proof.
    destruct Pc as (Lh & Lw & Ll & Fw & Fl & T). unfold available. f_equal.
    assert (L1 : length m = n) by (unfold m; rewrite map2_length, map_length, Lw, Lh; apply Nat.min_id).
    apply nth_ext with (d := 0) (d' := 0). { unfold vals. rewrite map_length, L1, map2_length, Lw, Lh, Nat.min_id. reflexivity. }
    intros i Hi. unfold vals in Hi. rewrite map_length, L1 in Hi. rewrite nth_vals. unfold m. destruct (@m_nth (has c) (weights c) Fw ltac:(congruence) i ltac:(lia)) as (_ & ->).
    rewrite (nth_map2 _ false zero) by lia. reflexivity.
  Qed.
  Lemma n_pos : 1 <= INR n.
  Proof.
    destruct Pc as (Lh & Lw & Ll & Fw & Fl & T). apply (le_INR 1). destruct n as [|k]; [|lia]. destruct (has c) as [|b h]; [|discriminate]. cbn in T. lra.
  Qed.
  Lemma m_total : 0 < total (vals m).
  Proof. rewrite available_total. apply Pc. Qed.
  Lemma q_nth i : (i < n)%nat -> fraction (nth i q zero) /\ val (nth i q zero) = val (nth i p zero).
  Proof.
    intros Hi. destruct Pc as (Lh & Lw & Ll & Fw & Fl & T). pose proof m_total as Tm.
    assert (E1 : length (lhs c) = length (has c)) by congruence. assert (E2 : length (weights c) = length (has c)) by congruence. assert (O1' := O1). assert (Sn' := Sn). rewrite <- Lh in O1', Sn'.
    assert (Ls : length (site_weights o1 (has c) (weights c)) = n) by (rewrite <- Lh; apply sw_length, E2).
    assert (Fi : fraction (nth i (lhs c) zero)) by (apply nth_fraction; [exact Fl|lia]).
    destruct (@sw_nth o1 (has c) (weights c) Fw E2 O1' Sn' Tm i ltac:(lia)) as (Fs & _).
    unfold q, p. rewrite !(nth_map2 mul zero zero) by lia. destruct (mul_fraction Fs Fi) as (A & B). destruct (mul_fraction Fi Fs) as (_ & D). split; [exact A|]. rewrite B, D, Rmult_comm. reflexivity.
  Qed.
  Lemma q_length : length q = n.
  Proof.
    destruct Pc as (Lh & Lw & Ll & _). unfold q. rewrite map2_length, Ll. replace (length (site_weights o1 (has c) (weights c))) with n by (rewrite <- Lh; symmetry; apply sw_length; congruence). apply Nat.min_id.
  Qed.
  Lemma q_fraction : Forall fraction q.
  Proof. apply Forall_forall. intros y Hy. apply (In_nth _ _ zero) in Hy as (i & Hi & <-). apply q_nth. rewrite <- q_length. exact Hi. Qed.
  Lemma p_vals : vals q = vals p.
  Proof.
    destruct Pc as (Lh & Lw & Ll & _). assert (Lp : length p = n) by (rewrite <- Lh; apply p_length; congruence).
    apply nth_ext with (d := 0) (d' := 0); [unfold vals; rewrite !map_length, q_length, Lp; reflexivity|]. intros i Hi. unfold vals in Hi. rewrite map_length, q_length in Hi. rewrite !nth_vals. apply q_nth, Hi.
  Qed.
  Lemma mixed_sum : ok (mixed o1 o2 c) /\ Rabs (val (mixed o1 o2 c) - total (vals p)) <= 2 * INR n * u * total (vals p) /\ 0 <= total (vals p).
  Proof.
    pose proof q_length as Lq. assert (Oq := O2). assert (Sq := Sn). rewrite <- Lq in Oq, Sq.
    destruct (row_sum q_fraction Oq Sq) as (A & B & _). rewrite p_vals, Lq in B. split; [exact A|]. split; [exact B|]. rewrite <- p_vals. apply total_nonneg, vals_nonneg, q_fraction.
  Qed.
  Lemma exact_nonneg : 0 <= exact_lh c /\ Forall (fun y => 0 <= y) (exact_terms (has c) (weights c) (lhs c)).
  Proof.
    destruct Pc as (Lh & Lw & Ll & Fw & Fl & T).
    assert (P : Forall (fun y => 0 <= y) (exact_terms (has c) (weights c) (lhs c))).
    { apply Forall_forall. intros y Hy. apply (In_nth _ _ 0) in Hy as (i & Hi & <-). rewrite exact_length in Hi by congruence. rewrite exact_nth by (assumption || congruence). destruct (nth i (has c) false); [|lra].
      assert (F1 : fraction (nth i (weights c) zero)) by (apply nth_fraction; [exact Fw|lia]). assert (F2 : fraction (nth i (lhs c) zero)) by (apply nth_fraction; [exact Fl|lia]).
      destruct F1 as [_ F1], F2 as [_ F2]. apply Rmult_le_pos; lra. }
    split; [|exact P]. unfold exact_lh. apply Rmult_le_pos; [apply total_nonneg, P|apply Rlt_le, Rinv_0_lt_compat, T].
  Qed.
  (** A likelihood of zero is computed as zero. *)
  Lemma mixed_zero : exact_lh c = 0 -> fin (mixed o1 o2 c) /\ val (mixed o1 o2 c) = 0.
  Proof.
    intros Z. destruct mixed_sum as (A & B & C). split; [apply A|]. destruct exact_nonneg as (_ & P). destruct Pc as (Lh & Lw & Ll & Fw & Fl & T).
    assert (Z1 : total (exact_terms (has c) (weights c) (lhs c)) = 0). { unfold exact_lh in Z. apply Rmult_integral in Z as [Z|Z]; [exact Z|]. apply Rinv_0_lt_compat in T. lra. }
    assert (Z2 : total (vals p) = 0).
    { assert (E : forall l, Forall (fun y => y = 0) l -> total l = 0) by (induction 1; cbn; lra). apply E. apply Forall_forall. intros y Hy. apply (In_nth _ _ 0) in Hy as (i & Hi & <-). rewrite nth_vals. unfold vals in Hi. rewrite map_length in Hi. unfold p in Hi. rewrite p_length in Hi by congruence.
      apply p_zero; try assumption; try congruence; try (rewrite Lh; assumption); [apply m_total|]. pose proof (@nth_le_total _ i P) as X. assert (Y : 0 <= nth i (exact_terms (has c) (weights c) (lhs c)) 0) by (rewrite Forall_forall in P; apply P, nth_In; rewrite exact_length; congruence). lra. }
    rewrite Z2 in B. rewrite Rmult_0_r, Rminus_0_r in B. pose proof (Rabs_pos (val (mixed o1 o2 c))). apply Rabs_le_inv' in B. lra.
  Qed.
  (** Otherwise it has a small relative error. *)
  Hypothesis (Gw : Forall not_tiny (weights c)) (Gl : Forall not_tiny (lhs c)).
  Lemma mixed_relative : fin (mixed o1 o2 c) /\ exists e, Rabs e <= 9 * INR n * u /\ val (mixed o1 o2 c) = exact_lh c * (1 + e).
  Proof.
    destruct mixed_sum as (A & B & C). split; [apply A|]. destruct exact_nonneg as (E0 & P). pose proof n_pos as N. destruct Pc as (Lh & Lw & Ll & Fw & Fl & T). pose proof u_pos as U.
    destruct E0 as [E0|E0]. 2:{ exists 0. rewrite Rabs_R0, <- E0, Rmult_0_l. split; [nra|]. apply mixed_zero. auto. }
    assert (E1 : length (lhs c) = length (has c)) by congruence. assert (E2 : length (weights c) = length (has c)) by congruence. assert (O1' := O1). assert (Sn' := Sn). rewrite <- Lh in O1', Sn'. pose proof m_total as Tm.
    assert (B4 : bpow radix2 (-400) = / 2 ^ 400) by (change (-400)%Z with (- (400))%Z; rewrite bpow_opp, bpow_powerRZ; f_equal; apply (eq_sym (pow_powerRZ 2 400))).
    assert (G : forall l i, Forall not_tiny l -> length l = length (has c) -> (i < length (has c))%nat -> val (nth i l zero) = 0 \/ bpow radix2 (-400) <= val (nth i l zero)).
    { intros l i F L Hi. rewrite B4. rewrite Forall_forall in F. apply F, nth_In. rewrite L. exact Hi. }
    set (S := val (sum_in o1 m)). set (X := exact_terms (has c) (weights c) (lhs c)) in *.
    assert (Sb : 0 < S /\ Rabs (S - total (vals m)) <= 2 * INR n * u * total (vals m)).
    { assert (Lm : length m = n) by (unfold m; rewrite <- Lh; apply m_length, E2). split; [apply (@sum_bound o1 (has c) (weights c)); assumption|]. unfold S. rewrite <- Lm at 1. apply row_sum; [apply m_fraction; assumption|rewrite Lm; assumption|rewrite Lm; assumption]. }
    destruct Sb as (S0 & S1). rewrite available_total in S1. set (a := available (has c) (weights c)) in *.
    assert (Px : Forall (fun y => 0 <= y) (map (fun y => y * / S) X)) by (apply Forall_map; apply Forall_impl with (2 := P); intros y Hy; apply Rmult_le_pos; [exact Hy|apply Rlt_le, Rinv_0_lt_compat, S0]).
    destruct (@total_close (3 * u) 0 (vals p) (map (fun y => y * / S) X)) with (k := n) as (D & _); [lra|lra| |exact Px|].
    { apply Forall2_nth_R. - unfold vals. rewrite !map_length. unfold p, X. rewrite p_length, exact_length by assumption. reflexivity.
      - intros i Hi. unfold vals in Hi. rewrite map_length in Hi. unfold p in Hi. rewrite p_length in Hi by assumption. rewrite nth_vals, Rplus_0_r.
        replace (nth i (map (fun y => y * / S) X) 0) with (nth i X 0 * / S) by (rewrite <- (Rmult_0_l (/ S)) at 2; symmetry; apply (@map_nth _ _ (fun y => y * / S))).
        apply p_relative; try assumption; intros j Hj; apply G; assumption. }
    rewrite Rmult_0_r, Rplus_0_r in D. rewrite !firstn_all2 in D.
    2:{ rewrite map_length. unfold X. rewrite exact_length by assumption. lia. }
    2:{ unfold vals. rewrite map_length. unfold p. rewrite p_length by assumption. lia. }
    rewrite total_scale in D. assert (Ex : total X = exact_lh c * a) by (unfold exact_lh; fold X a; field; lra). rewrite Ex in D. set (t := exact_lh c) in *.
    set (r := a / S). assert (Er : r * S = a) by (unfold r; field; lra). replace (t * a * / S) with (t * r) in D by (unfold r; field; lra).
    set (y := INR n * u) in *. assert (Y0 : u <= y) by (unfold y; nra). unfold small in Sn. fold y in Sn.
    replace (2 * INR n * u * a) with (2 * y * a) in S1 by (unfold y; ring). replace (2 * INR n * u * total (vals p)) with (2 * y * total (vals p)) in B by (unfold y; ring). apply Rabs_le_inv' in S1. apply Rabs_le_inv' in B. apply Rabs_le_inv' in D.
    assert (R1 : r <= 1 + 2.01 * y). { apply (Rmult_le_reg_r S); [exact S0|]. rewrite Er. nra. }
    assert (R2 : 1 - 2.01 * y <= r). { apply (Rmult_le_reg_r S); [exact S0|]. rewrite Er. nra. }
    set (tp := total (vals p)) in *. set (v := val (mixed o1 o2 c)) in *. replace (9 * INR n * u) with (9 * y) by (unfold y; ring).
    assert (D1 : tp <= t * (r * (1 + 3 * u))) by lra. assert (D2 : t * (r * (1 - 3 * u)) <= tp) by lra.
    assert (Q1 : r * (1 + 3 * u) <= 1 + 5.1 * y) by nra. assert (Q2 : 1 - 5.1 * y <= r * (1 - 3 * u)) by nra.
    assert (D3 : tp <= t * (1 + 5.1 * y)) by (eapply Rle_trans; [exact D1|]; apply Rmult_le_compat_l; lra). assert (D4 : t * (1 - 5.1 * y) <= tp) by (eapply Rle_trans; [|exact D2]; apply Rmult_le_compat_l; lra).
    exists ((v - t) / t). split; [|field; lra]. unfold Rdiv. rewrite Rabs_mult, (Rabs_pos_eq (/ t)) by (apply Rlt_le, Rinv_0_lt_compat; lra). apply (Rmult_le_reg_r t); [lra|]. rewrite Rmult_assoc, Rinv_l, Rmult_1_r by lra.
    assert (V1 : v <= tp * (1 + 2 * y)) by lra. assert (V2 : tp * (1 - 2 * y) <= v) by lra.
    assert (W1 : tp * (1 + 2 * y) <= t * (1 + 5.1 * y) * (1 + 2 * y)) by (apply Rmult_le_compat_r; lra). assert (W2 : t * (1 - 5.1 * y) * (1 - 2 * y) <= tp * (1 - 2 * y)) by (apply Rmult_le_compat_r; lra).
    assert (ty : 0 <= t * y) by (apply Rmult_le_pos; lra). assert (tyy : 0 <= t * y * y <= t * y * / 1024) by (split; [apply Rmult_le_pos; lra|apply Rmult_le_compat_l; lra]).
    apply Rabs_le. split; lra.
  Qed.
End Mixture.
