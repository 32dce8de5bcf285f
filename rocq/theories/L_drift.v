(** Lemmas for C104: one step keeps the sum of a row up to a few rounding units. *)
From Coq Require Import List ZArith Reals Lra Lia Bool Psatz.
From Flocq Require Import Core.Core IEEE754.BinarySingleNaN IEEE754.Binary IEEE754.Bits.
From Verif Require Import Base M_float S_float L_float L_float2 L_float3 M_drift S_drift.
Import ListNotations.
Set Implicit Arguments.
Unset Strict Implicit.
Local Open Scope R_scope.

Lemma pow2 n : 2 ^ n = bpow radix2 (Z.of_nat n).
Proof. rewrite bpow_powerRZ. apply pow_powerRZ. Qed.

Lemma inv_ok x : ok x -> 0 < val x -> / val x <= bpow radix2 1000 -> ok (div one x) /\ val (div one x) = rd (/ val x).
Proof.
  intros [Fx Px] X B. destruct one_val as ((F1 & _) & V1). unfold ok, val, div, b64_div. unfold val in *.
  match goal with |- context [Bdiv 53 1024 ?a ?b ?n ?m one x] => pose proof (@Bdiv_correct 53 1024 a b n m one x) as H end.
  change (round radix2 (SpecFloat.fexp 53 1024) (round_mode mode_NE)) with rd in H. rewrite V1 in H. unfold Rdiv in H. rewrite Rmult_1_l in H.
  assert (Q0 : 0 < / B2R 53 1024 x) by (apply Rinv_0_lt_compat, X).
  rewrite big in H by (split; [lra|exact B]). destruct H as (H1 & H2 & _); [lra|]. rewrite H1, H2, F1.
  split; [split; [reflexivity|apply rd_nonneg; lra]|reflexivity].
Qed.

Lemma tiny_u : 0 < u * bpow radix2 (-1022) <= u / 1000.
Proof.
  pose proof u_pos. split; [apply Rmult_lt_0_compat; [exact u_pos|apply bpow_gt_0]|]. unfold Rdiv. apply Rmult_le_compat_l; [lra|].
  apply Rle_trans with (bpow radix2 (-10)); [apply bpow_le; lia|cbn; lra].
Qed.
Lemma u_tiny : u <= / 1000000.
Proof. unfold u. apply Rle_trans with (bpow radix2 (-20)); [apply bpow_le; lia|cbn; lra]. Qed.

Lemma draw_ok n c : regular n c -> let '(p, q) := random_dirichlet (ch_g1 c) (ch_g2 c) in ok p /\ ok q /\ Rabs (val p + val q - 1) <= 4 * u.
Proof.
  intros (_ & _ & _ & F1 & F2 & G1 & G2 & A). unfold random_dirichlet. set (g1 := ch_g1 c) in *. set (g2 := ch_g2 c) in *. rewrite pow2 in *. change (Z.of_nat 900) with 900%Z in *.
  assert (O1 : ok g1) by (split; [exact F1|lra]). assert (O2 : ok g2) by (split; [exact F2|lra]). rewrite <- bpow_opp in A. change (- (900))%Z with (-900)%Z in A.
  pose proof u_pos as U. pose proof u_tiny as Us. pose proof tiny_u as Ht. pose proof (bpow_gt_0 radix2 (-900)) as P9.
  assert (B901 : 2 * bpow radix2 900 = bpow radix2 901) by (change 901%Z with (1 + 900)%Z; rewrite bpow_plus; reflexivity).
  destruct (@add_ok g1 g2 O1 O2) as (Oa & Va). { apply Rle_trans with (bpow radix2 901); [lra|apply bpow_le; lia]. }
  destruct (@rd_plus (val g1) (val g2) (fmt_val _) (fmt_val _)) as (e1 & He1 & E1). rewrite E1 in Va. set (T := val g1 + val g2) in *. apply Rabs_le_inv' in He1.
  assert (Tp : 0 < T) by lra. assert (Ap : T / 2 <= val (add g1 g2) <= 2 * T) by (rewrite Va; split; nra). set (acc := add g1 g2) in *.
  assert (Hb : bpow radix2 (-901) = bpow radix2 (-900) / 2) by (change (-901)%Z with (-900 + -1)%Z; rewrite bpow_plus; reflexivity).
  assert (Hc : 2 * bpow radix2 901 = bpow radix2 902) by (change 902%Z with (1 + 901)%Z; rewrite bpow_plus; reflexivity).
  assert (TT : T <= 2 * bpow radix2 900) by (unfold T; lra). assert (Acc : bpow radix2 (-901) <= val acc <= bpow radix2 902) by lra.
  destruct (@inv_ok acc Oa) as (Or & Vr); [lra| |].
  { apply Rle_trans with (/ bpow radix2 (-901)); [apply Rinv_le; [apply bpow_gt_0|lra]|]. rewrite <- bpow_opp. apply bpow_le. lia. }
  destruct (@rd_rel (/ val acc)) as (e2 & He2 & E2). { right. apply Rle_trans with (/ bpow radix2 902); [rewrite <- bpow_opp; apply bpow_le; lia|apply Rinv_le; lra]. }
  rewrite E2 in Vr. set (r := div one acc) in *. apply Rabs_le_inv' in He2.
  set (rho := (1 + e2) / (1 + e1)). assert (Er : val r = rho / T) by (rewrite Vr, Va; unfold rho; field; split; lra).
  assert (Rho : - (3 * u) <= 1000 / 1001 * (rho - 1) * 1.2 <= 3 * u).
  { assert (X : rho * (1 + e1) = 1 + e2) by (unfold rho; field; lra). assert (rho - 1 = (e2 - e1) / (1 + e1)) by (unfold rho; field; lra).
    assert (rho <= 1 + 2.1 * u) by (apply (Rmult_le_reg_r (1 + e1)); [lra|]; rewrite X; nra). assert (1 - 2.1 * u <= rho) by (apply (Rmult_le_reg_r (1 + e1)); [lra|]; rewrite X; nra). lra. }
  assert (Rho2 : Rabs (rho - 1) <= 2.6 * u) by (apply Rabs_le; lra). apply Rabs_le_inv' in Rho2. clear Rho.
  assert (M : forall g, ok g -> val g <= T -> ok (mul g r) /\ exists e h, Rabs e <= u /\ Rabs h <= u * bpow radix2 (-1022) /\ val (mul g r) = val g / T * rho * (1 + e) + h).
  { intros g Og Lg. pose proof Og as [_ Pg]. assert (G : 0 <= val g / T <= 1) by (split; [apply Rmult_le_pos; [lra|apply Rlt_le, Rinv_0_lt_compat, Tp]|apply (Rmult_le_reg_r T); [exact Tp|]; unfold Rdiv; rewrite Rmult_assoc, Rinv_l by lra; lra]).
    assert (Eg : val g * val r = val g / T * rho) by (rewrite Er; field; lra).
    destruct (@mul_ok g r Og Or) as (X & Y). { rewrite Eg. apply Rle_trans with 2; [nra|]. apply (@bpow_le radix2 1 1000). lia. }
    split; [exact X|]. destruct (rd_err (val g * val r)) as (e & h & He & Hh & E). exists e, h. rewrite Y, E, Eg. split; [exact He|]. split; [exact Hh|reflexivity]. }
  destruct (M g1 O1) as (Op & e3 & h3 & He3 & Hh3 & E3); [unfold T; lra|]. destruct (M g2 O2) as (Oq & e4 & h4 & He4 & Hh4 & E4); [unfold T; lra|].
  split; [exact Op|]. split; [exact Oq|]. rewrite E3, E4. apply Rabs_le_inv' in He3. apply Rabs_le_inv' in He4. apply Rabs_le_inv' in Hh3. apply Rabs_le_inv' in Hh4.
  set (x := val g1 / T). set (y := val g2 / T). assert (Exy : x + y = 1) by (unfold x, y, T; field; unfold T in Tp; lra).
  assert (X0 : 0 <= x) by (unfold x; apply Rmult_le_pos; [lra|apply Rlt_le, Rinv_0_lt_compat, Tp]). assert (Y0 : 0 <= y) by (unfold y; apply Rmult_le_pos; [lra|apply Rlt_le, Rinv_0_lt_compat, Tp]).
  assert (D : forall e, - u <= e <= u -> 1 - 3.7 * u <= rho * (1 + e) <= 1 + 3.7 * u) by (intros e He; split; nra).
  pose proof (D e3 He3) as D3. pose proof (D e4 He4) as D4. set (d3 := rho * (1 + e3)) in *. set (d4 := rho * (1 + e4)) in *.
  replace (x * rho * (1 + e3) + h3 + (y * rho * (1 + e4) + h4) - 1) with (x * d3 + y * d4 - 1 + h3 + h4) by (unfold d3, d4; ring).
  assert (- (3.7 * u) <= x * d3 + y * d4 - 1 <= 3.7 * u) by (replace y with (1 - x) in * by lra; split; nra). apply Rabs_le. lra.
Qed.

Lemma set_entry_length i x row : length (set_entry i x row) = length row.
Proof. revert i. induction row as [|y r IH]; intros [|i]; cbn; congruence. Qed.
Lemma nth_set_entry_same i x row : (i < length row)%nat -> nth i (set_entry i x row) zero = x.
Proof. revert i. induction row as [|y r IH]; intros [|i] H; cbn in *; try lia; [reflexivity|apply IH; lia]. Qed.
Lemma nth_set_entry_other i j x row : i <> j -> nth j (set_entry i x row) zero = nth j row zero.
Proof. revert i j. induction row as [|y r IH]; intros [|i] [|j] H; cbn; try lia; try reflexivity. apply IH. lia. Qed.
Lemma total_set_entry i x row : (i < length row)%nat -> total (map val (set_entry i x row)) = total (map val row) - val (nth i row zero) + val x.
Proof. revert i. induction row as [|y r IH]; intros [|i] H; cbn in *; try lia; [lra|]. rewrite IH by lia. lra. Qed.
Lemma Forall_set_entry (P : dbl -> Prop) i x row : Forall P row -> P x -> Forall P (set_entry i x row).
Proof. intros F H. revert i. induction F as [|y r A B IH]; intros [|i]; cbn; constructor; auto. Qed.

Lemma pair_le_total i j row : Forall ok row -> i <> j -> (i < length row)%nat -> (j < length row)%nat -> val (nth i row zero) + val (nth j row zero) <= total (map val row).
Proof.
  intros F N Hi Hj. pose proof (@total_set_entry i zero row Hi) as E. assert (G : Forall (fun y => 0 <= y) (map val (set_entry i zero row))).
  { apply Forall_map. apply Forall_set_entry; [eapply Forall_impl; [|exact F]; intros a [_ H]; exact H|]. cbn. lra. }
  pose proof (@nth_le_total (map val (set_entry i zero row)) j G) as H. change 0 with (val zero) in H at 1. rewrite map_nth in H. rewrite nth_set_entry_other in H by exact N.
  change (val zero) with 0 in E. lra.
Qed.

Lemma proposed_ok n c row d : regular n c -> length row = n -> on_simplex d row -> d <= / 8 -> exists row', proposed c row = Some row' /\ length row' = n /\ on_simplex (d + 8 * u) row'.
Proof.
  intros Rg L (F & S) D. pose proof (@draw_ok n c Rg) as W. unfold proposed. destruct (random_dirichlet (ch_g1 c) (ch_g2 c)) as [p q]. destruct W as (Op & Oq & Hpq).
  pose proof Op as [Fp Pp]. pose proof Oq as [Fq Pq]. rewrite Fp, Fq. cbn [andb]. destruct Rg as (Hi & Hj & N & _). rewrite <- L in Hi, Hj.
  eexists. split; [reflexivity|]. split; [rewrite !set_entry_length; exact L|].
  pose proof (@pair_le_total (ch_i c) (ch_j c) row F N Hi Hj) as Tl. rewrite Forall_forall in F. pose proof (F _ (nth_In row zero Hi)) as Oa. pose proof (F _ (nth_In row zero Hj)) as Ob. rewrite <- Forall_forall in F.
  set (a := nth (ch_i c) row zero) in *. set (b := nth (ch_j c) row zero) in *. pose proof Oa as [_ Pa]. pose proof Ob as [_ Pb]. apply Rabs_le_inv' in S. apply Rabs_le_inv' in Hpq.
  pose proof u_pos as U. pose proof u_tiny as Us. pose proof tiny_u as Ht.
  assert (B2 : 4 <= bpow radix2 1000) by (apply (@bpow_le radix2 2 1000); lia).
  destruct (@add_ok a b Oa Ob) as (Os & Vs); [lra|]. destruct (@rd_plus (val a) (val b) (fmt_val _) (fmt_val _)) as (e0 & He0 & E0). rewrite E0 in Vs. apply Rabs_le_inv' in He0.
  set (s := add a b) in *. assert (Sb : 0 <= val s <= 1.2) by (rewrite Vs; split; nra).
  assert (M : forall x, ok x -> val x <= 2 -> ok (mul x s) /\ exists e h, Rabs e <= u /\ Rabs h <= u * bpow radix2 (-1022) /\ val (mul x s) = val x * val s * (1 + e) + h).
  { intros x Ox Bx. pose proof Ox as [_ Px]. destruct (@mul_ok x s Ox Os) as (X & Y); [nra|]. split; [exact X|]. destruct (rd_err (val x * val s)) as (e & h & He & Hh & E). exists e, h. rewrite Y, E. auto. }
  destruct (M p Op) as (Oa' & e3 & h3 & He3 & Hh3 & E3); [lra|]. destruct (M q Oq) as (Ob' & e4 & h4 & He4 & Hh4 & E4); [lra|]. apply Rabs_le_inv' in He3. apply Rabs_le_inv' in He4. apply Rabs_le_inv' in Hh3. apply Rabs_le_inv' in Hh4.
  split; [apply Forall_set_entry; [apply Forall_set_entry; [exact F|exact Oa']|exact Ob']|].
  rewrite total_set_entry by (rewrite set_entry_length; exact Hj). rewrite nth_set_entry_other by exact N. rewrite total_set_entry by exact Hi. fold a b. rewrite E3, E4.
  set (k := val p * (1 + e3) + val q * (1 + e4)). assert (K : 1 - 5.1 * u <= k <= 1 + 5.1 * u).
  { assert (X1 : val p * (1 - u) <= val p * (1 + e3) <= val p * (1 + u)) by (split; apply Rmult_le_compat_l; lra). assert (X2 : val q * (1 - u) <= val q * (1 + e4) <= val q * (1 + u)) by (split; apply Rmult_le_compat_l; lra).
    assert (X3 : (val p + val q) * (1 - u) <= k <= (val p + val q) * (1 + u)) by (unfold k; lra). split; nra. }
  assert (K2 : 1 - 6.2 * u <= k * (1 + e0) <= 1 + 6.2 * u) by (split; nra).
  assert (Eq : val p * val s * (1 + e3) + val q * val s * (1 + e4) = (val a + val b) * (k * (1 + e0))) by (rewrite Vs; unfold k; ring).
  assert (Q : - (7.1 * u) <= (val a + val b) * (k * (1 + e0)) - (val a + val b) <= 7.1 * u) by (assert (Hab : 0 <= val a + val b <= 1.13) by lra; revert Hab K2; generalize (val a + val b) (k * (1 + e0)); intros ab kk Hab K2; split; nra).
  apply Rabs_le. lra.
Qed.

Lemma change_rows_ok n cs : forall row d, Forall (regular n) cs -> length row = n -> on_simplex d row -> d + INR (length cs) * (8 * u) <= / 8 -> on_simplex (d + INR (length cs) * (8 * u)) (change_rows cs row).
Proof.
  pose proof u_pos as U. assert (W : forall d e row, d <= e -> on_simplex d row -> on_simplex e row) by (intros d e row H (A & B); split; [exact A|lra]).
  induction cs as [|c cs IH]; intros row d F L S B.
  - cbn. apply W with d; [lra|exact S].
  - apply Forall_cons_iff in F. destruct F as [Rc F]. cbn [length] in *. rewrite S_INR in *. pose proof (pos_INR (length cs)). assert (0 <= INR (length cs) * u) by nra.
    destruct (@proposed_ok n c row d Rc L S) as (row' & E & L' & S'); [lra|].
    assert (X : exists r1, change_row row c = r1 /\ length r1 = n /\ on_simplex (d + 8 * u) r1).
    { unfold change_row. rewrite E. destruct (ch_accept c); eexists; split; try reflexivity; split; try assumption. apply W with d; [lra|exact S]. }
    destruct X as (r1 & E1 & L1 & S1). change (change_rows (c :: cs) row) with (change_rows cs (change_row row c)). rewrite E1.
    apply W with ((d + 8 * u) + INR (length cs) * (8 * u)); [lra|]. apply IH; [exact F|exact L1|exact S1|lra].
Qed.
