(** Lemmas on the choice of an operator in double precision. *)
From Coq Require Import List ZArith Reals Permutation Lra Lia Bool Psatz.
From Flocq Require Import Core.Core IEEE754.BinarySingleNaN IEEE754.Binary IEEE754.Bits.
From Flocq Require Import Plus_error.
From Verif Require Import Base M_float S_float L_float L_float2 L_float3 L_float4 M_fchoice S_fchoice.
From Verif Require M_params.
Import ListNotations.
Set Implicit Arguments.
Unset Strict Implicit.
Local Open Scope R_scope.

(** ** Signed sums and differences *)
Definition fin (x : dbl) : Prop := is_finite 53 1024 x = true.
Lemma big_abs x : Rabs x <= bpow radix2 1000 -> Rlt_bool (Rabs (rd x)) (bpow radix2 1024) = true.
Proof.
  intros B. apply Rabs_le_inv' in B. apply Rlt_bool_true. apply Rle_lt_trans with (bpow radix2 1000); [|apply bpow_lt; lia].
  apply Rabs_le. split.
  - rewrite <- (@rd_bpow 1000) by lia. unfold rd at 1. rewrite <- round_NE_opp. apply rd_le. lra.
  - rewrite <- (@rd_bpow 1000) at 1 by lia. rewrite (@rd_bpow 1000) by lia. rewrite <- (@rd_bpow 1000) by lia. apply rd_le. lra.
Qed.
Lemma add_fin x y : fin x -> fin y -> Rabs (val x + val y) <= bpow radix2 1000 -> fin (add x y) /\ exists e, Rabs e <= u /\ val (add x y) = (val x + val y) * (1 + e).
Proof.
  intros Fx Fy B. unfold fin, val, add, b64_plus.
  match goal with |- context [Bplus 53 1024 ?a ?b ?n ?m x y] => pose proof (@Bplus_correct 53 1024 a b n m x y Fx Fy) as H end.
  change (round radix2 (SpecFloat.fexp 53 1024) (round_mode mode_NE)) with rd in H.
  unfold val in *. rewrite big_abs in H by exact B. destruct H as (H1 & H2 & _). split; [exact H2|]. rewrite H1. apply rd_plus; apply fmt_val.
Qed.
Lemma sub_fin x y : fin x -> fin y -> Rabs (val x - val y) <= bpow radix2 1000 -> fin (sub x y) /\ exists e, Rabs e <= u /\ val (sub x y) = (val x - val y) * (1 + e).
Proof.
  intros Fx Fy B. unfold fin, val, sub, b64_minus.
  match goal with |- context [Bminus 53 1024 ?a ?b ?n ?m x y] => pose proof (@Bminus_correct 53 1024 a b n m x y Fx Fy) as H end.
  change (round radix2 (SpecFloat.fexp 53 1024) (round_mode mode_NE)) with rd in H.
  unfold val in *. rewrite big_abs in H by exact B. destruct H as (H1 & H2 & _). split; [exact H2|]. rewrite H1. unfold Rminus. apply rd_plus; [apply fmt_val|apply generic_format_opp, fmt_val].
Qed.
Lemma abs_fin x : fin x -> fin (absf x) /\ val (absf x) = Rabs (val x).
Proof. intros F. unfold fin, val, absf, b64_abs. rewrite is_finite_Babs, B2R_Babs. split; [exact F|reflexivity]. Qed.
Lemma ltb_fin x y : fin x -> fin y -> (ltb x y = true <-> val x < val y).
Proof.
  intros Fx Fy. unfold ltb, b64_compare. rewrite (@Bcompare_correct 53 1024 x y Fx Fy). fold (val x) (val y).
  destruct (Rcompare_spec (val x) (val y)); split; intros; try congruence; try lra; discriminate.
Qed.
Lemma fin_not_nan x : fin x -> isnan x = false.
Proof. unfold fin, isnan. destruct x; cbn; intros; congruence. Qed.
Lemma small_abs x : Rabs x <= 8 -> Rabs x <= bpow radix2 1000.
Proof. intros H. eapply Rle_trans; [exact H|]. apply Rle_trans with (bpow radix2 3); [cbn; lra|apply bpow_le; lia]. Qed.

(** ** The compensated sum *)
Lemma kahan_step (vs vc vx e1 e2 e3 e4 Q : R) : u <= / 1048576 ->
  Rabs (vs - Q) <= / 8 -> 0 <= Q <= 3 / 2 -> Rabs vc <= 7 * u -> 0 <= vx <= 1 -> Rabs e1 <= u -> Rabs e2 <= u -> Rabs e3 <= u -> Rabs e4 <= u ->
  let y := (vx - vc) * (1 + e1) in let t := (vs + y) * (1 + e2) in let r := (t - vs) * (1 + e3) in
  Rabs (vx - vc) <= 8 /\ Rabs (vs + y) <= 8 /\ Rabs (t - vs) <= 8 /\ Rabs (r - y) <= 8 /\
  Rabs (t - (Q + vx)) <= Rabs (vs - Q) + 12 * u /\ Rabs ((r - y) * (1 + e4)) <= 7 * u.
Proof.
  intros U Hs HQ Hc Hx H1 H2 H3 H4. cbv zeta. pose proof u_pos as U0.
  apply Rabs_le_inv' in H1. apply Rabs_le_inv' in H2. apply Rabs_le_inv' in H3. apply Rabs_le_inv' in H4. apply Rabs_le_inv' in Hc.
  assert (Hs' := Hs). apply Rabs_le_inv' in Hs'.
  set (y := (vx - vc) * (1 + e1)). assert (Y : - (9 * u) <= y - vx <= 9 * u) by (unfold y; split; nra).
  set (g := e2 * (vs + y)). assert (SY : - / 4 <= vs + y <= 3) by lra. assert (G : - (3 * u) <= g <= 3 * u) by (unfold g; split; nra).
  replace ((vs + y) * (1 + e2)) with (vs + y + g) by (unfold g; ring).
  replace (vs + y + g - vs) with (y + g) by ring.
  set (h := e3 * (y + g)). assert (YG : - 2 <= y + g <= 2) by lra. assert (H : - (2 * u) <= h <= 2 * u) by (unfold h; split; nra).
  replace ((y + g) * (1 + e3) - y) with (g + h) by (unfold h; ring).
  split; [apply Rabs_le; lra|]. split; [apply Rabs_le; lra|]. split; [apply Rabs_le; lra|]. split; [apply Rabs_le; lra|].
  split.
  - replace (vs + y + g - (Q + vx)) with ((vs - Q) + (y - vx + g)) by ring. eapply Rle_trans; [apply Rabs_triang|]. apply Rplus_le_compat_l. apply Rabs_le. lra.
  - apply Rabs_le. split; nra.
Qed.

Lemma kahan_ok l : forall s c Q d, u <= / 1048576 -> fin s -> fin c -> Rabs (val c) <= 7 * u -> 0 <= Q -> Q + total (vals l) <= 3 / 2 -> Rabs (val s - Q) <= d -> d + 12 * u * INR (length l) <= / 8 ->
  Forall fraction l -> fin (kahan_from s c l) /\ Rabs (val (kahan_from s c l) - (Q + total (vals l))) <= d + 12 * u * INR (length l).
Proof.
  induction l as [|x l IH]; intros s c Q d U Fs Fc Hc HQ HT Hd Hl F.
  - cbn [kahan_from vals map total length]. split; [exact Fs|]. change (INR 0) with 0. rewrite Rplus_0_r, Rmult_0_r, Rplus_0_r. exact Hd.
  - inversion F as [|? ? [Fx1 Fx2] Fl]; subst. cbn [length] in Hl |- *. rewrite S_INR in Hl |- *. cbn [vals map total] in HT |- *. fold (vals l) in HT |- *.
    pose proof u_pos as U0. pose proof (pos_INR (length l)) as Pl. assert (Pu : 0 <= u * INR (length l)) by (apply Rmult_le_pos; lra).
    assert (Tl : 0 <= total (vals l)) by (apply total_nonneg, vals_nonneg, Fl).
    assert (Hd8 : Rabs (val s - Q) <= / 8) by lra.
    cbn [kahan_from]. cbv zeta.
    assert (Z0 : Rabs 0 <= u) by (rewrite Rabs_R0; lra).
    destruct (@kahan_step (val s) (val c) (val x) 0 0 0 0 Q) as (A1 & _); try assumption; try lra.
    destruct (sub_fin Fx1 Fc (small_abs A1)) as (Fy & e1 & He1 & Ey).
    destruct (@kahan_step (val s) (val c) (val x) e1 0 0 0 Q) as (_ & A2 & _); try assumption; try lra. rewrite <- Ey in A2.
    destruct (add_fin Fs Fy (small_abs A2)) as (Ft & e2 & He2 & Et).
    destruct (@kahan_step (val s) (val c) (val x) e1 e2 0 0 Q) as (_ & _ & A3 & _); try assumption; try lra. rewrite <- Ey, <- Et in A3.
    destruct (sub_fin Ft Fs (small_abs A3)) as (Fr & e3 & He3 & Er).
    destruct (@kahan_step (val s) (val c) (val x) e1 e2 e3 0 Q) as (_ & _ & _ & A4 & _); try assumption; try lra. rewrite <- Ey, <- Et, <- Er in A4.
    destruct (sub_fin Fr Fy (small_abs A4)) as (Fc' & e4 & He4 & Ec).
    destruct (@kahan_step (val s) (val c) (val x) e1 e2 e3 e4 Q) as (_ & _ & _ & _ & A5 & A6); try assumption; try lra. rewrite <- Ey, <- Et, <- Er, <- Ec in A6. rewrite <- Ey, <- Et in A5.
    destruct (IH (add s (sub x c)) (sub (sub (add s (sub x c)) s) (sub x c)) (Q + val x) (d + 12 * u)) as (B1 & B2); try assumption; try lra.
    split; [exact B1|]. replace (Q + (val x + total (vals l))) with (Q + val x + total (vals l)) by ring. eapply Rle_trans; [exact B2|]. lra.
Qed.

Lemma kahan_sum_ok l : u <= / 1048576 -> (0 < length l)%nat -> Forall fraction l -> total (vals l) <= 3 / 2 -> 12 * u * INR (length l) <= / 8 ->
  fin (kahan_sum l) /\ Rabs (val (kahan_sum l) - total (vals l)) <= 12 * u * INR (length l).
Proof.
  intros U N F T L. destruct l as [|x l]; [cbn in N; lia|]. inversion F as [|? ? [Fx1 Fx2] Fl]; subst. cbn [kahan_sum]. cbn [length] in *. rewrite S_INR in *. cbn [vals map total] in *. fold (vals l) in *.
  pose proof u_pos as U0. destruct (@kahan_ok l x zero (val x) 0) as (A & B); try assumption; try lra.
  - reflexivity. - change (val zero) with 0. rewrite Rabs_R0. lra. - rewrite Rminus_diag_eq, Rabs_R0 by reflexivity. lra.
  - split; [exact A|]. eapply Rle_trans; [exact B|]. lra.
Qed.

(** ** The normalized weights *)
Lemma fold_cumsum l : forall acc, l <> [] -> fold_left add l acc = nth (length l - 1) (cumsum_from acc l) zero.
Proof.
  induction l as [|x l IH]; intros acc N; [congruence|]. cbn [fold_left cumsum_from length]. destruct l as [|y l]; [reflexivity|].
  rewrite IH by congruence. replace (Datatypes.S (length (y :: l)) - 1)%nat with (Datatypes.S (length (y :: l) - 1)) by (cbn; lia). reflexivity.
Qed.
Lemma cumsum_from_mono B l acc : 0 <= B -> ok acc -> val acc = 0 -> INR (length l) * B <= bpow radix2 900 -> small (length l) -> Forall (bounded B) l ->
  forall j, (j < length l)%nat -> let c i := nth i (cumsum_from acc l) zero in
  ok (c j) /\ Rabs (val (c j) - total (firstn (Datatypes.S j) (vals l))) <= 2 * INR (length l) * u * total (firstn (Datatypes.S j) (vals l)) /\ val (nth j l zero) <= val (c j) /\ (forall i, (i <= j)%nat -> val (c i) <= val (c j)).
Proof.
  intros HB Oa Ea HN Sm F j Hj. cbv zeta.
  assert (X : forall i, (i < length l)%nat -> let c i := nth i (cumsum_from acc l) zero in
    ok (c i) /\ Rabs (val (c i) - (0 + total (firstn (Datatypes.S i) (vals l)))) <= 2 * (0 + INR (length l)) * u * (0 + total (firstn (Datatypes.S i) (vals l))) /\
    val (match i with O => acc | Datatypes.S i => c i end) <= val (c i) /\ (val (nth i l zero) = 0 -> val (c i) = val (match i with O => acc | Datatypes.S i => c i end)) /\ val (nth i l zero) <= val (c i)).
  { intros i Hi. apply (@cumsum_from_ok B l HB acc 0 0); try assumption; try lra; [unfold small in Sm; lra|]. rewrite Ea, Rminus_0_r, Rabs_R0. lra. }
  destruct (X j Hj) as (A & C & _ & _ & D). rewrite !Rplus_0_l in C. split; [exact A|]. split; [exact C|]. split; [exact D|].
  clear A C D. intros i Hi. induction Hi as [|j Hi IH]; [lra|]. apply Rle_trans with (val (nth j (cumsum_from acc l) zero)); [apply IH; lia|].
  destruct (X (Datatypes.S j) Hj) as (_ & _ & M & _). exact M.
Qed.

Lemma py_sum_ok B l : 0 <= B -> INR (length l) * B <= bpow radix2 900 -> small (length l) -> Forall (bounded B) l -> (0 < length l)%nat ->
  ok (py_sum l) /\ Rabs (val (py_sum l) - total (vals l)) <= 2 * INR (length l) * u * total (vals l) /\ (forall i, (i < length l)%nat -> val (nth i l zero) <= val (py_sum l)).
Proof.
  intros HB HN Sm F N. unfold py_sum. rewrite fold_cumsum by (destruct l; [cbn in N; lia|discriminate]). destruct zero_val as (Oz & Ez).
  destruct (@cumsum_from_mono B l zero HB Oz Ez HN Sm F (length l - 1)) as (A & C & _ & D); [lia|].
  split; [exact A|]. split.
  - replace (Datatypes.S (length l - 1)) with (length (vals l)) in C by (unfold vals; rewrite map_length; lia). rewrite firstn_all in C. exact C.
  - intros i Hi. destruct (@cumsum_from_mono B l zero HB Oz Ez HN Sm F i Hi) as (_ & _ & E & _). eapply Rle_trans; [exact E|]. apply D. lia.
Qed.

Lemma bounded_nonneg B l : Forall (bounded B) l -> Forall (fun y => 0 <= y) (vals l).
Proof. intros H. apply Forall_forall. intros y Hy. apply in_map_iff in Hy as (z & <- & Hz). rewrite Forall_forall in H. destruct (H z Hz). lra. Qed.

Lemma is_zero_val x : ok x -> (is_zero x = true <-> val x = 0).
Proof.
  intros [Fx _]. unfold is_zero, b64_compare. rewrite (@Bcompare_correct 53 1024 x zero Fx eq_refl). fold (val x). change (B2R 53 1024 zero) with 0.
  destruct (Rcompare_spec (val x) 0); split; intros; try congruence; try lra; discriminate.
Qed.

Lemma normalize_weights_ok B l : 0 <= B -> INR (length l) * B <= bpow radix2 900 -> small (length l) -> Forall (bounded B) l -> 0 < total (vals l) ->
  exists p, normalize_weights l = Some p /\ length p = length l /\ Forall fraction p /\
  (forall i, (i < length l)%nat -> Rabs (val (nth i p zero) - share (vals l) i) <= 5 * INR (length l) * u * share (vals l) i + u * bpow radix2 (-1022) /\ (val (nth i l zero) = 0 -> val (nth i p zero) = 0)).
Proof.
  intros HB HN Sm F T. assert (N : (0 < length l)%nat) by (destruct l; [cbn in T; lra|cbn; lia]). assert (N1 : 1 <= INR (length l)) by (change 1 with (INR 1); apply le_INR; lia).
  destruct (py_sum_ok HB HN Sm F N) as (O & E & M). pose proof (bounded_nonneg F) as Pv.
  assert (Sp : 0 < val (py_sum l)).
  { destruct (@quotient_err 0 (val (py_sum l)) (total (vals l)) (INR (length l)) 0 0) as (X & _); try assumption; try lra; rewrite ?Rabs_R0; try (pose proof u_pos; lra).
    apply Rmult_le_pos; [apply Rlt_le, u_pos|apply bpow_ge_0]. }
  exists (map (fun w => div w (py_sum l)) l). unfold normalize_weights.
  destruct (is_zero (py_sum l)) eqn:Z; [apply is_zero_val in Z; [lra|exact O]|]. split; [reflexivity|]. split; [apply map_length|].
  assert (D : forall i, (i < length l)%nat -> fraction (nth i (map (fun w => div w (py_sum l)) l) zero) /\ val (nth i (map (fun w => div w (py_sum l)) l) zero) = rd (val (nth i l zero) / val (py_sum l))).
  { intros i Hi. rewrite (nth_indep _ zero (div zero (py_sum l))) by (rewrite map_length; exact Hi). rewrite (@map_nth _ _ (fun w => div w (py_sum l))).
    assert (Fi : bounded B (nth i l zero)) by (rewrite Forall_forall in F; apply F, nth_In, Hi). destruct Fi as [F1 F2].
    destruct (@div_ok (nth i l zero) (py_sum l)) as (X & Y & W); [split; [exact F1|lra]|exact O|exact Sp|apply M, Hi|]. destruct X. repeat split; try assumption; lra. }
  split.
  - apply Forall_forall. intros y Hy. apply (In_nth _ _ zero) in Hy as (i & Hi & <-). apply D. rewrite map_length in Hi. exact Hi.
  - intros i Hi. destruct (D i Hi) as (_ & ->). split.
    + destruct (rd_err (val (nth i l zero) / val (py_sum l))) as (e & h & He & Hh & ->). unfold share. rewrite nth_vals. apply quotient_err; try assumption.
      rewrite <- nth_vals. split; [|apply nth_le_total, Pv]. rewrite nth_vals. assert (Fi : bounded B (nth i l zero)) by (rewrite Forall_forall in F; apply F, nth_In, Hi). destruct Fi. lra.
    + intros ->. unfold Rdiv. rewrite Rmult_0_l. apply rd_0.
Qed.

(** ** numpy's choice *)
Section Choice.
  Variable (p : list dbl) (v : list R).
  Hypothesis (Fp : Forall fraction p) (Sp : INR (length p) <= 2 ^ 20) (L : length p = length v) (Pv : Forall (fun y => 0 <= y) v) (Tv : 0 < total v).
  Hypothesis (Q : forall i, (i < length p)%nat -> Rabs (val (nth i p zero) - share v i) <= 5 * INR (length p) * u * share v i + u * bpow radix2 (-1022)).
  Hypothesis (Z : forall i, (i < length p)%nat -> nth i v 0 = 0 -> val (nth i p zero) = 0).
  Let n := length p.

  Lemma n_pos : (0 < n)%nat.
  Proof. unfold n. rewrite L. destruct v; [cbn in Tv; lra|cbn; lia]. Qed.
  Lemma nu_small : INR n * u <= bpow radix2 (-33).
  Proof.
    apply Rle_trans with (bpow radix2 20 * u).
    - apply Rmult_le_compat_r; [apply Rlt_le, u_pos|]. eapply Rle_trans; [exact Sp|]. right. rewrite bpow_powerRZ. apply (pow_powerRZ 2 20).
    - unfold u. rewrite <- bpow_plus. right. reflexivity.
  Qed.
  Lemma n_small : small n.
  Proof. unfold small. eapply Rle_trans; [apply nu_small|]. replace (/1024) with (bpow radix2 (-10)) by (cbn; lra). apply bpow_le; lia. Qed.

  Lemma close j : (j < n)%nat -> Rabs (val (nth j (cumsum p) zero) - partial (shares v) j) <= 8 * INR n * u /\ 0 <= partial (shares v) j <= 1 /\ Rabs (partial (vals p) j - partial (shares v) j) <= 6 * INR n * u.
  Proof. apply cumsum_close; try assumption. apply n_small. Qed.
  Lemma partial_last : partial (shares v) (n - 1) = 1.
  Proof. unfold partial. pose proof n_pos. replace (Datatypes.S (n - 1)) with (length (shares v)) by (unfold shares, n in *; rewrite map_length; lia). rewrite firstn_all. apply shares_total, Tv. Qed.
  Lemma total_p : Rabs (total (vals p) - 1) <= 6 * INR n * u.
  Proof. pose proof n_pos as N. destruct (@close (n - 1)) as (_ & _ & A); [lia|]. rewrite partial_last in A. unfold partial in A. replace (Datatypes.S (n - 1)) with (length (vals p)) in A by (unfold vals; rewrite map_length; unfold n in *; lia). rewrite firstn_all in A. exact A. Qed.

  Lemma checked_p : checked p = true.
  Proof.
    pose proof nu_small as Nu. pose proof total_p as T. pose proof u_pos as U. apply Rabs_le_inv' in T.
    assert (B : bpow radix2 (-33) <= / 1048576 * / 64). { replace (/ 1048576 * / 64) with (bpow radix2 (-26)) by (cbn; lra). apply bpow_le; lia. }
    assert (U1 : u <= / 1048576). { replace (/ 1048576) with (bpow radix2 (-20)) by (cbn; lra). apply bpow_le; lia. }
    destruct (@kahan_sum_ok p U1 n_pos Fp) as (A & C); [lra|fold n; lra|]. fold n in C. apply Rabs_le_inv' in C.
    unfold checked. rewrite (fin_not_nan A). cbn [negb andb].
    assert (F : forallb (fun x => negb (ltb x zero)) p = true).
    { apply forallb_forall. intros x Hx. rewrite Forall_forall in Fp. destruct (Fp x Hx) as [F1 F2]. destruct (ltb x zero) eqn:E; [|reflexivity]. apply ltb_fin in E; [change (val zero) with 0 in E; lra|exact F1|reflexivity]. }
    rewrite F. cbn [andb]. destruct one_val as ((O1 & _) & O2).
    destruct (@sub_fin (kahan_sum p) one A O1) as (S1 & e & He & Es). { apply small_abs, Rabs_le. rewrite O2. lra. }
    destruct (abs_fin S1) as (Fa & Ea). destruct (@scaled_val 1 (-26)) as ((At1 & _) & At2). { rewrite Rmult_1_l. split; [apply bpow_ge_0|apply bpow_le; lia]. }
    destruct (ltb atol (absf (sub (kahan_sum p) one))) eqn:E; [|reflexivity]. exfalso. apply ltb_fin in E; [|exact At1|exact Fa].
    unfold atol in E. rewrite At2, Rmult_1_l, rd_bpow, Ea, Es, O2 in E by lia. rewrite Rabs_mult in E.
    assert (X : Rabs (val (kahan_sum p) - 1) <= 18 * (INR n * u)) by (apply Rabs_le; lra).
    assert (Y : Rabs (1 + e) <= 2). { apply Rabs_le_inv' in He. apply Rabs_le. lra. }
    assert (W : Rabs (val (kahan_sum p) - 1) * Rabs (1 + e) <= 36 * (INR n * u)). { apply Rle_trans with (18 * (INR n * u) * 2); [apply Rmult_le_compat; try apply Rabs_pos; assumption|lra]. }
    assert (V : 36 * bpow radix2 (-33) <= bpow radix2 (-26)). { apply Rle_trans with (bpow radix2 6 * bpow radix2 (-33)); [apply Rmult_le_compat_r; [apply bpow_ge_0|cbn; lra]|]. rewrite <- bpow_plus. apply bpow_le. lia. }
    lra.
  Qed.

  Let t (j : nat) : R := val (nth j (cdf p) zero).
  Lemma last_nth A (d : A) l : l <> [] -> last l d = nth (length l - 1) l d.
  Proof. induction l as [|x l IH]; intros N; [congruence|]. destruct l as [|y l]; [reflexivity|]. change (last (x :: y :: l) d) with (last (y :: l) d). rewrite IH by congruence. cbn [length nth]. replace (Datatypes.S (length l) - 0)%nat with (Datatypes.S (length l)) by lia. replace (Datatypes.S (length l) - 1)%nat with (length l) by lia. reflexivity. Qed.
  Let s : dbl := nth (n - 1) (cumsum p) zero.
  Lemma cdf_nth j : (j < n)%nat -> nth j (cdf p) zero = div (nth j (cumsum p) zero) s.
  Proof.
    intros Hj. unfold cdf. cbv zeta. rewrite last_nth by (pose proof n_pos as N; unfold n in N; rewrite <- cumsum_length in N; destruct (cumsum p); [cbn in N; lia|discriminate]). rewrite cumsum_length. fold n. fold s.
    rewrite (nth_indep _ zero (div zero s)) by (rewrite map_length, cumsum_length; exact Hj). apply (@map_nth _ _ (fun x => div x s)).
  Qed.
  Lemma c_mono i j : (i <= j)%nat -> (j < n)%nat -> val (nth i (cumsum p) zero) <= val (nth j (cumsum p) zero).
  Proof. apply (@t_mono p Fp n_small n_pos). Qed.
  Lemma s_pos : ok s /\ 0 < val s.
  Proof.
    pose proof n_pos as N. destruct (@cumsum_ok p Fp n_small (n - 1)) as (A & _); [unfold n in *; lia|]. split; [exact A|].
    destruct (@close (n - 1)) as (B & _); [lia|]. rewrite partial_last in B. fold s in B. pose proof n_small as S1. unfold small in S1. apply Rabs_le_inv' in B. lra.
  Qed.
  Lemma t_ok j : (j < n)%nat -> ok (nth j (cdf p) zero) /\ t j = rd (val (nth j (cumsum p) zero) / val s) /\ t j <= 1.
  Proof.
    intros Hj. destruct s_pos as (Os & Ps). destruct (@cumsum_ok p Fp n_small j Hj) as (A & _). unfold t. rewrite cdf_nth by exact Hj.
    apply div_ok; try assumption. apply c_mono; lia.
  Qed.
  Lemma cdf_mono i j : (i <= j)%nat -> (j < n)%nat -> t i <= t j.
  Proof.
    intros Hij Hj. destruct (t_ok Hj) as (_ & -> & _). destruct (@t_ok i) as (_ & -> & _); [lia|]. apply rd_le. destruct s_pos as (_ & Ps). apply Rmult_le_compat_r; [apply Rlt_le, Rinv_0_lt_compat, Ps|]. apply c_mono; assumption.
  Qed.
  Lemma t_last : t (n - 1) = 1.
  Proof. pose proof n_pos. destruct (@t_ok (n - 1)) as (_ & E & _); [lia|]. rewrite E. fold s. destruct s_pos as (_ & Ps). unfold Rdiv. rewrite Rinv_r by lra. apply rd_fmt, fmt_1. Qed.
  Lemma t_zero j : (j < n)%nat -> nth j v 0 = 0 -> t j = match j with O => 0 | Datatypes.S i => t i end.
  Proof.
    intros Hj E. pose proof (Z Hj E) as P0. destruct (t_ok Hj) as (_ & -> & _). destruct (@cumsum_ok p Fp n_small j Hj) as (_ & _ & M & M0). destruct j as [|j].
    - rewrite M0 by reflexivity. rewrite P0. unfold Rdiv. rewrite Rmult_0_l. apply rd_0.
    - destruct (@t_ok j) as (_ & -> & _); [lia|]. destruct (M j eq_refl) as (_ & M2). rewrite (M2 P0). reflexivity.
  Qed.
  Lemma t_close j : (j < n)%nat -> Rabs (t j - partial (shares v) j) <= 20 * INR n * u.
  Proof.
    intros Hj. destruct (t_ok Hj) as (Oj & E & _). rewrite E. destruct (close Hj) as (A & B & _). destruct (@close (n - 1)) as (C & _); [lia|]. rewrite partial_last in C. fold s in C.
    pose proof n_small as Sm. unfold small in Sm. pose proof u_pos as U. set (y := INR n * u) in *. assert (N1 : 1 <= INR n) by (change 1 with (INR 1); apply le_INR, n_pos). assert (Uy : u <= y) by (unfold y; nra).
    replace (8 * INR n * u) with (8 * y) in A, C by (unfold y; ring). replace (20 * INR n * u) with (20 * y) by (unfold y; ring).
    apply Rabs_le_inv' in A. apply Rabs_le_inv' in C. destruct (@cumsum_ok p Fp n_small j Hj) as ((_ & Pc) & _). destruct s_pos as (_ & Ps).
    set (c := val (nth j (cumsum p) zero)) in *. set (g := c / val s). assert (G : g * val s = c) by (unfold g; field; lra).
    assert (Cs : c <= val s) by (apply c_mono; lia). assert (G0 : 0 <= g <= 1). { split; [apply Rmult_le_pos; [exact Pc|apply Rlt_le, Rinv_0_lt_compat, Ps]|]. apply (Rmult_le_reg_r (val s)); [exact Ps|]. rewrite G. lra. }
    assert (G1 : Rabs (g - partial (shares v) j) <= 16 * y). { apply Rabs_le. split; nra. }
    destruct (rd_err g) as (e & h & He & Hh & ->). apply Rabs_le_inv' in G1. apply Rabs_le_inv' in He. apply Rabs_le_inv' in Hh.
    assert (Bs : bpow radix2 (-1022) <= / 1024). { replace (/1024) with (bpow radix2 (-10)) by (cbn; lra). apply bpow_le; lia. }
    assert (Hh2 : u * bpow radix2 (-1022) <= u) by nra. apply Rabs_le. split; nra.
  Qed.

  Lemma cdf_length : length (cdf p) = n. Proof. unfold cdf. cbv zeta. rewrite map_length, cumsum_length. reflexivity. Qed.

  Lemma choice_iff k : (0 <= k < 2 ^ 53)%Z -> exists i, choice k p = Some i /\ (i < n)%nat /\ IZR k * u < t i /\ (forall l, (l < i)%nat -> t l <= IZR k * u) /\ 0 < nth i v 0.
  Proof.
    intros Hk. destruct (uniform_val Hk) as (Ok & Ek). unfold choice. rewrite checked_p. cbv zeta. unfold searchsorted.
    assert (Lt : forall i, (i < n)%nat -> (ltb (uniform k) (nth i (cdf p) zero) = true <-> IZR k * u < t i)).
    { intros i Hi. destruct (t_ok Hi) as (O & _). rewrite (ltb_val Ok O), Ek. reflexivity. }
    pose proof (@first_true_spec _ (ltb (uniform k)) zero (cdf p)) as H. rewrite cdf_length in H. destruct (M_params.first_true (map (ltb (uniform k)) (cdf p))) as [i|].
    - destruct H as (A & B & C). exists i. fold n. destruct (Nat.ltb_spec i n); [|lia]. split; [reflexivity|]. split; [exact A|].
      assert (X : IZR k * u < t i) by (apply Lt; assumption). assert (Y : forall l, (l < i)%nat -> t l <= IZR k * u).
      { intros l Hl. apply Rnot_lt_le. intros X2. apply Lt in X2; [|lia]. rewrite C in X2 by exact Hl. discriminate. }
      split; [exact X|]. split; [exact Y|].
      assert (P0 : 0 <= nth i v 0). { rewrite Forall_forall in Pv. apply Pv, nth_In. rewrite <- L. exact A. }
      destruct (Req_dec (nth i v 0) 0) as [E|E]; [|lra]. exfalso. rewrite (t_zero A E) in X. destruct i as [|i].
      + destruct Hk as [Hk _]. apply IZR_le in Hk. pose proof u_pos. nra.
      + specialize (Y i ltac:(lia)). lra.
    - exfalso. pose proof n_pos. assert (X : IZR k * u < t (n - 1)).
      { rewrite t_last. pose proof draws_u as D. rewrite draws_INR in D. rewrite <- D. apply Rmult_lt_compat_r; [apply u_pos|]. destruct Hk as [_ Hk]. apply IZR_lt in Hk. exact Hk. }
      apply Lt in X; [|lia]. rewrite H in X by lia. discriminate.
  Qed.

  Lemma choice_probability i : (i < n)%nat -> Rabs (probability (fun k => match choice k p with Some j => Nat.eqb j i | None => false end) - share v i) <= 40 * INR n * u + 2 * u.
  Proof.
    intros Hi. pose proof u_pos as U. set (P := partial (shares v)).
    assert (Lsh : length (shares v) = n) by (unfold shares, n; rewrite map_length; lia).
    assert (PB : forall j, (j < n)%nat -> Rabs (probability (below (t j)) - P j) <= 20 * INR n * u + u).
    { intros j Hj. destruct (t_ok Hj) as ((_ & C) & _). fold (t j) in C. pose proof (t_close Hj) as A. destruct (close Hj) as (_ & B & _). pose proof (probability_below C) as D. pose proof (@Rmin_close (t j) (P j) _ B A) as E.
      replace (probability (below (t j)) - P j) with ((probability (below (t j)) - Rmin (t j) 1) + (Rmin (t j) 1 - P j)) by ring. eapply Rle_trans; [apply Rabs_triang|]. lra. }
    assert (CH : forall k, (0 <= k < 2 ^ 53)%Z -> match choice k p with Some j => Nat.eqb j i | None => false end = true <-> (IZR k * u < t i /\ forall l, i = Datatypes.S l -> t l <= IZR k * u)).
    { intros k Hk. destruct (choice_iff Hk) as (j & -> & Hj & A & B & _). destruct (Nat.eqb_spec j i) as [->|N].
      - split; [intros _; split; [exact A|intros l ->; apply B; lia]|reflexivity].
      - split; [discriminate|]. intros (C & D). exfalso. destruct (Nat.lt_ge_cases j i) as [X|X].
        + destruct i as [|i0]; [lia|]. specialize (D i0 eq_refl). assert (t j <= t i0) by (apply cdf_mono; lia). lra.
        + specialize (B i ltac:(lia)). lra. }
    destruct i as [|i].
    - assert (E : probability (fun k => match choice k p with Some j => Nat.eqb j 0 | None => false end) = probability (below (t 0))).
      { rewrite !probability_u. rewrite (@count_ext _ (below (t 0)) draws); [reflexivity|]. intros k. rewrite draws_Z. intros Hk. pose proof (CH k Hk) as C. pose proof (below_iff (t 0%nat) k) as B0.
        destruct (below (t 0%nat) k).
        - apply C. split; [apply B0; reflexivity|intros; discriminate].
        - destruct (match choice k p with Some j => Nat.eqb j 0 | None => false end); [|reflexivity]. symmetry. apply B0. apply C. reflexivity. }
      pose proof (PB 0%nat ltac:(lia)) as X0. assert (P0 : P 0%nat = share v 0). { unfold P, partial. rewrite total_firstn_S by lia. cbn [firstn total]. rewrite nth_shares. ring. }
      rewrite P0 in X0. rewrite E. pose proof (pos_INR n). assert (0 <= INR n * u) by (apply Rmult_le_pos; lra). apply Rabs_le_inv' in X0. apply Rabs_le. lra.
    - assert (E : probability (below (t (Datatypes.S i))) = probability (below (t i)) + probability (fun k => match choice k p with Some j => Nat.eqb j (Datatypes.S i) | None => false end)).
      { apply probability_split. intros k Hk. pose proof (CH k Hk) as C. pose proof (@cdf_mono i (Datatypes.S i) ltac:(lia) Hi) as M.
        pose proof (below_iff (t i) k) as B0. pose proof (below_iff (t (Datatypes.S i)) k) as B1.
        destruct (match choice k p with Some j => Nat.eqb j (Datatypes.S i) | None => false end).
        - destruct C as (C & _). destruct (C eq_refl) as (C1 & C2). specialize (C2 i eq_refl).
          destruct (below (t (Datatypes.S i)) k); [|apply B1 in C1; discriminate]. destruct (below (t i) k); [exfalso; assert (Y : IZR k * u < t i) by (apply B0; reflexivity); lra|]. reflexivity.
        - destruct (below (t (Datatypes.S i)) k); destruct (below (t i) k); try reflexivity.
          + exfalso. assert (Y2 : false = true); [|discriminate]. apply C. split; [apply B1; reflexivity|]. intros l [= <-]. apply Rnot_lt_le. intros Y. apply B0 in Y. discriminate.
          + exfalso. assert (Y : IZR k * u < t i) by (apply B0; reflexivity). assert (Y2 : false = true) by (apply B1; lra). discriminate. }
      pose proof (PB i ltac:(lia)) as X0. pose proof (PB (Datatypes.S i) ltac:(lia)) as X1.
      assert (Ps : P (Datatypes.S i) = P i + share v (Datatypes.S i)). { unfold P, partial. rewrite total_firstn_S by lia. rewrite nth_shares. reflexivity. }
      rewrite Ps in X1. apply Rabs_le_inv' in X0. apply Rabs_le_inv' in X1. apply Rabs_le. lra.
  Qed.
End Choice.
