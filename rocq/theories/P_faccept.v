(** C105: the Metropolis-Hastings decision in double precision. *)
From Coq Require Import List ZArith Reals Lra Lia Bool Psatz.
From Flocq Require Import Core.Core IEEE754.BinarySingleNaN IEEE754.Binary IEEE754.Bits.
From Verif Require Import Base M_float S_float L_float L_float2 L_float3 L_float4 M_fchoice L_fchoice M_faccept S_faccept.
Import ListNotations.
Local Open Scope R_scope.

Lemma mul_one x : fin x -> Rabs (val x) <= bpow radix2 1000 -> fin (mul x one) /\ val (mul x one) = val x.
Proof.
  intros F B. destruct one_val as ((F1 & _) & V1). unfold fin, val, mul, b64_mult.
  match goal with |- context [Bmult 53 1024 ?a ?b ?n ?m x one] => pose proof (@Bmult_correct 53 1024 a b n m x one) as H end.
  change (round radix2 (SpecFloat.fexp 53 1024) (round_mode mode_NE)) with rd in H. unfold val in *. rewrite V1, Rmult_1_r in H.
  rewrite big_abs in H by exact B. destruct H as (H1 & H2 & _). rewrite H1, H2. unfold fin in F. rewrite F, F1. split; [reflexivity|]. apply rd_fmt, fmt_val.
Qed.

Lemma Rabs_bound a b : Rabs a <= b <-> - b <= a <= b.
Proof. split; [apply Rabs_le_inv'|apply Rabs_le]. Qed.
Lemma perturbed x e : Rabs e <= u -> Rabs (x * (1 + e) - x) <= u * Rabs x.
Proof. intros H. replace (x * (1 + e) - x) with (x * e) by ring. rewrite Rabs_mult, Rmult_comm. apply Rmult_le_compat_r; [apply Rabs_pos|exact H]. Qed.

Lemma mh_ratio_ok a b c d p q : fin a -> fin b -> fin c -> fin d -> fin p -> fin q -> let M := size (val a) (val b) (val c) (val d) (val p) (val q) in M <= bpow radix2 900 ->
  fin (mh_ratio a b c d p q one) /\ Rabs (val (mh_ratio a b c d p q one) - exact_ratio (val a) (val b) (val c) (val d) (val p) (val q)) <= 4 * M * u.
Proof.
  intros Fa Fb Fc Fd Fp Fq M HM. unfold size in M. set (A := val a - val b) in *. set (C := val c - val d) in *. set (B := val p - val q) in *.
  pose proof u_pos as U. assert (Us : u <= / 1000) by (pose proof u_small; lra). pose proof (Rabs_pos A) as A0. pose proof (Rabs_pos B) as B0. pose proof (Rabs_pos C) as C0.
  assert (H9 : 8 * bpow radix2 900 <= bpow radix2 1000) by (apply Rle_trans with (bpow radix2 3 * bpow radix2 900); [right; reflexivity|rewrite <- bpow_plus; apply bpow_le; lia]). pose proof (bpow_gt_0 radix2 900) as H90.
  destruct (@sub_fin a b Fa Fb) as (F1 & e1 & He1 & E1); [fold A; unfold M in HM; lra|]. fold A in E1.
  destruct (@sub_fin p q Fp Fq) as (F2 & e2 & He2 & E2); [fold B; unfold M in HM; lra|]. fold B in E2.
  destruct (@sub_fin c d Fc Fd) as (F3 & e3 & He3 & E3); [fold C; unfold M in HM; lra|]. fold C in E3.
  pose proof (perturbed A e1 He1) as P1. pose proof (perturbed B e2 He2) as P2. pose proof (perturbed C e3 He3) as P3. rewrite <- E1 in P1. rewrite <- E2 in P2. rewrite <- E3 in P3.
  assert (T : forall x y, Rabs (x - y) <= u * Rabs y -> Rabs x <= (1 + u) * Rabs y). { intros x y H. replace x with (x - y + y) by ring. eapply Rle_trans; [apply Rabs_triang|]. lra. }
  pose proof (T _ _ P1) as Q1. pose proof (T _ _ P2) as Q2. pose proof (T _ _ P3) as Q3.
  unfold mh_ratio. cbv zeta. set (x1 := sub a b) in *. set (x2 := sub p q) in *. set (x3 := sub c d) in *.
  destruct (mul_one x1 F1) as (F1' & V1'); [unfold M in HM; nra|]. set (y1 := mul x1 one) in *.
  assert (G1 : Rabs (val y1 - val x2) <= (1 + u) * (Rabs A + Rabs B)). { rewrite V1'. unfold Rminus. eapply Rle_trans; [apply Rabs_triang|]. rewrite Rabs_Ropp. lra. }
  destruct (@sub_fin y1 x2 F1' F2) as (F4 & e4 & He4 & E4); [unfold M in HM; nra|]. pose proof (perturbed (val y1 - val x2) e4 He4) as P4. rewrite <- E4 in P4. pose proof (T _ _ P4) as Q4. set (x4 := sub y1 x2) in *.
  assert (G2 : Rabs (val x4 + val x3) <= (1 + u) * (1 + u) * M). { eapply Rle_trans; [apply Rabs_triang|]. unfold M. nra. }
  assert (M0 : 0 <= M) by (unfold M; lra). destruct (@add_fin x4 x3 F4 F3) as (F5 & e5 & He5 & E5); [eapply Rle_trans; [exact G2|]; apply Rle_trans with (2 * M); [apply Rmult_le_compat_r; [exact M0|nra]|lra]|]. pose proof (perturbed (val x4 + val x3) e5 He5) as P5. rewrite <- E5 in P5. split; [exact F5|].
  unfold exact_ratio. fold A C. replace (val q - val p) with (- B) by (unfold B; ring). rewrite V1' in *.
  assert (MM : Rabs A + Rabs B <= M) by (unfold M; lra). assert (G1' : u * Rabs (val x1 - val x2) <= u * ((1 + u) * (Rabs A + Rabs B))) by (apply Rmult_le_compat_l; lra). assert (G2' : u * Rabs (val x4 + val x3) <= u * ((1 + u) * (1 + u) * M)) by (apply Rmult_le_compat_l; lra).
  assert (AB0 : 0 <= u * (Rabs A + Rabs B)) by (apply Rmult_le_pos; lra). assert (N1 : u * ((1 + u) * (Rabs A + Rabs B)) <= 1.01 * u * (Rabs A + Rabs B)). { replace (u * ((1 + u) * (Rabs A + Rabs B))) with (u * (Rabs A + Rabs B) * (1 + u)) by ring. replace (1.01 * u * (Rabs A + Rabs B)) with (u * (Rabs A + Rabs B) * 1.01) by ring. apply Rmult_le_compat_l; lra. } assert (UM0 : 0 <= u * M) by (apply Rmult_le_pos; lra). assert (N2 : u * ((1 + u) * (1 + u) * M) <= 1.01 * u * M). { replace (u * ((1 + u) * (1 + u) * M)) with (u * M * ((1 + u) * (1 + u))) by ring. replace (1.01 * u * M) with (u * M * 1.01) by ring. apply Rmult_le_compat_l; [exact UM0|nra]. }
  assert (N3 : u * (Rabs A + Rabs B + Rabs C) <= u * M) by (unfold M; lra). assert (N4 : 1.01 * u * (Rabs A + Rabs B) <= 1.01 * u * M) by (apply Rmult_le_compat_l; lra). assert (N5 : u * (Rabs A + Rabs B + Rabs C) = u * Rabs A + u * Rabs B + u * Rabs C) by ring.
  apply Rabs_le_inv' in P1. apply Rabs_le_inv' in P2. apply Rabs_le_inv' in P3. apply Rabs_le_inv' in P4. apply Rabs_le_inv' in P5. apply Rabs_le. split; lra.
Qed.

(** [min 1 exp] moves at most as much as its argument. *)
Lemma exp_above x : 1 + x <= exp x. Proof. apply exp_ineq1_le. Qed.
Lemma exact_mono r s : r <= s -> exact_probability r <= exact_probability s <= exact_probability r + (s - r).
Proof.
  intros H. unfold exact_probability. assert (E : exp r <= exp s) by (destruct H as [H| ->]; [apply Rlt_le, exp_increasing, H|lra]). pose proof (exp_pos r) as P. split; [unfold Rmin; destruct (Rle_dec 1 (exp r)), (Rle_dec 1 (exp s)); lra|].
  pose proof (exp_above (r - s)) as X. assert (D : exp s * exp (r - s) = exp r) by (rewrite <- exp_plus; f_equal; ring). unfold Rmin.
  destruct (Rle_dec 1 (exp r)), (Rle_dec 1 (exp s)); try lra; nra.
Qed.
Lemma exact_close r s d : Rabs (r - s) <= d -> Rabs (exact_probability r - exact_probability s) <= d.
Proof.
  intros H. apply Rabs_le_inv' in H. apply Rabs_le. destruct (Rle_or_lt r s) as [L|L].
  - pose proof (exact_mono r s L). lra.
  - pose proof (exact_mono s r ltac:(lra)). lra.
Qed.

Lemma log_size k : (0 < k < 2 ^ 53)%Z -> -53 <= ln (IZR k / 2 ^ 53) < 0.
Proof.
  intros [A B]. apply IZR_lt in B. change (IZR (2 ^ 53)) with (bpow radix2 53) in B. assert (A1 : 1 <= IZR k) by (apply (IZR_le 1); lia). assert (E : 2 ^ 53 = bpow radix2 53) by (cbn; lra). rewrite E. pose proof (bpow_gt_0 radix2 53) as P.
  unfold Rdiv. rewrite ln_mult, ln_Rinv by (try apply Rinv_0_lt_compat; lra). assert (L : ln (bpow radix2 53) <= 53).
  { rewrite <- E, ln_pow by lra. pose proof (exp_above (ln 2)) as X. rewrite exp_ln in X by lra. replace (INR 53) with 53 by (cbn; lra). lra. }
  split; [|apply ln_increasing in B; lra]. assert (0 <= ln (IZR k)) by (rewrite <- ln_1; destruct A1 as [A1| <-]; [apply Rlt_le, ln_increasing; lra|lra]). lra.
Qed.

Lemma probability_le (f g : Z -> bool) : (forall k, (0 <= k < 2 ^ 53)%Z -> f k = true -> g k = true) -> probability f <= probability g.
Proof.
  intros H. rewrite (@probability_split g f (fun k => g k && negb (f k))).
  - assert (0 <= probability (fun k => g k && negb (f k))); [|lra]. rewrite probability_u. apply Rmult_le_pos; [apply pos_INR|apply Rlt_le, u_pos].
  - intros k Hk. specialize (H k Hk). destruct (f k), (g k); try reflexivity. discriminate (H eq_refl).
Qed.

Section Decision.
  Variable lib_log : dbl -> dbl.
  Hypothesis Ac : accurate lib_log.
  Lemma u_pow : u = / 2 ^ 53. Proof. unfold u. cbn. lra. Qed.

  Lemma log_close k : (0 < k < 2 ^ 53)%Z -> fin (lib_log (uniform k)) /\ Rabs (val (lib_log (uniform k)) - ln (IZR k * u)) <= 106 * u /\ val (lib_log (uniform k)) < 0.
  Proof.
    intros Hk. destruct (Ac k Hk) as (F & H). pose proof (log_size k Hk) as L. rewrite u_pow. unfold Rdiv in *. set (l := ln (IZR k * / 2 ^ 53)) in *. rewrite (Rabs_left l) in H by lra.
    assert (E : / 2 ^ 52 = 2 * / 2 ^ 53) by (cbn; lra). rewrite E in H. pose proof u_pos as U. pose proof u_small as Us. rewrite u_pow in U, Us. set (v := / 2 ^ 53) in *. split; [exact F|]. apply Rabs_le_inv' in H.
    split; [apply Rabs_le; split; nra|]. nra.
  Qed.

  (** The draws below a finite double. *)
  Lemma decided r : fin r -> Rabs (probability (fun k => negb (k =? 0)%Z && ltb (lib_log (uniform k)) r) - exact_probability (val r)) <= 108 * u.
  Proof.
    intros Fr. pose proof u_pos as U. set (f := fun k => negb (k =? 0)%Z && ltb (lib_log (uniform k)) r).
    assert (B : forall x k, below x k = true <-> IZR k * u < x) by (intros x k; unfold below; destruct (Rlt_bool_spec (IZR k * u) x); split; intros; try lra; try reflexivity; discriminate).
    assert (Up : probability f <= probability (below (exp (val r + 106 * u)))).
    { apply probability_le. intros k Hk Hf. unfold f in Hf. apply andb_prop in Hf. destruct Hf as [Z0 Hf]. apply negb_true_iff, Z.eqb_neq in Z0. destruct (log_close k ltac:(lia)) as (F & C & _). apply (ltb_fin F Fr) in Hf. apply B.
      assert (P : 0 < IZR k * u) by (apply Rmult_lt_0_compat; [apply (IZR_lt 0); lia|exact U]). apply Rabs_le_inv' in C. rewrite <- (exp_ln (IZR k * u)) at 1 by exact P. apply exp_increasing. lra. }
    assert (Lo : probability (below (exp (val r - 106 * u))) <= probability f + u).
    { assert (Z1 : probability (fun k => (k =? 0)%Z) <= u). { apply Rle_trans with (probability (below u)); [apply probability_le; intros k Hk Hz; apply Z.eqb_eq in Hz; subst k; apply B; rewrite Rmult_0_l; exact U|].
        rewrite (probability_u (below u)). assert (X : INR (count (below u) draws) <= 1); [|nra]. rewrite (@count_ext (below u) (fun k => Rlt_bool (IZR k) 1)). 2:{ intros k _. unfold below. destruct (Rlt_bool_spec (IZR k * u) u), (Rlt_bool_spec (IZR k) 1); try reflexivity; exfalso; nra. }
        destruct (@count_below_aux 1 draws ltac:(lra)) as [[X Y]|[X Y]]; [rewrite X|]; cbv zeta in X.
        - assert (D : INR draws < INR 2) by (cbn; lra). apply INR_lt in D. assert ((draws <= 1)%nat) by lia. apply (le_INR _ 1). assumption.
        - destruct X as [_ X]. assert (D : INR (count (fun k => Rlt_bool (IZR k) 1) draws) < INR 2) by (cbn in *; lra). apply INR_lt in D. apply (le_INR _ 1). lia. }
      apply Rle_trans with (probability (fun k => f k || (k =? 0)%Z)).
      - apply probability_le. intros k Hk Hb. apply B in Hb. destruct (Z.eqb_spec k 0) as [->|N]; [apply orb_true_r|]. apply orb_true_iff. left. unfold f. apply andb_true_iff. split; [apply negb_true_iff, Z.eqb_neq, N|].
        destruct (log_close k ltac:(lia)) as (F & C & _). apply (ltb_fin F Fr). assert (P : 0 < IZR k * u) by (apply Rmult_lt_0_compat; [apply (IZR_lt 0); lia|exact U]). apply Rabs_le_inv' in C.
        assert (L : ln (IZR k * u) < val r - 106 * u) by (apply exp_lt_inv; rewrite exp_ln by exact P; exact Hb). lra.
      - rewrite (@probability_split (fun k => f k || (k =? 0)%Z) f (fun k => (k =? 0)%Z)); [lra|]. intros k _. unfold f. destruct (k =? 0)%Z; cbn [negb andb orb]; [reflexivity|]. rewrite orb_false_r. destruct (ltb _ r); reflexivity. }
    pose proof (probability_below (Rlt_le _ _ (exp_pos (val r + 106 * u)))) as B1. pose proof (probability_below (Rlt_le _ _ (exp_pos (val r - 106 * u)))) as B2. rewrite Rmin_comm in B1, B2.
    change (Rmin 1 (exp (val r + 106 * u))) with (exact_probability (val r + 106 * u)) in B1. change (Rmin 1 (exp (val r - 106 * u))) with (exact_probability (val r - 106 * u)) in B2.
    pose proof (exact_mono (val r) (val r + 106 * u) ltac:(lra)) as M1. pose proof (exact_mono (val r - 106 * u) (val r) ltac:(lra)) as M2. apply Rabs_le_inv' in B1. apply Rabs_le_inv' in B2. apply Rabs_le. lra.
  Qed.
End Decision.

Lemma not_minus_inf x : fin x -> minus_inf x = false.
Proof. unfold fin. destruct x as [s|s|s pl e|s m e B]; cbn; intros H; try discriminate; destruct s; reflexivity. Qed.

(** The probability of acceptance is the exact one up to rounding: the error is (108 + 4 M) / 2^53, with M the
    size of the three differences. *)
Theorem C105_probability : forall lib_log a b c d p q, accurate lib_log ->
  Forall (fun x => is_finite 53 1024 x = true) [a; b; c; d; p; q] -> size (val a) (val b) (val c) (val d) (val p) (val q) <= 2 ^ 900 ->
  Rabs (probability (fun k => match decide lib_log a b c d p q k with Some true => true | _ => false end) - exact_probability (exact_ratio (val a) (val b) (val c) (val d) (val p) (val q)))
  <= (108 + 4 * size (val a) (val b) (val c) (val d) (val p) (val q)) / 2 ^ 53.
Proof.
  intros lib_log a b c d p q Ac F HM. repeat (apply Forall_cons_iff in F; let X := fresh "F" in destruct F as [X F]). assert (E9 : 2 ^ 900 = bpow radix2 900) by (rewrite bpow_powerRZ; apply pow_powerRZ). rewrite E9 in HM.
  destruct (mh_ratio_ok a b c d p q ltac:(assumption) ltac:(assumption) ltac:(assumption) ltac:(assumption) ltac:(assumption) ltac:(assumption) HM) as (Fr & Er).
  pose proof (decided lib_log Ac (mh_ratio a b c d p q one) Fr) as D. set (M := size _ _ _ _ _ _) in *.
  replace (probability _) with (probability (fun k => negb (k =? 0)%Z && ltb (lib_log (uniform k)) (mh_ratio a b c d p q one))).
  2:{ rewrite !probability_u. f_equal. f_equal. apply count_ext. intros k _. unfold decide. rewrite !not_minus_inf by assumption. destruct (k =? 0)%Z; cbn [negb andb]; [reflexivity|]. destruct (ltb _ _); reflexivity. }
  pose proof (exact_close _ _ _ Er) as C. unfold Rdiv. rewrite <- u_pow. apply Rabs_le_inv' in C. apply Rabs_le_inv' in D. apply Rabs_le. lra.
Qed.
Print Assumptions C105_probability.

(** Exactly the draw 0 ends the run, and only if the step is not decided by the markers. *)
Theorem C105_raises : forall lib_log a b c d p q k, decide lib_log a b c d p q k = None <-> k = 0%Z /\ p <> B754_infinity 53 1024 true /\ q <> B754_infinity 53 1024 true.
Proof.
  intros lib_log a b c d p q k. unfold decide. assert (I : forall x, minus_inf x = true <-> x = B754_infinity 53 1024 true) by (intros x; destruct x as [s|s|s pl e|s m e B]; cbn; split; intros H; try discriminate; destruct s; try discriminate; reflexivity).
  destruct (minus_inf q) eqn:Q; [apply I in Q; split; [discriminate|intros (_ & _ & H); contradiction]|].
  destruct (minus_inf p) eqn:P; [apply I in P; split; [discriminate|intros (_ & H & _); contradiction]|].
  destruct (Z.eqb_spec k 0) as [->|N]; split; try discriminate; try tauto. intros _. repeat split; intros H; apply I in H; congruence.
Qed.
Print Assumptions C105_raises.

(** A step whose computed ratio is not negative is accepted by every other draw. *)
Theorem C105_uphill : forall lib_log a b c d p q k, accurate lib_log -> Forall (fun x => is_finite 53 1024 x = true) [a; b; c; d; p; q] -> size (val a) (val b) (val c) (val d) (val p) (val q) <= 2 ^ 900 ->
  val b <= val a -> val d <= val c -> val p <= val q -> (0 < k < 2 ^ 53)%Z -> decide lib_log a b c d p q k = Some true.
Proof.
  intros lib_log a b c d p q k Ac F HM H1 H2 H3 Hk. repeat (apply Forall_cons_iff in F; let X := fresh "F" in destruct F as [X F]). assert (E9 : 2 ^ 900 = bpow radix2 900) by (rewrite bpow_powerRZ; apply pow_powerRZ). rewrite E9 in HM.
  destruct (mh_ratio_ok a b c d p q ltac:(assumption) ltac:(assumption) ltac:(assumption) ltac:(assumption) ltac:(assumption) ltac:(assumption) HM) as (Fr & Er).
  unfold decide. rewrite !not_minus_inf by assumption. destruct (Z.eqb_spec k 0) as [->|N]; [lia|]. f_equal. destruct (log_close lib_log Ac k Hk) as (Fl & _ & L). apply (ltb_fin Fl Fr). apply Rlt_le_trans with 0; [exact L|].
  unfold size in Er. unfold exact_ratio in Er. rewrite (Rabs_pos_eq (val a - val b)), (Rabs_pos_eq (val c - val d)), (Rabs_left1 (val p - val q)) in Er by lra. apply Rabs_le_inv' in Er. pose proof u_small. pose proof u_pos. set (S := val a - val b + (val c - val d) + - (val p - val q)) in *. assert (0 <= S) by (unfold S; lra).
  assert (val a - val b + (val c - val d) + (val q - val p) = S) by (unfold S; ring). nra.
Qed.
Print Assumptions C105_uphill.

(** A candidate of probability zero (log-likelihood or log-prior minus infinity) is rejected by every draw. *)
Lemma sub_inf x : fin x -> sub (B754_infinity 53 1024 true) x = B754_infinity 53 1024 true.
Proof. unfold fin. destruct x as [s|s|s pl e|s m e B]; cbn; intros H; try discriminate; reflexivity. Qed.
Lemma inf_sub x : fin x -> sub x (B754_infinity 53 1024 true) = B754_infinity 53 1024 false.
Proof. unfold fin. destruct x as [s|s|s pl e|s m e B]; cbn; intros H; try discriminate; reflexivity. Qed.
Lemma add_inf x : fin x -> add (B754_infinity 53 1024 true) x = B754_infinity 53 1024 true /\ add x (B754_infinity 53 1024 true) = B754_infinity 53 1024 true.
Proof. unfold fin. destruct x as [s|s|s pl e|s m e B]; cbn; intros H; try discriminate; split; reflexivity. Qed.
Lemma ltb_inf x : fin x -> ltb x (B754_infinity 53 1024 true) = false.
Proof. unfold fin. destruct x as [s|s|s pl e|s m e B]; cbn; intros H; try discriminate; try reflexivity; destruct s; reflexivity. Qed.

Theorem C105_impossible : forall lib_log a b c d p q k, accurate lib_log -> (0 < k < 2 ^ 53)%Z -> Forall (fun x => is_finite 53 1024 x = true) [b; d; p; q] ->
  (a = B754_infinity 53 1024 true /\ is_finite 53 1024 c = true /\ Rabs (val c - val d) + Rabs (val p - val q) <= 2 ^ 900 \/
   c = B754_infinity 53 1024 true /\ is_finite 53 1024 a = true /\ Rabs (val a - val b) + Rabs (val p - val q) <= 2 ^ 900) ->
  decide lib_log a b c d p q k = Some false.
Proof.
  intros lib_log a b c d p q k Ac Hk F H. repeat (apply Forall_cons_iff in F; let X := fresh "F" in destruct F as [X F]). assert (E9 : 2 ^ 900 = bpow radix2 900) by (rewrite bpow_powerRZ; apply pow_powerRZ). rewrite E9 in H.
  assert (H9 : 8 * bpow radix2 900 <= bpow radix2 1000) by (apply Rle_trans with (bpow radix2 3 * bpow radix2 900); [right; reflexivity|rewrite <- bpow_plus; apply bpow_le; lia]). pose proof (bpow_gt_0 radix2 900) as H90.
  destruct (log_close lib_log Ac k Hk) as (Fl & _). unfold decide. rewrite !not_minus_inf by assumption. destruct (Z.eqb_spec k 0) as [->|N]; [lia|]. f_equal.
  assert (W : mh_ratio a b c d p q one = B754_infinity 53 1024 true); [|rewrite W; apply ltb_inf, Fl]. unfold mh_ratio. cbv zeta.
  pose proof (Rabs_pos (val p - val q)) as Pp.
  destruct (@sub_fin p q) as (Fpq & e2 & He2 & E2); [assumption|assumption|destruct H as [(_ & _ & H)|(_ & _ & H)]; [pose proof (Rabs_pos (val c - val d))|pose proof (Rabs_pos (val a - val b))]; lra|].
  destruct H as [(-> & Fc & H)|(-> & Fa & H)].
  - destruct (@sub_fin c d) as (Fcd & _); [assumption|assumption|lra|]. rewrite sub_inf by assumption. replace (mul (B754_infinity 53 1024 true) one) with (B754_infinity 53 1024 true) by reflexivity. rewrite sub_inf by assumption. apply add_inf, Fcd.
  - pose proof (Rabs_pos (val a - val b)) as Pa. destruct (@sub_fin a b) as (Fab & e1 & He1 & E1); [assumption|assumption|lra|]. rewrite (sub_inf d) by assumption.
    pose proof u_small as Us. pose proof u_pos as U. assert (X : Rabs (val (sub a b)) <= 2 * Rabs (val a - val b)). { rewrite E1, Rabs_mult. assert (Rabs (1 + e1) <= 2) by (apply Rabs_le_inv' in He1; apply Rabs_le; lra). nra. }
    assert (Y : Rabs (val (sub p q)) <= 2 * Rabs (val p - val q)). { rewrite E2, Rabs_mult. assert (Rabs (1 + e2) <= 2) by (apply Rabs_le_inv' in He2; apply Rabs_le; lra). nra. }
    destruct (mul_one (sub a b) Fab) as (Fm & Vm); [lra|]. destruct (@sub_fin (mul (sub a b) one) (sub p q) Fm Fpq) as (Fs & _). { rewrite Vm. unfold Rminus. eapply Rle_trans; [apply Rabs_triang|]. rewrite Rabs_Ropp. lra. }
    apply add_inf, Fs.
Qed.
Print Assumptions C105_impossible.

(** A correctly rounded logarithm is accurate. *)
Definition of_real (x : R) : dbl := scaled (ZnearestE (scaled_mantissa radix2 (FLT_exp (-1074) 53) x)) (cexp radix2 (FLT_exp (-1074) 53) x).
Definition rounded_log (x : dbl) : dbl := of_real (ln (val x)).
Lemma of_real_val x : Rabs x <= bpow radix2 1000 -> fin (of_real x) /\ val (of_real x) = rd x.
Proof.
  intros B. unfold fin, val, of_real, scaled.
  match goal with |- context [binary_normalize 53 1024 ?a ?b ?m ?x ?y ?z] => pose proof (@binary_normalize_correct 53 1024 a b m x y z) as H end.
  change (round radix2 (SpecFloat.fexp 53 1024) (round_mode mode_NE)) with rd in H. change (F2R _) with (rd x) in H.
  rewrite (rd_fmt (x := rd x)) in H by (apply generic_format_round; [apply FLT_exp_valid; reflexivity|apply valid_rnd_N]). rewrite big_abs in H by exact B. destruct H as (H1 & H2 & _). rewrite H1, H2. split; reflexivity.
Qed.
Lemma rounded_log_accurate : accurate rounded_log.
Proof.
  intros k Hk. destruct (@uniform_val k ltac:(lia)) as (_ & V). pose proof (log_size k Hk) as L. unfold rounded_log. rewrite V. unfold Rdiv. rewrite u_pow. set (l := ln (IZR k * / 2 ^ 53)) in *. change (-53 <= l < 0) in L.
  assert (B : Rabs l <= bpow radix2 1000). { rewrite Rabs_left by lra. apply Rle_trans with (bpow radix2 6); [cbn; lra|apply bpow_le; lia]. }
  destruct (of_real_val l B) as (F & E). split; [exact F|]. rewrite E.
  assert (Lk : bpow radix2 (-53) <= - l).
  { assert (X : IZR k * / 2 ^ 53 <= 1 - bpow radix2 (-53)). { assert (K : IZR k <= bpow radix2 53 - 1) by (apply Rle_trans with (IZR (2 ^ 53 - 1)); [apply IZR_le; lia|rewrite minus_IZR; right; reflexivity]). rewrite <- u_pow. unfold u. replace (1 - bpow radix2 (-53)) with ((bpow radix2 53 - 1) * bpow radix2 (-53)) by (rewrite Rmult_minus_distr_r, <- bpow_plus; cbn; lra). apply Rmult_le_compat_r; [apply bpow_ge_0|exact K]. }
    assert (P : 0 < IZR k * / 2 ^ 53) by (apply Rmult_lt_0_compat; [apply (IZR_lt 0); lia|apply Rinv_0_lt_compat, pow_lt; lra]). pose proof (exp_above l) as Y. unfold l in Y. rewrite exp_ln in Y by exact P. fold l in Y. lra. }
  destruct (@rd_rel (- l)) as (e & He & Ee). { right. eapply Rle_trans; [|exact Lk]. apply bpow_le. lia. }
  assert (En : rd l = - rd (- l)) by (unfold rd; rewrite round_NE_opp; ring). rewrite En, Ee. rewrite (Rabs_left l) by lra. assert (E2 : / 2 ^ 52 = 2 * u) by (rewrite u_pow; cbn; lra). rewrite E2. pose proof u_pos. apply Rabs_le_inv' in He. apply Rabs_le. split; nra.
Qed.

Definition int (m : Z) : dbl := scaled m 0.
Example C105_case : accurate rounded_log /\ Forall (fun x => is_finite 53 1024 x = true) [int (-7); int (-5); int (-3); int (-2); zero; zero] /\
  size (val (int (-7))) (val (int (-5))) (val (int (-3))) (val (int (-2))) (val zero) (val zero) <= 2 ^ 900 /\
  B2FF 53 1024 (mh_ratio (int (-7)) (int (-5)) (int (-3)) (int (-2)) zero zero one) = B2FF 53 1024 (int (-3)) /\
  decide rounded_log (int (-7)) (int (-5)) (int (-3)) (int (-2)) zero zero 0 = None /\
  minus_inf (sub (B754_infinity 53 1024 true) (int (-5))) = true.
Proof.
  split; [exact rounded_log_accurate|]. split; [repeat constructor|]. split.
  { assert (V : forall m, (-10 <= m <= 10)%Z -> val (int m) = IZR m).
    { intros m Hm. unfold int, scaled, val. match goal with |- context [binary_normalize 53 1024 ?a ?b ?m ?x ?y ?z] => pose proof (@binary_normalize_correct 53 1024 a b m x y z) as H end.
      change (round radix2 (SpecFloat.fexp 53 1024) (round_mode mode_NE)) with rd in H. assert (Em : F2R (Float radix2 m 0) = IZR m) by (unfold F2R; cbn; ring). rewrite Em in H.
      assert (Fm : fmt (IZR m)) by (apply generic_format_FLT; exists (Float radix2 m 0); [symmetry; exact Em|cbn [Fnum]; change (radix2 ^ 53)%Z with (2 ^ 53)%Z; lia|cbn; lia]). rewrite (rd_fmt Fm) in H.
      assert (B : Rabs (IZR m) <= bpow radix2 1000) by (apply Rle_trans with (bpow radix2 4); [rewrite <- abs_IZR; change (bpow radix2 4) with (IZR 16); apply IZR_le; lia|apply bpow_le; lia]). pose proof (big_abs B) as B'. rewrite (rd_fmt Fm) in B'. rewrite B' in H. apply H. }
    unfold size. rewrite !V by lia. change (val zero) with 0. replace (-7 - -5) with (-2) by ring. replace (-3 - -2) with (-1) by ring. rewrite Rminus_0_r, Rabs_R0, (Rabs_left (-2)), (Rabs_left (-1)) by lra. assert (A : 64 <= 2 ^ 900) by (replace 64 with (2 ^ 6) by (cbn; lra); apply Rle_pow; [lra|lia]). lra. }
  split; [vm_compute; reflexivity|]. split; [reflexivity|vm_compute; reflexivity].
Qed.
