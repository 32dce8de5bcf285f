(** Lemmas for C107: the decision in double precision, for numbers that may be infinite or NaN. *)
From Coq Require Import List ZArith Reals Lra Lia Bool Psatz.
From Flocq Require Import Core.Core IEEE754.BinarySingleNaN IEEE754.Binary IEEE754.Bits.
From Verif Require Import Base M_float S_float L_float L_float2 L_float3 L_float4 M_fchoice L_fchoice M_faccept S_faccept P_faccept M_fchain S_fchain.
From Verif Require M_mcmc S_mcmc.
Import ListNotations.
Set Implicit Arguments.
Unset Strict Implicit.
Local Open Scope R_scope.
Import M_mcmc(xf, Fin, PInf, NInf, NaN, xadd, xsub, xopp, xscale, is_ninf, metropolis_hastings_ratio).
Import S_mcmc(acc_prob).

(** Finite of size at most [C], or the same infinity or NaN. *)
Definition kin (C : R) (d : dbl) (v : xf) : Prop :=
  match v with
  | Fin _ => fin d /\ Rabs (val d) <= C
  | PInf => d = B754_infinity 53 1024 false
  | NInf => d = B754_infinity 53 1024 true
  | NaN => is_nan 53 1024 d = true
  end.
Lemma shows_kin eta B d v : shows eta B d v -> kin (B + eta) d v.
Proof.
  destruct v as [r| | |]; cbn; auto. intros (F & E & H). split; [exact F|]. replace (val d) with (r + (val d - r)) by ring. eapply Rle_trans; [apply Rabs_triang|]. lra.
Qed.
Lemma kin_minus C d v : kin C d v -> minus_inf d = is_ninf v.
Proof. destruct v as [r| | |]; cbn; [intros [F _]; apply not_minus_inf, F|intros ->; reflexivity|intros ->; reflexivity|]. destruct d; cbn; intros; try discriminate; reflexivity. Qed.
Lemma nan_sub x y : is_nan 53 1024 x = true \/ is_nan 53 1024 y = true -> is_nan 53 1024 (sub x y) = true.
Proof. destruct x as [s|s|s pl e|s m e B], y as [s'|s'|s' pl' e'|s' m' e' B']; cbn; intros [H|H]; try discriminate; reflexivity. Qed.
Lemma nan_add x y : is_nan 53 1024 x = true \/ is_nan 53 1024 y = true -> is_nan 53 1024 (add x y) = true.
Proof. destruct x as [s|s|s pl e|s m e B], y as [s'|s'|s' pl' e'|s' m' e' B']; cbn; intros [H|H]; try discriminate; reflexivity. Qed.
Lemma sub_kin C D a b v w : C + D <= bpow radix2 1000 -> kin C a v -> kin D b w -> kin (2 * (C + D)) (sub a b) (xsub v w).
Proof.
  intros H Ha Hb. destruct v as [r| | |], w as [s| | |]; cbn in Ha, Hb |- *; subst; try reflexivity; try (apply nan_sub; tauto).
  - destruct Ha as [Fa Ha], Hb as [Fb Hb]. assert (X : Rabs (val a - val b) <= C + D) by (unfold Rminus; eapply Rle_trans; [apply Rabs_triang|]; rewrite Rabs_Ropp; lra).
    destruct (@sub_fin a b Fa Fb) as (F & e & He & E); [lra|]. split; [exact F|]. rewrite E, Rabs_mult. pose proof u_small as U. assert (Y : Rabs (1 + e) <= 2) by (apply Rabs_le_inv' in He; apply Rabs_le; lra).
    rewrite (Rmult_comm 2). apply Rmult_le_compat; auto using Rabs_pos.
  - destruct Ha as [Fa _]. unfold fin in Fa. destruct a; cbn in Fa |- *; try discriminate; reflexivity.
  - destruct Ha as [Fa _]. unfold fin in Fa. destruct a; cbn in Fa |- *; try discriminate; reflexivity.
  - destruct Hb as [Fb _]. unfold fin in Fb. destruct b; cbn in Fb |- *; try discriminate; reflexivity.
  - destruct Hb as [Fb _]. unfold fin in Fb. destruct b; cbn in Fb |- *; try discriminate; reflexivity.
Qed.
Lemma add_kin C D a b v w : C + D <= bpow radix2 1000 -> kin C a v -> kin D b w -> kin (2 * (C + D)) (add a b) (xadd v w).
Proof.
  intros H Ha Hb. destruct v as [r| | |], w as [s| | |]; cbn in Ha, Hb |- *; subst; try reflexivity; try (apply nan_add; tauto).
  - destruct Ha as [Fa Ha], Hb as [Fb Hb]. assert (X : Rabs (val a + val b) <= C + D) by (eapply Rle_trans; [apply Rabs_triang|]; lra).
    destruct (@add_fin a b Fa Fb) as (F & e & He & E); [lra|]. split; [exact F|]. rewrite E, Rabs_mult. pose proof u_small as U. assert (Y : Rabs (1 + e) <= 2) by (apply Rabs_le_inv' in He; apply Rabs_le; lra).
    rewrite (Rmult_comm 2). apply Rmult_le_compat; auto using Rabs_pos.
  - destruct Ha as [Fa _]. unfold fin in Fa. destruct a; cbn in Fa |- *; try discriminate; reflexivity.
  - destruct Ha as [Fa _]. unfold fin in Fa. destruct a; cbn in Fa |- *; try discriminate; reflexivity.
  - destruct Hb as [Fb _]. unfold fin in Fb. destruct b; cbn in Fb |- *; try discriminate; reflexivity.
  - destruct Hb as [Fb _]. unfold fin in Fb. destruct b; cbn in Fb |- *; try discriminate; reflexivity.
Qed.
Lemma one_kin C a v : C <= bpow radix2 1000 -> kin C a v -> kin C (mul a one) (xscale 1 v).
Proof.
  intros H Ha. destruct v as [r| | |]; cbn [kin xscale] in Ha |- *.
  - destruct Ha as [Fa Ha]. destruct (mul_one a Fa) as (F & E); [lra|]. rewrite E. auto.
  - subst a. destruct (Rlt_dec 0 1); [reflexivity|lra].
  - subst a. destruct (Rlt_dec 0 1); [reflexivity|lra].
  - destruct a; cbn in Ha |- *; try discriminate; reflexivity.
Qed.
Lemma ratio_kin C a b c d p q va vb vc vd vp vq : 0 <= C -> 100 * C <= bpow radix2 1000 -> kin C a va -> kin C b vb -> kin C c vc -> kin C d vd -> kin C p vp -> kin C q vq ->
  kin (40 * C) (mh_ratio a b c d p q one) (metropolis_hastings_ratio va vb vc vd vp vq 1).
Proof.
  intros C0 H Ha Hb Hc Hd Hp Hq. unfold mh_ratio, metropolis_hastings_ratio. cbv zeta.
  assert (X1 := @sub_kin C C a b va vb ltac:(lra) Ha Hb). assert (X2 := @sub_kin C C p q vp vq ltac:(lra) Hp Hq). assert (X3 := @sub_kin C C c d vc vd ltac:(lra) Hc Hd).
  apply one_kin in X1; [|lra]. pose proof (fun h => @sub_kin _ _ _ _ _ _ h X1 X2) as X4. specialize (X4 ltac:(lra)). pose proof (fun h => @add_kin _ _ _ _ _ _ h X4 X3) as X5. specialize (X5 ltac:(lra)).
  match type of X5 with kin ?z _ _ => replace (40 * C) with z by lra end. exact X5.
Qed.

Lemma shows_fin eta B d v : shows eta B d v -> fin d -> exists r, v = Fin r.
Proof. destruct v as [r| | |]; cbn; [eauto|intros ->; discriminate|intros ->; discriminate|]. unfold fin. destruct d; cbn; congruence. Qed.
Lemma finite_parts v w : forall r, xadd v w = Fin r -> exists a b, v = Fin a /\ w = Fin b /\ r = a + b.
Proof. intros r. destruct v as [a| | |], w as [b| | |]; cbn; intros H; try discriminate. exists a, b. injection H as <-. auto. Qed.
Lemma finite_diff v w : forall r, xsub v w = Fin r -> exists a b, v = Fin a /\ w = Fin b /\ r = a - b.
Proof. intros r. destruct v as [a| | |], w as [b| | |]; cbn; intros H; try discriminate. exists a, b. injection H as <-. auto. Qed.
Lemma acc_unit va vb vc vd vp vq : 0 <= acc_prob 1 va vb vc vd vp vq <= 1.
Proof.
  unfold acc_prob. destruct (is_ninf vq); [lra|]. destruct (is_ninf vp); [lra|]. destruct (metropolis_hastings_ratio _ _ _ _ _ _ _) as [r| | |]; try lra.
  pose proof (exp_pos r). pose proof (Rmin_l 1 (exp r)). split; [|assumption]. apply Rmin_glb; lra.
Qed.
Lemma probability_unit f : 0 <= probability f <= 1.
Proof.
  split; [rewrite probability_u; apply Rmult_le_pos; [apply pos_INR|apply Rlt_le, u_pos]|]. rewrite <- probability_true. apply probability_le. auto.
Qed.
Lemma probability_ext (f g : Z -> bool) : (forall k, (0 <= k < 2 ^ 53)%Z -> f k = g k) -> probability f = probability g.
Proof. intros H. rewrite !probability_u. rewrite (@count_ext f g); [reflexivity|]. intros k. rewrite draws_Z. apply H. Qed.
Lemma count_false n : count (fun _ => false) n = 0%nat.
Proof. induction n as [|n IH]; [reflexivity|exact IH]. Qed.
Lemma probability_false : probability (fun _ => false) = 0.
Proof. rewrite probability_u, count_false. change (INR 0) with 0. ring. Qed.
Lemma probability_zero : probability (fun k => (k =? 0)%Z) = u.
Proof.
  rewrite probability_u. assert (H : count (fun k => (k =? 0)%Z) draws = 1%nat); [|rewrite H; change (INR 1) with 1; ring].
  assert (G : forall n, count (fun k => (k =? 0)%Z) (Datatypes.S n) = 1%nat).
  { induction n as [|n IH]; [reflexivity|]. cbn [count] in IH |- *. destruct (Z.eqb_spec (Z.of_nat (Datatypes.S n)) 0); [lia|exact IH]. }
  pose proof draws_Z as D. destruct draws as [|n]; [discriminate D|apply G].
Qed.
Lemma probability_positive : probability (fun k => negb (k =? 0)%Z) = 1 - u.
Proof.
  pose proof (@probability_split (fun _ => true) (fun k => negb (k =? 0)%Z) (fun k => (k =? 0)%Z)) as H. rewrite probability_true, probability_zero in H. rewrite H; [ring|]. intros k _. destruct (k =? 0)%Z; reflexivity.
Qed.

Definition yes (b : option bool) : bool := match b with Some true => true | _ => false end.
Definition no (b : option bool) : bool := match b with Some false => true | _ => false end.
Section Accept.
Variable lib_log : dbl -> dbl.
Hypothesis Ac : accurate lib_log.
Variables (eta B : R) (a b c d p q : dbl) (va vb vc vd vp vq : xf).
Hypothesis E0 : 0 <= eta.
Hypothesis B0 : 0 <= B.
Hypothesis Ha : shows eta B a va.
Hypothesis Hb : shows eta B b vb.
Hypothesis Hc : shows eta B c vc.
Hypothesis Hd : shows eta B d vd.
Hypothesis Hp : shows eta B p vp.
Hypothesis Hq : shows eta B q vq.
Let dec k := decide lib_log a b c d p q k.
Let A := acc_prob 1 va vb vc vd vp vq.

Lemma accept_close : Rabs (probability (fun k => yes (dec k)) - A) <= 6 * eta + (108 + 24 * (B + eta)) / 2 ^ 53.
Proof.
  pose proof u_pow as Up. unfold Rdiv. rewrite <- Up. pose proof u_pos as U. pose proof u_small as Us. assert (C0 : 0 <= B + eta) by lra.
  destruct (Rle_or_lt (100 * (B + eta)) (bpow radix2 800)) as [Sm|Bg].
  2:{ apply Rle_trans with 1.
      - pose proof (probability_unit (fun k => yes (dec k))). pose proof (acc_unit va vb vc vd vp vq) as Hu. fold A in Hu. apply Rabs_le. lra.
      - assert (X : bpow radix2 60 * u = bpow radix2 7) by (unfold u; rewrite <- bpow_plus; reflexivity). assert (Y : bpow radix2 60 <= bpow radix2 800) by (apply bpow_le; lia). change (bpow radix2 7) with 128 in X. nra. }
  assert (Big : bpow radix2 800 <= bpow radix2 1000) by (apply bpow_le; lia).
  pose proof (shows_kin Ha) as Ka. pose proof (shows_kin Hb) as Kb. pose proof (shows_kin Hc) as Kc. pose proof (shows_kin Hd) as Kd. pose proof (shows_kin Hp) as Kp. pose proof (shows_kin Hq) as Kq.
  assert (Rest : 0 <= 6 * eta + (108 + 24 * (B + eta)) * u) by nra. assert (One : u <= 6 * eta + (108 + 24 * (B + eta)) * u) by nra.
  unfold A, acc_prob. unfold dec, decide. rewrite (kin_minus Kq), (kin_minus Kp). destruct (is_ninf vq) eqn:Nq.
  { rewrite Rminus_0_r. change (fun k : Z => yes (Some false)) with (fun _ : Z => false). rewrite probability_false, Rabs_R0. exact Rest. }
  destruct (is_ninf vp) eqn:Np.
  { change (fun k : Z => yes (Some true)) with (fun _ : Z => true). rewrite probability_true. replace (1 - 1) with 0 by ring. rewrite Rabs_R0. exact Rest. }
  pose proof (@ratio_kin (B + eta) a b c d p q va vb vc vd vp vq C0 ltac:(lra) Ka Kb Kc Kd Kp Kq) as K.
  set (ratio := mh_ratio a b c d p q one) in *. destruct (metropolis_hastings_ratio va vb vc vd vp vq 1) as [r| | |] eqn:Er; cbn [kin] in K.
  - unfold metropolis_hastings_ratio in Er. cbv zeta in Er. apply finite_parts in Er as (r1 & r2 & E1 & E2 & ->). apply finite_diff in E1 as (r3 & r4 & E3 & E4 & ->).
    apply finite_diff in E2 as (rc & rd' & -> & -> & ->). apply finite_diff in E4 as (rp & rq & -> & -> & ->). destruct (xsub va vb) as [r5| | |] eqn:E5; cbn in E3; try (destruct (Rlt_dec 0 1); [discriminate|]; lra); try discriminate.
    apply finite_diff in E5 as (ra & rb & -> & -> & ->). injection E3 as <-. cbn in Ha, Hb, Hc, Hd, Hp, Hq, Ka, Kb, Kc, Kd, Kp, Kq.
    destruct Ha as (Fa & Xa & _), Hb as (Fb & Xb & _), Hc as (Fc & Xc & _), Hd as (Fd & Xd & _), Hp as (Fp & Xp & _), Hq as (Fq & Xq & _).
    assert (S : size (val a) (val b) (val c) (val d) (val p) (val q) <= 6 * (B + eta)).
    { unfold size. assert (D : forall x y, Rabs x <= B + eta -> Rabs y <= B + eta -> Rabs (x - y) <= 2 * (B + eta)) by (intros x y X Y; unfold Rminus; eapply Rle_trans; [apply Rabs_triang|]; rewrite Rabs_Ropp; lra).
      destruct Ka as [_ Ka], Kb as [_ Kb], Kc as [_ Kc], Kd as [_ Kd], Kp as [_ Kp], Kq as [_ Kq]. pose proof (D _ _ Ka Kb). pose proof (D _ _ Kc Kd). pose proof (D _ _ Kp Kq). lra. }
    assert (S9 : size (val a) (val b) (val c) (val d) (val p) (val q) <= 2 ^ 900).
    { replace (2 ^ 900) with (bpow radix2 900) by (rewrite bpow_powerRZ; symmetry; apply pow_powerRZ). assert (bpow radix2 800 <= bpow radix2 900) by (apply bpow_le; lia). lra. }
    pose proof (@C105_probability lib_log a b c d p q Ac ltac:(repeat (apply Forall_cons; [assumption|]); apply Forall_nil) S9) as Pr. unfold Rdiv in Pr. rewrite <- Up in Pr.
    assert (Q : Rabs (exact_ratio (val a) (val b) (val c) (val d) (val p) (val q) - (1 * (ra - rb) - (rp - rq) + (rc - rd'))) <= 6 * eta).
    { unfold exact_ratio. apply Rabs_le_inv' in Xa, Xb, Xc, Xd, Xp, Xq. apply Rabs_le. lra. }
    apply exact_close in Q. unfold exact_probability in Q at 2.
    replace (probability _) with (probability (fun k => match decide lib_log a b c d p q k with Some true => true | _ => false end)).
    2:{ apply probability_ext. intros k _. unfold decide. rewrite !not_minus_inf by assumption. unfold yes. reflexivity. }
    set (pr := probability _) in *. set (x1 := exact_probability _) in *. set (x2 := Rmin 1 _) in *.
    replace (pr - x2) with ((pr - x1) + (x1 - x2)) by ring. eapply Rle_trans; [apply Rabs_triang|].
    assert (4 * size (val a) (val b) (val c) (val d) (val p) (val q) * u <= 24 * (B + eta) * u) by (apply Rmult_le_compat_r; lra). lra.
  - assert (X : probability (fun k => yes (if (k =? 0)%Z then None else Some (ltb (lib_log (uniform k)) ratio))) = 1 - u).
    { rewrite <- probability_positive. apply probability_ext. intros k Hk. destruct (Z.eqb_spec k 0); [reflexivity|]. cbn [yes negb]. rewrite K.
      destruct (log_close lib_log Ac k ltac:(lia)) as (F & _). unfold fin in F. unfold ltb. destruct (lib_log (uniform k)) as [s|s|s pl e|s m e Bd]; cbn in F |- *; try discriminate; reflexivity. }
    rewrite X. replace (1 - u - 1) with (- u) by ring. rewrite Rabs_Ropp, Rabs_pos_eq by lra. exact One.
  - assert (X : probability (fun k => yes (if (k =? 0)%Z then None else Some (ltb (lib_log (uniform k)) ratio))) = 0).
    { eapply eq_trans; [|exact probability_false]. apply probability_ext.
      intros k Hk. destruct (Z.eqb_spec k 0); [reflexivity|]. rewrite K. rewrite ltb_inf; [reflexivity|]. apply (log_close lib_log Ac k). lia. }
    rewrite X, Rminus_0_r, Rabs_R0. exact Rest.
  - assert (X : probability (fun k => yes (if (k =? 0)%Z then None else Some (ltb (lib_log (uniform k)) ratio))) = 0).
    { eapply eq_trans; [|exact probability_false]. apply probability_ext.
      intros k Hk. destruct (Z.eqb_spec k 0); [reflexivity|]. unfold ltb. destruct ratio as [s|s|s pl e|s m e Bd]; cbn in K; try discriminate. destruct (lib_log (uniform k)); reflexivity. }
    rewrite X, Rminus_0_r, Rabs_R0. exact Rest.
Qed.

Lemma raise_zero k : dec k = None -> k = 0%Z.
Proof. intros H. apply C105_raises in H. apply H. Qed.
Lemma yes_no : 1 - u <= probability (fun k => yes (dec k)) + probability (fun k => no (dec k)) <= 1.
Proof.
  rewrite <- (@probability_split (fun k => match dec k with Some _ => true | None => false end)).
  2:{ intros k _. destruct (dec k) as [[]|]; reflexivity. }
  split; [|apply probability_unit]. rewrite <- probability_positive. apply probability_le. intros k _ H. destruct (dec k) as [b'|] eqn:E; [reflexivity|]. apply raise_zero in E. subst k. discriminate.
Qed.
(** The same for draws that are not zero. *)
Definition given (f : Z -> bool) : R := probability (fun k => negb (k =? 0)%Z && f k) / probability (fun k => negb (k =? 0)%Z).
Lemma Rabs_via x y z : Rabs (x - z) <= Rabs (x - y) + Rabs (y - z).
Proof. replace (x - z) with ((x - y) + (y - z)) by ring. apply Rabs_triang. Qed.
Lemma ratio_close v x y : 0 < v -> v <= / 1024 -> 0 <= x <= 1 -> 0 <= y <= 1 -> y <= x -> x <= y + v -> Rabs (y / (1 - v) - x) <= 3 * v.
Proof.
  intros U Us F G X Y. assert (Z : y / (1 - v) = y + y * v / (1 - v)) by (field; lra). assert (W : 0 <= y * v / (1 - v) <= 2 * v).
  { split; [apply Rmult_le_pos; [nra|apply Rlt_le, Rinv_0_lt_compat; lra]|]. apply Rmult_le_reg_r with (1 - v); [lra|]. unfold Rdiv. rewrite Rmult_assoc, Rinv_l by lra. nra. }
  rewrite Z. apply Rabs_le. lra.
Qed.
Lemma given_close f : Rabs (given f - probability f) <= 3 * u.
Proof.
  pose proof u_pos as U. pose proof u_small as Us. unfold given. rewrite probability_positive.
  assert (X : probability (fun k => negb (k =? 0)%Z && f k) <= probability f) by (apply probability_le; intros k _ H; apply andb_prop in H; tauto).
  assert (Y : probability f <= probability (fun k => negb (k =? 0)%Z && f k) + u).
  { rewrite <- probability_zero at 1. rewrite (@probability_split f (fun k => negb (k =? 0)%Z && f k) (fun k => (k =? 0)%Z && f k)) by (intros k _; destruct (k =? 0)%Z, (f k); reflexivity).
    apply Rplus_le_compat_l. apply probability_le. intros k _ H. apply andb_prop in H. tauto. }
  exact (@ratio_close _ _ _ U Us (probability_unit f) (probability_unit _) X Y).
Qed.
Lemma given_accept : Rabs (given (fun k => yes (dec k)) - A) <= 6 * eta + (111 + 24 * (B + eta)) / 2 ^ 53.
Proof.
  pose proof accept_close as H. pose proof (given_close (fun k => yes (dec k))) as G. unfold Rdiv in *. rewrite <- u_pow in *. eapply Rle_trans; [apply (@Rabs_via _ (probability (fun k => yes (dec k))))|]. lra.
Qed.
Lemma given_yes_no : given (fun k => yes (dec k)) + given (fun k => no (dec k)) = 1.
Proof.
  unfold given. pose proof u_small as Us. rewrite <- Rdiv_plus_distr. rewrite <- (@probability_split (fun k => negb (k =? 0)%Z)).
  - rewrite probability_positive. field. lra.
  - intros k _. destruct (Z.eqb_spec k 0) as [|N]; cbn [negb andb]; [reflexivity|]. destruct (dec k) as [[]|] eqn:E; [reflexivity|reflexivity|]. apply raise_zero in E. contradiction.
Qed.
End Accept.
