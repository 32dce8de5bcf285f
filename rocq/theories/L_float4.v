(** Lemmas: the masked weights, the products with the likelihoods and the component drawn. *)
From Coq Require Import List ZArith Reals Permutation Lra Lia Bool Psatz.
From Flocq Require Import Core.Core IEEE754.BinarySingleNaN IEEE754.Binary IEEE754.Bits.
From Verif Require Import Base M_float S_float L_float L_float2 L_float3.
From Verif Require M_params.
Import ListNotations.
Set Implicit Arguments.
Unset Strict Implicit.
Local Open Scope R_scope.

Lemma nth_map2 A B C (f : A -> B -> C) a b c l r i : (i < length l)%nat -> (i < length r)%nat -> nth i (map2 f l r) c = f (nth i l a) (nth i r b).
Proof. revert r i. induction l as [|x l IH]; intros [|y r] [|i] H1 H2; cbn in H1, H2; try lia; [reflexivity|]. cbn. apply IH; lia. Qed.

Lemma mul_fraction x y : fraction x -> fraction y -> fraction (mul x y) /\ val (mul x y) = rd (val x * val y).
Proof.
  intros Fx Fy. pose proof (fraction_ok Fx) as Ox. pose proof (fraction_ok Fy) as Oy. destruct Fx as [Fx1 Fx2], Fy as [Fy1 Fy2].
  assert (B : 0 <= val x * val y <= 1) by nra. pose proof one_big.
  destruct (mul_ok Ox Oy) as ((A1 & A2) & A3); [lra|]. split; [|exact A3]. split; [exact A1|]. split; [exact A2|].
  rewrite A3. rewrite <- (rd_fmt fmt_1). apply rd_le. lra.
Qed.

Lemma of_bool_fraction h : fraction (of_bool h) /\ val (of_bool h) = if h then 1 else 0.
Proof. destruct h; cbn [of_bool]; [destruct one_val as ((A & B) & C)|destruct zero_val as ((A & B) & C)]; split; try exact C; split; try assumption; rewrite C; lra. Qed.

Section Source.
  Variable (o1 o2 : order) (has : list bool) (w lh : list dbl).
  Hypothesis (Fw : Forall fraction w) (Fl : Forall fraction lh) (Lw : length w = length has) (Ll : length lh = length has).
  Hypothesis (O1 : order_of o1 (length has)) (O2 : order_of o2 (length has)) (Sn : small (length has)).
  Let n : nat := length has.
  Let m : list dbl := map2 mul w (map of_bool has).
  Let sw : list dbl := site_weights o1 has w.
  Let p : list dbl := map2 mul lh sw.

  Lemma m_length : length m = n. Proof. unfold m. rewrite map2_length, map_length, Lw. apply Nat.min_id. Qed.
  Lemma m_nth i : (i < n)%nat -> fraction (nth i m zero) /\ val (nth i m zero) = if nth i has false then val (nth i w zero) else 0.
  Proof.
    intros Hi. unfold m. rewrite (nth_map2 mul zero (of_bool false)) by (rewrite ?map_length, ?Lw; exact Hi). rewrite map_nth.
    destruct (of_bool_fraction (nth i has false)) as (A & B). assert (Fi : fraction (nth i w zero)) by (apply nth_fraction; [exact Fw|rewrite Lw; exact Hi]).
    destruct (mul_fraction Fi A) as (C & D). split; [exact C|]. rewrite D, B. destruct (nth i has false).
    - rewrite Rmult_1_r. apply rd_fmt, fmt_val. - rewrite Rmult_0_r. apply rd_0.
  Qed.
  Lemma m_fraction : Forall fraction m.
  Proof. apply Forall_forall. intros y Hy. apply (In_nth _ _ zero) in Hy as (i & Hi & <-). apply m_nth. rewrite <- m_length. exact Hi. Qed.

  Hypothesis (Tm : 0 < total (vals m)).

  Lemma sum_bound : 0 < val (sum_in o1 m) <= bpow radix2 54.
  Proof.
    pose proof m_length as Lm. assert (O : order_of o1 (length m)) by (rewrite Lm; exact O1). assert (Sm : small (length m)) by (rewrite Lm; exact Sn).
    split; [apply (normalize_row_ok m_fraction O Sm Tm)|].
    destruct (row_sum m_fraction O Sm) as (_ & B & _). apply Rabs_le_inv' in B.
    assert (T : total (vals m) <= INR (length m)). { replace (length m) with (length (vals m)) by apply map_length. apply total_le_length, Forall_forall. intros y Hy. apply in_map_iff in Hy as (z & <- & Hz). pose proof m_fraction as F. rewrite Forall_forall in F. destruct (F z Hz). lra. }
    pose proof (small_big Sm) as Bg. replace (bpow radix2 54) with (2 * bpow radix2 53) by (change 54%Z with (1 + 53)%Z; rewrite bpow_plus; reflexivity).
    unfold small in Sm. assert (2 * INR (length m) * u * total (vals m) <= total (vals m)) by (rewrite <- (Rmult_1_l (total (vals m))) at 2; apply Rmult_le_compat_r; lra). lra.
  Qed.

  Lemma sw_length : length sw = n. Proof. unfold sw, site_weights. rewrite normalize_row_length. apply m_length. Qed.
  Lemma sw_nth i : (i < n)%nat -> fraction (nth i sw zero) /\ val (nth i sw zero) = rd (val (nth i m zero) / val (sum_in o1 m)).
  Proof.
    intros Hi. pose proof m_length as Lm. assert (O : order_of o1 (length m)) by (rewrite Lm; exact O1). assert (Sm : small (length m)) by (rewrite Lm; exact Sn).
    destruct (normalize_row_ok m_fraction O Sm Tm) as (A & B & S0). assert (Hm : (i < length m)%nat) by (rewrite Lm; exact Hi).
    split. { unfold sw, site_weights. apply nth_fraction; [exact A|]. rewrite normalize_row_length. exact Hm. }
    destruct (B i Hm) as (_ & _ & B1 & B2). unfold sw, site_weights. fold m. destruct (m_nth Hi) as ([_ F] & _).
    destruct (Req_dec (val (nth i m zero)) 0) as [E|E].
    - rewrite (B1 E), E. unfold Rdiv. rewrite Rmult_0_l, rd_0. reflexivity.
    - apply B2. apply Rmult_lt_0_compat; [lra|]. apply Rinv_0_lt_compat, S0.
  Qed.

  Lemma p_length : length p = n. Proof. unfold p. rewrite map2_length, sw_length, Ll. apply Nat.min_id. Qed.
  Lemma p_nth i : (i < n)%nat -> fraction (nth i p zero) /\ val (nth i p zero) = rd (val (nth i lh zero) * val (nth i sw zero)).
  Proof.
    intros Hi. unfold p. rewrite (nth_map2 mul zero zero) by (rewrite ?sw_length, ?Ll; exact Hi).
    apply mul_fraction; [apply nth_fraction; [exact Fl|rewrite Ll; exact Hi]|apply sw_nth, Hi].
  Qed.
  Lemma p_fraction : Forall fraction p.
  Proof. apply Forall_forall. intros y Hy. apply (In_nth _ _ zero) in Hy as (i & Hi & <-). apply p_nth. rewrite <- p_length. exact Hi. Qed.

  Lemma exact_nth i : (i < n)%nat -> nth i (exact_terms has w lh) 0 = if nth i has false then val (nth i w zero) * val (nth i lh zero) else 0.
  Proof.
    intros Hi. unfold exact_terms. rewrite (nth_map2 _ false 0) by (rewrite ?map2_length, ?Lw, ?Ll, ?Nat.min_id; exact Hi).
    rewrite (nth_map2 _ zero zero) by (rewrite ?Lw, ?Ll; exact Hi). reflexivity.
  Qed.
  Lemma exact_length : length (exact_terms has w lh) = n.
  Proof. unfold exact_terms. rewrite !map2_length, Lw, Ll, !Nat.min_id. reflexivity. Qed.

  (** A product vanishes with its exact value. *)
  Lemma p_zero i : (i < n)%nat -> nth i (exact_terms has w lh) 0 = 0 -> val (nth i p zero) = 0.
  Proof.
    intros Hi. rewrite exact_nth by exact Hi. destruct (p_nth Hi) as (_ & ->). destruct (sw_nth Hi) as (_ & ->). destruct (m_nth Hi) as (_ & ->).
    intros E. destruct (nth i has false); [|unfold Rdiv; rewrite Rmult_0_l, rd_0, Rmult_0_r; apply rd_0].
    apply Rmult_integral in E as [->| ->]; [unfold Rdiv; rewrite Rmult_0_l, rd_0, Rmult_0_r; apply rd_0|rewrite Rmult_0_l; apply rd_0].
  Qed.

  (** Large enough inputs make a positive product. *)
  Lemma sw_large i a : (i < n)%nat -> (-1020 <= a)%Z -> nth i has false = true -> bpow radix2 a <= val (nth i w zero) -> bpow radix2 (a - 54) <= val (nth i m zero) / val (sum_in o1 m).
  Proof.
    intros Hi Ha H E. destruct (m_nth Hi) as (_ & ->). rewrite H. destruct sum_bound as (S0 & S1).
    unfold Z.sub. rewrite bpow_plus. apply Rmult_le_compat; try apply bpow_ge_0; [exact E|]. rewrite bpow_opp. apply Rinv_le; assumption.
  Qed.
  Lemma p_positive i : (i < n)%nat -> nth i has false = true -> bpow radix2 (-500) <= val (nth i w zero) -> bpow radix2 (-500) <= val (nth i lh zero) -> 0 < val (nth i p zero).
  Proof.
    intros Hi H A B. destruct (p_nth Hi) as (_ & ->). destruct (sw_nth Hi) as (_ & ->). pose proof (@sw_large i (-500) Hi ltac:(lia) H A) as C.
    apply rd_le in C. rewrite rd_bpow in C by lia.
    apply Rlt_le_trans with (bpow radix2 (-1054)); [apply bpow_gt_0|]. rewrite <- (@rd_bpow (-1054)) by lia. apply rd_le.
    change (-1054)%Z with ((-500) + (-500 - 54))%Z. rewrite bpow_plus. apply Rmult_le_compat; try apply bpow_ge_0; assumption.
  Qed.

  Hypothesis (Tp : 0 < total (vals p)).

  Lemma draw_exact k : (0 <= k < 2 ^ 53)%Z -> let j := draw_source o1 o2 has w lh k in
    (j < n)%nat /\ (0 < nth j (exact_terms has w lh) 0 \/ (j = O /\ (2 ^ 53 - 8 * Z.of_nat n <= k)%Z)).
  Proof.
    intros Hk. cbv zeta. unfold draw_source, source_posterior. fold sw. fold p.
    pose proof p_length as Lp. assert (O : order_of o2 (length p)) by (rewrite Lp; exact O2). assert (Sm : small (length p)) by (rewrite Lp; exact Sn).
    destruct (normalize_row_ok p_fraction O Sm Tp) as (Fq & Q & _). set (q := normalize_row o2 p) in *.
    assert (Lq : length q = length p) by apply normalize_row_length. assert (Sq : small (length q)) by (rewrite Lq; exact Sm).
    assert (Nq : (0 < length q)%nat). { rewrite Lq. destruct p; [cbn in Tp; lra|cbn; lia]. }
    destruct (drawn Fq Sq Nq Hk) as (A & _). rewrite Lq, Lp in A. split; [exact A|].
    destruct (Req_dec (nth (categorical k q) (exact_terms has w lh) 0) 0) as [Z|Z].
    - right. assert (P0 : val (nth (categorical k q) q zero) = 0). { apply Q; [rewrite Lp; exact A|]. apply p_zero; assumption. }
      destruct (drawn_zero Fq Sq Nq Hk P0) as (B & C). split; [exact B|]. rewrite Lq in C.
      destruct (@cdf_close o2 p p_fraction O Sm Tp (length p - 1)) as (D & _); [rewrite <- Lq; lia|]. fold q in D.
      assert (E : partial (shares (vals p)) (length p - 1) = 1).
      { unfold partial. replace (Datatypes.S (length p - 1)) with (length (shares (vals p))). - rewrite firstn_all. apply shares_total, Tp. - unfold shares, vals. rewrite !map_length. lia. }
      rewrite E in D. apply Rabs_le_inv' in D. rewrite Lp in D at 1 3. rewrite Lp in C.
      assert (X : 1 - 8 * INR n * u <= IZR k * u) by (rewrite Lp in D; lra).
      assert (Y : bpow radix2 53 - 8 * INR n <= IZR k).
      { assert (U : u * bpow radix2 53 = 1) by (unfold u; rewrite <- bpow_plus; reflexivity). pose proof u_pos as U0. apply (Rmult_le_reg_r u); [exact U0|]. rewrite Rmult_minus_distr_r, (Rmult_comm (bpow radix2 53)), U. lra. }
      apply le_IZR. rewrite minus_IZR, mult_IZR, <- INR_IZR_INZ. exact Y.
    - left. rewrite exact_nth in * by exact A. destruct (nth (categorical k q) has false); [|lra].
      assert (F1 : fraction (nth (categorical k q) w zero)) by (apply nth_fraction; [exact Fw|rewrite Lw; exact A]).
      assert (F2 : fraction (nth (categorical k q) lh zero)) by (apply nth_fraction; [exact Fl|rewrite Ll; exact A]).
      destruct F1 as [_ F1], F2 as [_ F2]. assert (0 <= val (nth (categorical k q) w zero) * val (nth (categorical k q) lh zero)) by (apply Rmult_le_pos; lra). lra.
  Qed.

  (** ** Distribution *)
  Hypothesis (Gw : forall i, (i < n)%nat -> val (nth i w zero) = 0 \/ bpow radix2 (-400) <= val (nth i w zero)).
  Hypothesis (Gl : forall i, (i < n)%nat -> val (nth i lh zero) = 0 \/ bpow radix2 (-400) <= val (nth i lh zero)).

  Lemma p_relative i : (i < n)%nat -> Rabs (val (nth i p zero) - nth i (exact_terms has w lh) 0 * / val (sum_in o1 m)) <= 3 * u * (nth i (exact_terms has w lh) 0 * / val (sum_in o1 m)).
  Proof.
    intros Hi. destruct (Req_dec (nth i (exact_terms has w lh) 0) 0) as [Z|Z].
    { rewrite (p_zero Hi Z), Z. rewrite Rmult_0_l, Rmult_0_r, Rminus_0_r, Rabs_R0. lra. }
    rewrite exact_nth in * by exact Hi. destruct (nth i has false) eqn:H; [|lra].
    destruct (Gw Hi) as [E|Ew]; [rewrite E, Rmult_0_l in Z; lra|]. destruct (Gl Hi) as [E|El]; [rewrite E, Rmult_0_r in Z; lra|].
    pose proof (@sw_large i (-400) Hi ltac:(lia) H Ew) as C. destruct sum_bound as (S0 & _).
    destruct (p_nth Hi) as (_ & ->). destruct (sw_nth Hi) as (_ & Es).
    destruct (@rd_rel (val (nth i m zero) / val (sum_in o1 m))) as (e1 & He1 & E1).
    { right. eapply Rle_trans; [|exact C]. apply bpow_le. lia. }
    assert (Cs : bpow radix2 (-454) <= val (nth i sw zero)). { rewrite Es. rewrite <- (@rd_bpow (-454)) by lia. apply rd_le. exact C. }
    destruct (@rd_rel (val (nth i lh zero) * val (nth i sw zero))) as (e2 & He2 & E2).
    { right. apply Rle_trans with (bpow radix2 (-400) * bpow radix2 (-454)). - rewrite <- bpow_plus. apply bpow_le. lia. - apply Rmult_le_compat; try apply bpow_ge_0; assumption. }
    rewrite E2, Es, E1. destruct (m_nth Hi) as (_ & ->). rewrite H. unfold Rdiv.
    set (x := val (nth i w zero) * val (nth i lh zero) * / val (sum_in o1 m)).
    assert (X : 0 <= x). { unfold x. apply Rmult_le_pos; [apply Rmult_le_pos|apply Rlt_le, Rinv_0_lt_compat, S0]; (eapply Rle_trans; [apply (bpow_ge_0 radix2 (-400))|assumption]). }
    match goal with |- Rabs (?z) <= _ => replace z with (x * (e1 + e2 + e1 * e2)) by (unfold x; ring) end.
    rewrite Rabs_mult, (Rabs_pos_eq x X), Rmult_comm. apply Rmult_le_compat_r; [exact X|].
    pose proof u_pos. pose proof u_small. apply Rabs_le_inv' in He1. apply Rabs_le_inv' in He2. apply Rabs_le. split; nra.
  Qed.

  Lemma draw_probability i : (i < n)%nat -> Rabs (probability (fun k => Nat.eqb (draw_source o1 o2 has w lh k) i) - share (exact_terms has w lh) i) <= 32 * INR n * u.
  Proof.
    intros Hi. pose proof u_pos as U. pose proof u_small as U1. pose proof p_length as Lp. assert (O : order_of o2 (length p)) by (rewrite Lp; exact O2). assert (Sm : small (length p)) by (rewrite Lp; exact Sn).
    pose proof (@categorical_probability o2 p i p_fraction O Sm Tp ltac:(rewrite Lp; exact Hi)) as A.
    unfold draw_source, source_posterior; fold sw; fold p. rewrite Lp in A.
    destruct sum_bound as (S0 & _); pose proof (Rinv_0_lt_compat _ S0) as S1; set (c := / val (sum_in o1 m)) in *.
    set (x := map (fun y => y * c) (exact_terms has w lh)).
    assert (X : forall j, nth j x 0 = nth j (exact_terms has w lh) 0 * c) by (intros j; unfold x; rewrite <- (Rmult_0_l c) at 1; apply (@map_nth _ _ (fun y => y * c))).
    assert (Pos : forall j, (j < n)%nat -> 0 <= nth j (exact_terms has w lh) 0) by
      (intros j Hj; rewrite exact_nth by exact Hj; destruct (nth j has false); [|lra];
       assert (F1 : fraction (nth j w zero)) by (apply nth_fraction; [exact Fw|rewrite Lw; exact Hj]);
       assert (F2 : fraction (nth j lh zero)) by (apply nth_fraction; [exact Fl|rewrite Ll; exact Hj]);
       destruct F1 as [_ F1], F2 as [_ F2]; apply Rmult_le_pos; lra).
    assert (Lx : length x = n) by (unfold x; rewrite map_length; apply exact_length).
    assert (Px : Forall (fun y => 0 <= y) x) by (apply Forall_forall; intros y Hy; apply (In_nth _ _ 0) in Hy as (j & Hj & <-); rewrite X; apply Rmult_le_pos; [apply Pos; rewrite <- Lx; exact Hj|lra]).
    destruct (@total_close (3 * u) 0 (vals p) x) with (k := n) as (B & _); [lra|lra| |exact Px|].
    { apply Forall2_nth_R; [unfold vals; rewrite map_length, Lx; exact Lp|]; intros j Hj; unfold vals in Hj; rewrite map_length, Lp in Hj; rewrite nth_vals, X, Rplus_0_r; apply p_relative, Hj. }
    rewrite Rmult_0_r, Rplus_0_r in B; rewrite <- Lx in B at 2 3; rewrite firstn_all in B; replace n with (length (vals p)) in B by (unfold vals; rewrite map_length; exact Lp); rewrite firstn_all in B.
    assert (Tx : total x = total (exact_terms has w lh) * c) by apply total_scale.
    pose proof (p_relative Hi) as D; fold c in D; rewrite <- X in D.
    apply Rabs_le_inv' in B; apply Rabs_le_inv' in D; apply Rabs_le_inv' in A.
    assert (T0 : 0 < total x) by nra.
    assert (Sh : share (exact_terms has w lh) i = nth i x 0 / total x) by (unfold share; rewrite X, Tx; assert (total (exact_terms has w lh) <> 0) by (intros Y; rewrite Y in Tx; lra); field; lra).
    rewrite Sh; unfold share in A; rewrite nth_vals in A.
    assert (XI : 0 <= nth i x 0 <= total x) by (split; [rewrite X; apply Rmult_le_pos; [apply Pos, Hi|lra]|apply nth_le_total, Px]).
    set (g := nth i x 0 / total x) in *; assert (Eg : g * total x = nth i x 0) by (unfold g; field; lra).
    assert (G : 0 <= g <= 1) by (split; [unfold g; apply Rmult_le_pos; [lra|apply Rlt_le, Rinv_0_lt_compat, T0]|apply (Rmult_le_reg_r (total x)); [exact T0|]; rewrite Eg; lra]).
    set (h := val (nth i p zero) / total (vals p)) in *; assert (Eh : h * total (vals p) = val (nth i p zero)) by (unfold h; field; lra).
    assert (H1 : h <= g + 7 * u) by (apply (Rmult_le_reg_r (total (vals p))); [exact Tp|]; rewrite Eh; nra).
    assert (H2 : g - 7 * u <= h) by (apply (Rmult_le_reg_r (total (vals p))); [exact Tp|]; rewrite Eh; nra).
    assert (N : 1 <= INR n) by (change 1 with (INR 1); apply le_INR; lia).
    apply Rabs_le; split; nra.
  Qed.
End Source.
