(** Lemmas for C107: the rows of the transition matrix in double precision. *)
From Coq Require Import List ZArith Reals Qreals Lra Lia Bool Psatz.
From Verif Require Import Base M_float S_float L_float L_float2 L_float3 L_float4 M_fchoice S_fchoice L_fchoice P_fchoice M_faccept S_faccept P_faccept M_fchain S_fchain L_fchain L_fchain2.
From Verif Require Import M_mcmc M_operators S_operators S_mcmc S_honest S_gsource S_ergodic L_balance L_doeblin L_reach3.
Import ListNotations.
Set Implicit Arguments.
Unset Strict Implicit.
Local Open Scope R_scope.

Section Rows.
Variable pr : (Z -> bool) -> R.
Hypothesis pr_split : forall f g h : Z -> bool, (forall k, (0 <= k < 2 ^ 53)%Z -> (if f k then 1 else 0)%nat = ((if g k then 1 else 0) + (if h k then 1 else 0))%nat) -> pr f = pr g + pr h.
Hypothesis pr_pos : forall f : Z -> bool, 0 <= pr f.
Hypothesis pr_true : pr (fun _ => true) = 1.
Hypothesis pr_false : pr (fun _ => false) = 0.
Variable lib_log : dbl -> dbl.
Variables (eta B delta s kappa : R).
Hypothesis d0 : 0 <= delta.
Hypothesis s0 : 0 <= s.
Hypothesis close : forall a b c d p q va vb vc vd vp vq, shows eta B a va -> shows eta B b vb -> shows eta B c vc -> shows eta B d vd -> shows eta B p vp -> shows eta B q vq ->
  Rabs (pr (fun k => yes (decide lib_log a b c d p q k)) - acc_prob 1 va vb vc vd vp vq) <= delta.
Hypothesis both : forall a b c d p q, 1 - s <= pr (fun k => yes (decide lib_log a b c d p q k)) + pr (fun k => no (decide lib_log a b c d p q k)) <= 1.
Variables (ll prior : cstate -> dbl) (vll vprior : cstate -> xf) (e : env) (states : list cstate) (D : drawing).
Hypothesis V : valid_env e.
Hypothesis nodup : NoDup states.
Hypothesis Hll : forall x, In x states -> shows eta B (ll x) (vll x).
Hypothesis Hprior : forall x, In x states -> shows eta B (prior x) (vprior x).
Hypothesis HD : rounded_operators eta B kappa e states D.
Let L (f : Z -> option cstate) (y : cstate) : R := pr (fun k => in_state cstate_eq_dec y (f k)).
Notation eqd := cstate_eq_dec.

Lemma pr_ext f g : (forall k, (0 <= k < 2 ^ 53)%Z -> f k = g k) -> pr f = pr g.
Proof. intros H. rewrite (@pr_split f g (fun _ => false)); [rewrite pr_false; ring|]. intros k Hk. rewrite H by auto. destruct (g k); reflexivity. Qed.
Lemma land_none x z : L (next lib_log ll prior x None) z = if eqd x z then 1 else 0.
Proof.
  unfold L, next, in_state. destruct (eqd x z); [exact pr_true|exact pr_false].
Qed.
Lemma land_some x y lq lqb z : let dec := decide lib_log (ll y) (ll x) (prior y) (prior x) lq lqb in
  L (next lib_log ll prior x (Some (y, lq, lqb))) z = (if eqd y z then pr (fun k => yes (dec k)) else 0) + (if eqd x z then pr (fun k => no (dec k)) else 0).
Proof.
  cbv zeta. unfold L.
  rewrite (@pr_split _ (fun k => if eqd y z then yes (decide lib_log (ll y) (ll x) (prior y) (prior x) lq lqb k) else false)
                       (fun k => if eqd x z then no (decide lib_log (ll y) (ll x) (prior y) (prior x) lq lqb k) else false)).
  - destruct (eqd y z), (eqd x z); rewrite ?pr_false; reflexivity.
  - intros k _. unfold next. destruct (decide _ _ _ _ _ _ _ k) as [[]|]; unfold in_state, yes, no; destruct (eqd y z), (eqd x z); reflexivity.
Qed.
Lemma row_sum m x : In x states -> 1 - s <= Rsum (map (move_row lib_log ll prior D L m x) states) <= 1.
Proof.
  intros Hx. destruct (HD m Hx) as (_ & Hp & H1 & _ & Hcl). unfold move_row.
  rewrite Rsum_swap. rewrite <- H1 at 2. replace (1 - s) with ((1 - s) * Rsum (map snd (D m x))) by (rewrite H1; ring). rewrite <- Rsum_scal.
  assert (X : forall b, In b (D m x) -> (1 - s) * snd b <= Rsum (map (fun z => snd b * L (next lib_log ll prior x (fst b)) z) states) <= snd b).
  { intros [out p] Hb. rewrite Forall_forall in Hp. pose proof (Hp _ Hb) as P0. cbn [fst snd] in *. rewrite Rsum_scal. destruct (Req_dec p 0) as [->|N]; [lra|].
    assert (Y : 1 - s <= Rsum (map (fun z => L (next lib_log ll prior x out) z) states) <= 1).
    { destruct out as [[[y lq] lqb]|].
      - assert (In y states) as Hy by (eapply Hcl; [exact Hb|lra]). rewrite (@Rsum_ext _ _ _ _ (fun z _ => land_some x y lq lqb z)), Rsum_plus. rewrite !(@Rsum_hit _ eqd _ nodup) by auto. apply both.
      - rewrite (@Rsum_ext _ _ _ _ (fun z _ => land_none x z)), (@Rsum_hit _ eqd _ nodup) by auto. lra. }
    change (fun z => L (next lib_log ll prior x out) z) with (L (next lib_log ll prior x out)) in Y. revert Y. generalize (Rsum (map (L (next lib_log ll prior x out)) states)). intros; nra. }
  split; apply Rsum_le; intros b Hb; apply X, Hb.
Qed.
Lemma move_row_pos m x y : In x states -> 0 <= move_row lib_log ll prior D L m x y.
Proof.
  intros Hx. destruct (HD m Hx) as (_ & Hp & _). apply Rsum_nonneg. intros b Hb. rewrite Forall_forall in Hp. apply Rmult_le_pos; [apply Hp, Hb|apply pr_pos].
Qed.
(** One proposal. *)
Definition exact_part (x z : cstate) (a : outcome * Q) : R :=
  Q2R (snd a) * proposes eqd z (match fst a with Propose y q qb => Some (y, xq q, xq qb) | _ => None end) (fun q qb => acc_prob 1 (vll z) (vll x) (vprior z) (vprior x) q qb).
Lemma part_near x a b : In x states -> same_proposal eta B a b -> 0 <= Q2R (snd a) ->
  Rsum (map (fun z => if eqd x z then 0 else Rabs (snd b * L (next lib_log ll prior x (fst b)) z - exact_part x z a)) states) <= Rabs (snd b - Q2R (snd a)) + delta * Q2R (snd a).
Proof.
  intros Hx Sp Pa. destruct a as [out pa], b as [prop pb]. unfold exact_part. cbn [fst snd] in *.
  assert (N : 0 <= Rabs (pb - Q2R pa) + delta * Q2R pa) by (pose proof (Rabs_pos (pb - Q2R pa)); nra).
  destruct out as [|y q qb|]; unfold same_proposal in Sp; cbn [fst] in Sp.
  1,3: subst prop; rewrite Rsum_zero; [exact N|]; intros z Hz; cbn [proposes]; rewrite land_none; destruct (eqd x z); [reflexivity|]; rewrite !Rmult_0_r, Rminus_0_r; apply Rabs_R0.
  destruct Sp as (lq & lqb & -> & Hq & Hqb). destruct (in_dec eqd y states) as [Hy|Hy].
    + eapply Rle_trans; [|apply (@Rsum_hit_le _ eqd _ nodup _ y N)]. apply Rsum_le. intros z Hz. cbn [proposes]. rewrite land_some. destruct (eqd x z) as [Ez|Nz]; [destruct (eqd y z); lra|].
      destruct (eqd y z) as [<-|_].
      * pose proof (@close _ _ _ _ _ _ _ _ _ _ _ _ (Hll Hy) (Hll Hx) (Hprior Hy) (Hprior Hx) Hq Hqb) as C.
        pose proof (both (ll y) (ll x) (prior y) (prior x) lq lqb) as Bt. pose proof (pr_pos (fun k => no (decide lib_log (ll y) (ll x) (prior y) (prior x) lq lqb k))) as N0.
        pose proof (pr_pos (fun k => yes (decide lib_log (ll y) (ll x) (prior y) (prior x) lq lqb k))) as Y0.
        revert C Bt N0 Y0. generalize (pr (fun k => yes (decide lib_log (ll y) (ll x) (prior y) (prior x) lq lqb k))). intros Y.
        generalize (pr (fun k => no (decide lib_log (ll y) (ll x) (prior y) (prior x) lq lqb k))). intros No.
        generalize (acc_prob 1 (vll y) (vll x) (vprior y) (vprior x) (xq q) (xq qb)). intros A C Bt N0 Y0.
        replace (pb * (Y + 0) - Q2R pa * A) with ((pb - Q2R pa) * Y + Q2R pa * (Y - A)) by ring. eapply Rle_trans; [apply Rabs_triang|]. rewrite !Rabs_mult. rewrite (Rabs_right Y) by lra. rewrite (Rabs_right (Q2R pa)) by lra.
        pose proof (Rabs_pos (pb - Q2R pa)). nra.
      * rewrite Rplus_0_r, !Rmult_0_r, Rminus_0_r, Rabs_R0. lra.
    + rewrite Rsum_zero; [exact N|]. intros z Hz. destruct (eqd x z) as [|Nz]; [reflexivity|]. cbn [proposes]. rewrite land_some.
      destruct (eqd y z) as [->|_]; [contradiction|]. destruct (eqd x z); [congruence|]. rewrite Rplus_0_r, !Rmult_0_r, Rminus_0_r. apply Rabs_R0.
Qed.
Lemma parts_near x l r : In x states -> Forall2 (same_proposal eta B) l r -> (forall a, In a l -> 0 <= Q2R (snd a)) ->
  Rsum (map (fun z => if eqd x z then 0 else Rabs (Rsum (map (fun b => snd b * L (next lib_log ll prior x (fst b)) z) r) - Rsum (map (exact_part x z) l))) states)
  <= Rsum (map2 (fun a b => Rabs (snd b - Q2R (snd a))) l r) + delta * Rsum (map (fun a => Q2R (snd a)) l).
Proof.
  intros Hx F. induction F as [|a b l r Sp F IH]; intros Hp.
  - cbn [map map2]. rewrite Rsum_zero; [unfold Rsum; cbn; lra|]. intros z _. destruct (eqd x z); [reflexivity|]. unfold Rsum; cbn. rewrite Rminus_0_r. apply Rabs_R0.
  - cbn [map map2]. pose proof (IH (fun a H => Hp a (or_intror H))) as I. pose proof (@part_near x a b Hx Sp (Hp a (or_introl eq_refl))) as P.
    change (Rsum (?v :: ?t)) with (v + Rsum t). eapply Rle_trans; [|apply Rle_trans with ((Rabs (snd b - Q2R (snd a)) + delta * Q2R (snd a)) + (Rsum (map2 (fun a0 b0 => Rabs (snd b0 - Q2R (snd a0))) l r) + delta * Rsum (map (fun a0 => Q2R (snd a0)) l))); [apply Rplus_le_compat; [exact P|exact I]|]].
    + rewrite <- Rsum_plus. apply Rsum_le. intros z _. destruct (eqd x z); [lra|].
      change (Rsum (?v :: ?t)) with (v + Rsum t).
      match goal with |- Rabs (?p + ?q - (?v + ?w)) <= _ => replace (p + q - (v + w)) with ((p - v) + (q - w)) by ring end. apply Rabs_triang.
    + change (Rsum (?v :: ?t)) with (v + Rsum t). lra.
Qed.
Lemma row_apart m x : In x states ->
  Rsum (map (fun y => Rabs (move_row lib_log ll prior D L m x y - move_matrix e m vll vprior states x y)) states) <= 2 * (kappa + delta) + s.
Proof.
  intros Hx. destruct (HD m Hx) as (F & _ & _ & Hk & _).
  apply (@row_near _ eqd _ nodup x Hx).
  - apply Rle_trans with (Rsum (map2 (fun a b => Rabs (snd b - Q2R (snd a))) (run_move e m x) (D m x)) + delta * Rsum (map (fun a => Q2R (snd a)) (run_move e m x))).
    + eapply Rle_trans; [|apply (@parts_near x _ _ Hx F)].
      * apply Rsum_le. intros y _. destruct (eqd x y) as [|Ny]; [lra|]. apply Req_le. unfold move_row. f_equal. f_equal. unfold move_matrix, matrix. destruct (eqd x y); [congruence|].
        unfold kernel, move_props. rewrite map_map. apply Rsum_ext. intros [out p] _. reflexivity.
      * intros [out p] Ha. apply (run_move_nonneg V) in Ha. cbn [snd]. rewrite <- RMicromega.Q2R_0. apply Qle_Rle. exact Ha.
    + apply Rplus_le_compat; [exact Hk|]. pose proof (mass_one e m x) as M. unfold move_props in M. rewrite map_map in M.
      rewrite (@Rsum_ext _ (fun a => Q2R (snd a)) (fun a => snd (let '(out, p) := a in (match out with Propose y q qb => Some (y, xq q, xq qb) | _ => None end, Q2R p)))) by (intros [out p] _; reflexivity).
      rewrite M. lra.
  - apply row_sum, Hx.
  - apply (proj2 (move_matrix_stochastic vll vprior m V nodup)). exact Hx.
Qed.

(** The operators. *)
Variables (n : nat) (c : frequencies).
Hypothesis Hc : fixed_parameters c.
Hypothesis n0 : (0 < n)%nat.
Hypothesis n1 : INR n <= 2 ^ 19.
Let w i := probability (fun k => match choose_operator true n c k with Some j => Nat.eqb j i | None => false end).
Let v i := share (exact_frequencies true n c) i.
Lemma exact_length : length (exact_frequencies true n c) = (5 + n)%nat.
Proof. unfold exact_frequencies. rewrite app_length, repeat_length. reflexivity. Qed.
Lemma total_eq : total (exact_frequencies true n c) = val (f_clusters c) + val (f_source c).
Proof.
  destruct Hc as (_ & _ & _ & H1 & H2 & H3). unfold exact_frequencies. rewrite H1, H2, H3. cbn [app total].
  assert (Z : forall m, total (repeat (0 / INR n) m) = 0).
  { induction m as [|m IH]; [reflexivity|]. cbn [repeat total]. rewrite IH. unfold Rdiv. ring. }
  rewrite Z. field.
Qed.
Lemma total_pos : 0 < total (exact_frequencies true n c).
Proof. rewrite total_eq. destruct Hc as (_ & H1 & H2 & _). lra. Qed.
Lemma w_near i : (i < 3)%nat -> Rabs (w i - v i) <= INR (5 + n) / 2 ^ 47.
Proof. intros Hi. rewrite <- exact_length. apply C103_distribution; [apply Hc|auto|auto|exact total_pos|]. rewrite exact_length. lia. Qed.
Lemma w_pos i : 0 <= w i.
Proof. apply probability_unit. Qed.
Lemma frequency_zero i : (3 <= i)%nat -> nth i (exact_frequencies true n c) 0 = 0.
Proof.
  destruct Hc as (_ & _ & _ & H1 & H2 & H3). intros Hi. unfold exact_frequencies. rewrite H1, H2, H3. destruct i as [|[|[|[|[|i]]]]]; try lia; try reflexivity. cbn [app nth].
  clear. generalize n at 2. intros m. revert i. induction m as [|m IH]; intros [|i]; cbn [repeat nth]; try reflexivity; [unfold Rdiv; ring|apply IH].
Qed.
Lemma w_one : w 0 + w 1 + w 2 = 1.
Proof.
  assert (X : forall k, (0 <= k < 2 ^ 53)%Z -> exists i, choose_operator true n c k = Some i /\ (i < 3)%nat).
  { intros k Hk. destruct (@C103_chosen true n c k (proj1 Hc) n0 n1 total_pos Hk) as (i & E & _ & P). exists i. split; [exact E|]. destruct (Nat.lt_ge_cases i 3) as [|G]; [assumption|]. rewrite frequency_zero in P by exact G. lra. }
  unfold w. rewrite <- (@probability_split (fun k => match choose_operator true n c k with Some j => Nat.eqb j 0 || Nat.eqb j 1 | None => false end)).
  2:{ intros k Hk. destruct (X k Hk) as (i & -> & Hi). destruct i as [|[|[|i]]]; try reflexivity; lia. }
  rewrite <- (@probability_split (fun _ => true)); [exact probability_true|].
  intros k Hk. destruct (X k Hk) as (i & -> & Hi). destruct i as [|[|[|i]]]; try reflexivity; lia.
Qed.
Let Q := double_matrix lib_log ll prior D L n c.
Lemma Q_eq x y : Q x y = w 0 * move_row lib_log ll prior D L (Cluster OpGibbsish) x y + w 1 * move_row lib_log ll prior D L (Cluster OpGibbsish2) x y + w 2 * move_row lib_log ll prior D L Source x y.
Proof.
  unfold Q, double_matrix, cluster_moves, mapi, mapi_from, Rsum, fold_right. fold (w 0) (w 1) (w 2). ring.
Qed.
Lemma Q_pos x y : In x states -> 0 <= Q x y.
Proof. intros Hx. rewrite Q_eq. pose proof (w_pos 0). pose proof (w_pos 1). pose proof (w_pos 2). repeat apply Rplus_le_le_0_compat; apply Rmult_le_pos; auto using move_row_pos. Qed.
Lemma Q_row x : In x states -> 1 - s <= Rsum (map (Q x) states) <= 1.
Proof.
  intros Hx. rewrite (@Rsum_ext _ _ _ _ (fun y _ => Q_eq x y)), !Rsum_plus, !Rsum_scal.
  pose proof (w_pos 0) as A0. pose proof (w_pos 1) as A1. pose proof (w_pos 2) as A2. pose proof w_one as W.
  pose proof (row_sum (Cluster OpGibbsish) Hx) as R0. pose proof (row_sum (Cluster OpGibbsish2) Hx) as R1. pose proof (row_sum Source Hx) as R2.
  revert R0 R1 R2. fold (w 0) (w 1) (w 2). generalize (Rsum (map (move_row lib_log ll prior D L (Cluster OpGibbsish) x) states)) (Rsum (map (move_row lib_log ll prior D L (Cluster OpGibbsish2) x) states)) (Rsum (map (move_row lib_log ll prior D L Source x) states)).
  intros a b d R0 R1 R2. replace (1 - s) with ((1 - s) * (w 0 + w 1 + w 2)) by (rewrite W; ring). replace (1 : R) with (w 0 + w 1 + w 2) at 2 by exact W. nra.
Qed.
Lemma P_eq x y : sampler_matrix e (exact_moves n c) vll vprior states x y =
  v 0 * move_matrix e (Cluster OpGibbsish) vll vprior states x y + v 1 * move_matrix e (Cluster OpGibbsish2) vll vprior states x y + v 2 * move_matrix e Source vll vprior states x y.
Proof. unfold sampler_matrix, exact_moves, cluster_moves, mapi, mapi_from, map, Rsum, fold_right. fold (v 0) (v 1) (v 2). ring. Qed.
Lemma exact_full : full_schedule e (exact_moves n c).
Proof.
  destruct Hc as (_ & H1 & H2 & _). assert (T : total (exact_frequencies true n c) <> 0) by (pose proof total_pos; lra).
  assert (V0 : v 0 = val (f_clusters c) / 2 / (val (f_clusters c) + val (f_source c))) by (unfold v, share; rewrite total_eq; reflexivity).
  assert (V1 : v 1 = val (f_clusters c) / 2 / (val (f_clusters c) + val (f_source c))) by (unfold v, share; rewrite total_eq; reflexivity).
  assert (V2 : v 2 = val (f_source c) / (val (f_clusters c) + val (f_source c))) by (unfold v, share; rewrite total_eq; reflexivity).
  assert (I : 0 < / (val (f_clusters c) + val (f_source c))) by (apply Rinv_0_lt_compat; lra).
  assert (P0 : 0 < v 0) by (rewrite V0; apply Rmult_lt_0_compat; lra). assert (P1 : 0 < v 1) by (rewrite V1; apply Rmult_lt_0_compat; lra). assert (P2 : 0 < v 2) by (rewrite V2; apply Rmult_lt_0_compat; lra).
  unfold full_schedule, exact_moves, cluster_moves, mapi, mapi_from. fold (v 0) (v 1) (v 2). conj.
  - cbn [map fst]. unfold Rsum, fold_right. rewrite V0, V1, V2. field. lra.
  - intros x m [E|[E|[E|[]]]]; injection E as <- _; lra.
  - exists (v 2). split; [right; right; left; reflexivity|exact P2].
  - exists (v 1), OpGibbsish2. conj; [right; left; reflexivity|exact P1|exact Logic.I].
Qed.
Lemma one_near x i m : In x states -> (i < 3)%nat ->
  Rsum (map (fun y => Rabs (w i * move_row lib_log ll prior D L m x y - v i * move_matrix e m vll vprior states x y)) states) <= w i * (2 * (kappa + delta) + s) + INR (5 + n) / 2 ^ 47.
Proof.
  intros Hx Hi. pose proof (move_matrix_stochastic vll vprior m V nodup) as [Mp M1].
  apply Rle_trans with (w i * Rsum (map (fun y => Rabs (move_row lib_log ll prior D L m x y - move_matrix e m vll vprior states x y)) states) + Rabs (w i - v i) * Rsum (map (move_matrix e m vll vprior states x) states)).
  - rewrite <- !Rsum_scal, <- Rsum_plus. apply Rsum_le. intros y Hy. pose proof (Mp x y Hx Hy) as N. revert N. generalize (move_matrix e m vll vprior states x y) (move_row lib_log ll prior D L m x y). intros a b N.
    replace (w i * b - v i * a) with (w i * (b - a) + (w i - v i) * a) by ring. eapply Rle_trans; [apply Rabs_triang|]. rewrite !Rabs_mult, (Rabs_right (w i)), (Rabs_right a); [apply Rle_refl|lra|apply Rle_ge, w_pos].
  - rewrite (M1 x Hx), Rmult_1_r. apply Rplus_le_compat; [apply Rmult_le_compat_l; [apply w_pos|apply row_apart, Hx]|apply w_near, Hi].
Qed.
Lemma matrix_near x : In x states ->
  Rsum (map (fun y => Rabs (Q x y - sampler_matrix e (exact_moves n c) vll vprior states x y)) states) <= 3 * INR (5 + n) / 2 ^ 47 + (2 * (kappa + delta) + s).
Proof.
  intros Hx. pose proof (@one_near x 0 (Cluster OpGibbsish) Hx ltac:(lia)) as A. pose proof (@one_near x 1 (Cluster OpGibbsish2) Hx ltac:(lia)) as B'. pose proof (@one_near x 2 Source Hx ltac:(lia)) as C.
  apply Rle_trans with ((w 0 * (2 * (kappa + delta) + s) + INR (5 + n) / 2 ^ 47) + (w 1 * (2 * (kappa + delta) + s) + INR (5 + n) / 2 ^ 47) + (w 2 * (2 * (kappa + delta) + s) + INR (5 + n) / 2 ^ 47)).
  - eapply Rle_trans; [|apply Rplus_le_compat; [apply Rplus_le_compat; [exact A|exact B']|exact C]]. rewrite <- !Rsum_plus. apply Rsum_le. intros y _. rewrite Q_eq, P_eq.
    match goal with |- Rabs (?a + ?b + ?d - (?a' + ?b' + ?d')) <= _ => replace (a + b + d - (a' + b' + d')) with ((a - a') + (b - b') + (d - d')) by ring end.
    eapply Rle_trans; [apply Rabs_triang|]. apply Rplus_le_compat_r, Rabs_triang.
  - pose proof w_one as W. unfold Rdiv. replace (2 * (kappa + delta) + s) with ((w 0 + w 1 + w 2) * (2 * (kappa + delta) + s)) at 4 by (rewrite W; ring). lra.
Qed.
End Rows.
