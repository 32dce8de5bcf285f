(** Lemmas: which category is drawn, and how often, in M_float.v. *)
From Coq Require Import List ZArith Reals Permutation Lra Lia Bool Psatz.
From Flocq Require Import Core.Core IEEE754.BinarySingleNaN IEEE754.Binary IEEE754.Bits.
From Verif Require Import Base M_float S_float L_float L_float2.
From Verif Require M_params.
Import ListNotations.
Set Implicit Arguments.
Unset Strict Implicit.
Local Open Scope R_scope.

Lemma Rabs_le_inv' a b : Rabs a <= b -> - b <= a <= b.
Proof. intros H. pose proof (Rle_abs a). pose proof (Rle_abs (- a)). rewrite Rabs_Ropp in *. lra. Qed.

Lemma total_close (al be : R) a b : 0 <= al -> 0 <= be -> Forall2 (fun x y => Rabs (x - y) <= al * y + be) a b -> Forall (fun y => 0 <= y) b ->
  forall k, Rabs (total (firstn k a) - total (firstn k b)) <= al * total (firstn k b) + INR (length b) * be /\ 0 <= total (firstn k b) <= total b.
Proof.
  intros Ha Hb H. induction H as [|x y a b Hxy H IH]; intros F k.
  - rewrite !firstn_nil. cbn [total length]. rewrite Rminus_diag_eq by reflexivity. rewrite Rabs_R0. change (INR 0) with 0. lra.
  - inversion F; subst. cbn [length]. rewrite S_INR. destruct k as [|k]; cbn [firstn total].
    + destruct (IH H3 O) as (_ & A). cbn [firstn total] in A. rewrite Rminus_diag_eq by reflexivity. rewrite Rabs_R0. pose proof (pos_INR (length b)). pose proof (total_nonneg H3). split; [|lra]. nra.
    + destruct (IH H3 k) as (A & B). replace (x + total (firstn k a) - (y + total (firstn k b))) with ((x - y) + (total (firstn k a) - total (firstn k b))) by ring.
      split; [|lra]. eapply Rle_trans; [apply Rabs_triang|]. lra.
Qed.

Lemma Forall2_nth_R (P : R -> R -> Prop) a b : length a = length b -> (forall i, (i < length a)%nat -> P (nth i a 0) (nth i b 0)) -> Forall2 P a b.
Proof.
  revert b. induction a as [|x a IH]; intros [|y b] L H; cbn in L; try discriminate; constructor.
  - apply (H O). cbn. lia.
  - apply IH; [lia|]. intros i Hi. apply (H (Datatypes.S i)). cbn. lia.
Qed.

Definition shares (v : list R) : list R := map (fun x => x * / total v) v.
Lemma nth_shares v i : nth i (shares v) 0 = share v i.
Proof. unfold shares, share. rewrite <- (Rmult_0_l (/ total v)) at 1. apply (@map_nth _ _ (fun x => x * / total v)). Qed.
Lemma shares_total v : 0 < total v -> total (shares v) = 1.
Proof. intros H. unfold shares. rewrite total_scale. apply Rinv_r. lra. Qed.
Lemma shares_nonneg v : 0 < total v -> Forall (fun y => 0 <= y) v -> Forall (fun y => 0 <= y) (shares v).
Proof. intros H F. apply Forall_forall. intros y Hy. apply in_map_iff in Hy as (x & <- & Hx). rewrite Forall_forall in F. apply Rmult_le_pos; [apply F, Hx|]. apply Rlt_le, Rinv_0_lt_compat, H. Qed.

(** The cumulative sums are close to the exact ones. *)
Lemma cumsum_close q v : Forall fraction q -> small (length q) -> length q = length v -> Forall (fun y => 0 <= y) v -> 0 < total v ->
  (forall i, (i < length q)%nat -> Rabs (val (nth i q zero) - share v i) <= 5 * INR (length q) * u * share v i + u * bpow radix2 (-1022)) ->
  forall j, (j < length q)%nat -> Rabs (val (nth j (cumsum q) zero) - partial (shares v) j) <= 8 * INR (length q) * u /\ 0 <= partial (shares v) j <= 1 /\
    Rabs (partial (vals q) j - partial (shares v) j) <= 6 * INR (length q) * u.
Proof.
  intros Fq Sm L Pv T Q j Hj. pose proof u_pos as Hu.
  assert (N : 1 <= INR (length q)). { change 1 with (INR 1). apply le_INR. lia. }
  destruct (@cumsum_ok q) with (j := j) as (_ & C & _); [exact Fq|exact Sm|exact Hj|].
  assert (B0 : 0 <= u * bpow radix2 (-1022)) by (apply Rmult_le_pos; [lra|apply bpow_ge_0]).
  assert (Ls : length (shares v) = length q) by (unfold shares; rewrite map_length; lia).
  destruct (@total_close (5 * INR (length q) * u) (u * bpow radix2 (-1022)) (vals q) (shares v)) with (k := Datatypes.S j) as (E & P).
  - nra.
  - exact B0.
  - apply Forall2_nth_R. { unfold vals. rewrite map_length, Ls. reflexivity. }
    intros i Hi. unfold vals in Hi. rewrite map_length in Hi. rewrite nth_vals, nth_shares. apply Q, Hi.
  - apply shares_nonneg; assumption.
  - rewrite (shares_total T) in P. unfold partial in *. rewrite Ls in E. unfold small in Sm.
    set (y := INR (length q) * u) in *. assert (Y : 0 < y) by (unfold y; nra).
    assert (Bs : bpow radix2 (-1022) <= / 1024). { replace (/1024) with (bpow radix2 (-10)) by (cbn; lra). apply bpow_le; lia. }
    assert (E2 : Rabs (total (firstn (Datatypes.S j) (vals q)) - total (firstn (Datatypes.S j) (shares v))) <= 5 * y + / 1024 * y).
    { eapply Rle_trans; [exact E|]. apply Rplus_le_compat.
      - replace (5 * INR (length q) * u) with (5 * y) by (unfold y; ring). rewrite <- (Rmult_1_r (5 * y)) at 2. apply Rmult_le_compat_l; lra.
      - replace (INR (length q) * (u * bpow radix2 (-1022))) with (bpow radix2 (-1022) * y) by (unfold y; ring). apply Rmult_le_compat_r; lra. }
    split; [|split; [exact P|]].
    + replace (2 * INR (length q) * u) with (2 * y) in C by (unfold y; ring). replace (8 * INR (length q) * u) with (8 * y) by (unfold y; ring).
      apply Rabs_le_inv' in E2. apply Rabs_le_inv' in C. apply Rabs_le. split; nra.
    + replace (6 * INR (length q) * u) with (6 * y) by (unfold y; ring). lra.
Qed.

Lemma cdf_close o p : Forall fraction p -> order_of o (length p) -> small (length p) -> 0 < total (vals p) -> forall j, (j < length p)%nat ->
  Rabs (val (nth j (cumsum (normalize_row o p)) zero) - partial (shares (vals p)) j) <= 8 * INR (length p) * u /\ 0 <= partial (shares (vals p)) j <= 1.
Proof.
  intros F O Sm T j Hj. destruct (normalize_row_ok F O Sm T) as (Fq & Q & _). pose proof (normalize_row_length o p) as L.
  destruct (@cumsum_close (normalize_row o p) (vals p)) with (j := j) as (A & B & _); try assumption; try (rewrite L; assumption).
  - rewrite L. symmetry. apply map_length.
  - apply vals_nonneg, F.
  - intros i. rewrite L. intros Hi. apply Q, Hi.
  - rewrite L in A. split; assumption.
Qed.

(** ** The category *)
Lemma first_true_spec A (f : A -> bool) (d : A) l : match M_params.first_true (map f l) with
  | Some j => (j < length l)%nat /\ f (nth j l d) = true /\ forall i, (i < j)%nat -> f (nth i l d) = false
  | None => forall i, (i < length l)%nat -> f (nth i l d) = false end.
Proof.
  induction l as [|a l IH]; cbn [map M_params.first_true]; [intros i Hi; cbn in Hi; lia|].
  destruct (f a) eqn:E.
  - cbn. split; [lia|]. split; [exact E|]. intros; lia.
  - destruct (M_params.first_true (map f l)) as [j|]; cbn [option_map].
    + destruct IH as (A1 & A2 & A3). cbn [length nth]. split; [lia|]. split; [exact A2|]. intros [|i] Hi; [exact E|]. apply A3. lia.
    + intros [|i] Hi; [exact E|]. cbn [nth]. apply IH. cbn in Hi. lia.
Qed.

Section Draw.
  Variable (q : list dbl).
  Hypothesis (Fq : Forall fraction q) (Sq : small (length q)) (Nq : (0 < length q)%nat).
  Let t (j : nat) : R := val (nth j (cumsum q) zero).

  Lemma t_mono i j : (i <= j)%nat -> (j < length q)%nat -> t i <= t j.
  Proof.
    intros H. induction H as [|j H IH]; intros Hj; [apply Rle_refl|].
    apply Rle_trans with (t j); [apply IH; lia|]. destruct (cumsum_ok Fq Sq Hj) as (_ & _ & C & _). apply (C j eq_refl).
  Qed.

  Lemma drawn k : (0 <= k < 2 ^ 53)%Z -> let j := categorical k q in
    (j < length q)%nat /\ ((IZR k * u < t j /\ forall i, (i < j)%nat -> t i <= IZR k * u) \/ (j = O /\ t (length q - 1) <= IZR k * u)).
  Proof.
    intros Hk. destruct (uniform_val Hk) as (Ok & Ek). cbv zeta. unfold categorical, M_params.argmax.
    pose proof (@first_true_spec _ (ltb (uniform k)) zero (cumsum q)) as H.
    assert (L : forall i, (i < length q)%nat -> (ltb (uniform k) (nth i (cumsum q) zero) = true <-> IZR k * u < t i)).
    { intros i Hi. destruct (cumsum_ok Fq Sq Hi) as (O & _). rewrite (ltb_val Ok O), Ek. reflexivity. }
    destruct (M_params.first_true (map (ltb (uniform k)) (cumsum q))) as [j|].
    - rewrite cumsum_length in H. destruct H as (A & B & C). split; [exact A|]. left. split; [apply L; assumption|].
      intros i Hi. apply Rnot_lt_le. intros X. apply L in X; [|lia]. rewrite C in X by exact Hi. discriminate.
    - split; [exact Nq|]. right. split; [reflexivity|]. apply Rnot_lt_le. intros X. apply L in X; [|lia]. rewrite H in X by (rewrite cumsum_length; lia). discriminate.
  Qed.

  (** A category of probability zero is only drawn if it is the first one and the draw is not below the last sum. *)
  Lemma drawn_zero k : (0 <= k < 2 ^ 53)%Z -> val (nth (categorical k q) q zero) = 0 -> categorical k q = O /\ t (length q - 1) <= IZR k * u.
  Proof.
    intros Hk Z. destruct (drawn Hk) as (A & [[B C]|D]); [|exact D]. exfalso. cbv zeta in *.
    destruct (cumsum_ok Fq Sq A) as (_ & _ & M & M0).
    destruct (categorical k q) as [|j] eqn:E.
    - unfold t in B. rewrite M0, Z in B by reflexivity. destruct Hk as [Hk _]. apply IZR_le in Hk. pose proof u_pos. nra.
    - destruct (M j eq_refl) as (_ & M2). specialize (M2 Z). specialize (C j ltac:(lia)). unfold t in *. lra.
  Qed.

  Definition below (x : R) (k : Z) : bool := Rlt_bool (IZR k * u) x.
  Lemma below_iff x k : below x k = true <-> IZR k * u < x.
  Proof. unfold below. destruct (Rlt_bool_spec (IZR k * u) x); split; intros; try congruence; try lra; discriminate. Qed.

  Lemma drawn_iff i k : (0 <= k < 2 ^ 53)%Z -> (i < length q)%nat ->
    (categorical k q = i <-> (IZR k * u < t i /\ (forall l, i = Datatypes.S l -> t l <= IZR k * u)) \/ (i = O /\ t (length q - 1) <= IZR k * u)).
  Proof.
    intros Hk Hi. destruct (drawn Hk) as (A & B). cbv zeta in *. split.
    - intros <-. destruct B as [[B C]|B]; [left|right; exact B]. split; [exact B|]. intros l E. apply C. lia.
    - intros H. destruct B as [[B C]|[B C]].
      + destruct H as [[H1 H2]|[H1 H2]].
        * destruct (lt_eq_lt_dec (categorical k q) i) as [[X|X]|X]; [|exact X|].
          -- exfalso. destruct i as [|i]; [lia|]. specialize (H2 i eq_refl). assert (t (categorical k q) <= t i) by (apply t_mono; lia). lra.
          -- exfalso. specialize (C i X). lra.
        * exfalso. assert (t (categorical k q) <= t (length q - 1)) by (apply t_mono; lia). lra.
      + destruct H as [[H1 H2]|[H1 H2]]; [|congruence]. exfalso. assert (t i <= t (length q - 1)) by (apply t_mono; lia). lra.
  Qed.
End Draw.

(** ** Counting *)
Lemma count_ext (f g : Z -> bool) n : (forall k, (0 <= k < Z.of_nat n)%Z -> f k = g k) -> count f n = count g n.
Proof. induction n as [|n IH]; intros H; cbn [count]; [reflexivity|]. rewrite (H (Z.of_nat n)) by lia. rewrite IH; [reflexivity|]. intros. apply H. lia. Qed.
Lemma count_add (f g h : Z -> bool) n : (forall k, (0 <= k < Z.of_nat n)%Z -> (if f k then 1 else 0) = (if g k then 1 else 0) + (if h k then 1 else 0))%nat -> count f n = (count g n + count h n)%nat.
Proof. induction n as [|n IH]; intros H; cbn [count]; [reflexivity|]. rewrite (H (Z.of_nat n)) by lia. rewrite IH; [lia|]. intros. apply H. lia. Qed.
Lemma count_true n : count (fun _ => true) n = n.
Proof. induction n as [|n IH]; cbn [count]; [reflexivity|rewrite IH; reflexivity]. Qed.

Lemma count_below_aux y n : 0 <= y -> let c := INR (count (fun k => Rlt_bool (IZR k) y) n) in
  (c = INR n /\ INR n < y + 1) \/ (y <= c < y + 1 /\ y <= INR n).
Proof.
  intros Y. induction n as [|n IH]; cbv zeta in *; [left; cbn; lra|]. cbn [count]. rewrite <- INR_IZR_INZ, plus_INR, S_INR.
  destruct (Rlt_bool_spec (INR n) y) as [H|H].
  - change (INR 1) with 1. destruct IH as [[A B]|[A B]]; [|lra]. left. lra.
  - change (INR 0) with 0. destruct IH as [[A B]|[A B]]; right; lra.
Qed.

Lemma draws_INR : INR draws = bpow radix2 53.
Proof. unfold draws. rewrite INR_IZR_INZ, Z2Nat.id by lia. reflexivity. Qed.
Lemma draws_u : INR draws * u = 1.
Proof. rewrite draws_INR. unfold u. rewrite <- bpow_plus. reflexivity. Qed.
Lemma draws_Z : Z.of_nat draws = (2 ^ 53)%Z.
Proof. unfold draws. apply Z2Nat.id. lia. Qed.
Global Opaque draws.

Lemma probability_u f : probability f = INR (count f draws) * u.
Proof. unfold probability. pose proof draws_u as D. pose proof u_pos. assert (X : INR draws <> 0) by (intros X; rewrite X in D; lra). apply Rmult_eq_reg_r with (INR draws); [|exact X]. unfold Rdiv. rewrite Rmult_assoc, Rinv_l by exact X. rewrite Rmult_assoc, (Rmult_comm u), D. reflexivity. Qed.

Lemma probability_below x : 0 <= x -> Rabs (probability (below x) - Rmin x 1) <= u.
Proof.
  intros X. rewrite probability_u. pose proof u_pos as U. pose proof draws_u as D.
  rewrite (@count_ext (below x) (fun k => Rlt_bool (IZR k) (x / u))).
  2:{ intros k _. unfold below. assert (E : IZR k * u < x <-> IZR k < x / u). { assert (Ex : x = x / u * u) by (field; lra). split; intros H; [apply (Rmult_lt_reg_r u); [exact U|]; rewrite <- Ex; exact H|]. rewrite Ex. apply Rmult_lt_compat_r; assumption. }
      destruct (Rlt_bool_spec (IZR k * u) x), (Rlt_bool_spec (IZR k) (x / u)); try reflexivity; exfalso; [apply E in H; lra|]. apply E in H0. lra. }
  set (y := x / u). assert (Ex : x = y * u) by (unfold y; field; lra). assert (Y : 0 <= y) by (unfold y; apply Rmult_le_pos; [exact X|apply Rlt_le, Rinv_0_lt_compat, U]).
  pose proof (@count_below_aux y draws Y) as H. cbv zeta in H. set (c := INR (count _ draws)) in *. rewrite Ex. rewrite <- D.
  destruct H as [[A B]|[A B]].
  - rewrite A. apply Rabs_le. destruct (Rle_or_lt (INR draws * u) (y * u)); [rewrite Rmin_right by assumption; lra|]. rewrite Rmin_left by lra. split; nra.
  - rewrite Rmin_left by (apply Rmult_le_compat_r; lra). apply Rabs_le. split; nra.
Qed.

Lemma total_firstn_S v i : (i < length v)%nat -> total (firstn (Datatypes.S i) v) = total (firstn i v) + nth i v 0.
Proof.
  revert i. induction v as [|x v IH]; intros i Hi; [cbn in Hi; lia|]. destruct i as [|i]; [cbn; ring|].
  change (firstn (Datatypes.S (Datatypes.S i)) (x :: v)) with (x :: firstn (Datatypes.S i) v). cbn [total]. rewrite IH by (cbn in Hi; lia). cbn [firstn total nth]. ring.
Qed.

Lemma Rmin_close x p d : 0 <= p <= 1 -> Rabs (x - p) <= d -> Rabs (Rmin x 1 - p) <= d.
Proof. intros P H. apply Rabs_le_inv' in H. apply Rabs_le. unfold Rmin. destruct (Rle_dec x 1); lra. Qed.

Lemma probability_split (f g h : Z -> bool) : (forall k, (0 <= k < 2 ^ 53)%Z -> (if f k then 1 else 0) = (if g k then 1 else 0) + (if h k then 1 else 0))%nat -> probability f = probability g + probability h.
Proof. intros H. rewrite !probability_u, (@count_add f g h draws); [rewrite plus_INR; ring|]. intros k. rewrite draws_Z. apply H. Qed.
Lemma probability_true : probability (fun _ => true) = 1.
Proof. rewrite probability_u, count_true. apply draws_u. Qed.

(** ** How often a category is drawn *)
Lemma categorical_probability o p i : Forall fraction p -> order_of o (length p) -> small (length p) -> 0 < total (vals p) -> (i < length p)%nat ->
  Rabs (probability (fun k => Nat.eqb (categorical k (normalize_row o p)) i) - share (vals p) i) <= 16 * INR (length p) * u + 2 * u.
Proof.
  intros F O Sm T Hi. pose proof u_pos as U. destruct (normalize_row_ok F O Sm T) as (Fq & _ & _). set (q := normalize_row o p) in *.
  assert (Lq : length q = length p) by apply normalize_row_length.
  assert (Sq : small (length q)) by (rewrite Lq; exact Sm). assert (Nq : (0 < length q)%nat) by lia.
  set (t := fun j => val (nth j (cumsum q) zero)). set (P := partial (shares (vals p))).
  assert (Lsh : length (shares (vals p)) = length p) by (unfold shares, vals; rewrite !map_length; reflexivity).
  assert (CL : forall j, (j < length p)%nat -> Rabs (t j - P j) <= 8 * INR (length p) * u /\ 0 <= P j <= 1 /\ 0 <= t j).
  { intros j Hj. destruct (cdf_close F O Sm T Hj) as (A & B). split; [exact A|]. split; [exact B|]. destruct (@cumsum_ok q Fq Sq j ltac:(lia)) as (X & _). apply X. }
  assert (PB : forall j, (j < length p)%nat -> Rabs (probability (below (t j)) - P j) <= 8 * INR (length p) * u + u).
  { intros j Hj. destruct (CL j Hj) as (A & B & C). pose proof (probability_below C) as D. pose proof (@Rmin_close (t j) (P j) _ B A) as E.
    replace (probability (below (t j)) - P j) with ((probability (below (t j)) - Rmin (t j) 1) + (Rmin (t j) 1 - P j)) by ring. eapply Rle_trans; [apply Rabs_triang|]. lra. }
  assert (Plast : P (length p - 1)%nat = 1).
  { unfold P, partial. replace (Datatypes.S (length p - 1)) with (length p) by lia. rewrite <- Lsh, firstn_all. apply shares_total, T. }
  destruct i as [|i].
  - assert (E : probability (fun k => Nat.eqb (categorical k q) 0) + probability (below (t (length p - 1)%nat)) = 1 + probability (below (t 0%nat))).
    { rewrite <- probability_true. rewrite !probability_u, <- !Rmult_plus_distr_r, <- !plus_INR.
      assert (X : forall n, (Z.of_nat n <= 2 ^ 53)%Z -> (count (fun k => Nat.eqb (categorical k q) 0) n + count (below (t (length p - 1))) n = count (fun _ => true) n + count (below (t 0)) n)%nat).
      { induction n as [|n IH]; intros Hn; [reflexivity|]. cbn [count]. specialize (IH ltac:(lia)).
        pose proof (@drawn_iff q Fq Sq Nq 0 (Z.of_nat n) ltac:(lia) Nq) as D. rewrite Lq in D. fold (t 0%nat) (t (length p - 1)%nat) in D.
        pose proof (@t_mono q Fq Sq Nq 0 (length p - 1) ltac:(lia) ltac:(lia)) as M. change (t 0%nat <= t (length p - 1)%nat) in M.
        pose proof (below_iff (t 0%nat) (Z.of_nat n)) as B0. pose proof (below_iff (t (length p - 1)%nat) (Z.of_nat n)) as B1.
        destruct (Nat.eqb_spec (categorical (Z.of_nat n) q) 0) as [C|C].
        - apply D in C as [[C _]|[_ C]].
          + destruct (below (t 0%nat) (Z.of_nat n)); [|apply B0 in C; discriminate]. destruct (below (t (length p - 1)%nat) (Z.of_nat n)); [lia|]. exfalso. assert (Y : false = true) by (apply B1; lra). discriminate.
          + destruct (below (t 0%nat) (Z.of_nat n)); [exfalso; assert (Y : IZR (Z.of_nat n) * u < t 0%nat) by (apply B0; reflexivity); lra|].
            destruct (below (t (length p - 1)%nat) (Z.of_nat n)); [exfalso; assert (Y : IZR (Z.of_nat n) * u < t (length p - 1)%nat) by (apply B1; reflexivity); lra|]. lia.
        - destruct (below (t 0%nat) (Z.of_nat n)); [exfalso; apply C, D; left; split; [apply B0; reflexivity|intros; discriminate]|].
          destruct (below (t (length p - 1)%nat) (Z.of_nat n)); [lia|]. exfalso. apply C, D. right. split; [reflexivity|]. apply Rnot_lt_le. intros Y. apply B1 in Y. discriminate. }
      rewrite (X draws); [reflexivity|]. rewrite draws_Z. lia. }
    pose proof (PB 0%nat ltac:(lia)) as X0. pose proof (PB (length p - 1)%nat ltac:(lia)) as X1. rewrite Plast in X1.
    assert (P0 : P 0%nat = share (vals p) 0). { unfold P, partial. rewrite total_firstn_S by lia. cbn [firstn total]. rewrite nth_shares. ring. }
    rewrite P0 in X0. apply Rabs_le_inv' in X0. apply Rabs_le_inv' in X1. apply Rabs_le. lra.
  - assert (E : probability (below (t (Datatypes.S i))) = probability (below (t i)) + probability (fun k => Nat.eqb (categorical k q) (Datatypes.S i))).
    { apply probability_split. intros k Hk. pose proof (@drawn_iff q Fq Sq Nq (Datatypes.S i) k Hk ltac:(lia)) as D. fold (t (Datatypes.S i)) in D.
      pose proof (@t_mono q Fq Sq Nq i (Datatypes.S i) ltac:(lia) ltac:(lia)) as M. change (t i <= t (Datatypes.S i)) in M.
      pose proof (below_iff (t i) k) as B0. pose proof (below_iff (t (Datatypes.S i)) k) as B1.
      destruct (Nat.eqb_spec (categorical k q) (Datatypes.S i)) as [C|C].
      - apply D in C as [[C1 C2]|[C _]]; [|discriminate]. specialize (C2 i eq_refl). fold (t i) in C2.
        destruct (below (t (Datatypes.S i)) k); [|apply B1 in C1; discriminate]. destruct (below (t i) k); [exfalso; assert (Y : IZR k * u < t i) by (apply B0; reflexivity); lra|]. reflexivity.
      - destruct (below (t (Datatypes.S i)) k); destruct (below (t i) k); try reflexivity.
        + exfalso. apply C, D. left. split; [apply B1; reflexivity|]. intros l [= <-]. apply Rnot_lt_le. intros Y. apply B0 in Y. discriminate.
        + exfalso. assert (Y : IZR k * u < t i) by (apply B0; reflexivity). assert (Y2 : false = true) by (apply B1; lra). discriminate. }
    pose proof (PB i ltac:(lia)) as X0. pose proof (PB (Datatypes.S i) ltac:(lia)) as X1.
    assert (Ps : P (Datatypes.S i) = P i + share (vals p) (Datatypes.S i)). { unfold P, partial. rewrite total_firstn_S by lia. rewrite nth_shares. reflexivity. }
    rewrite Ps in X1. apply Rabs_le_inv' in X0. apply Rabs_le_inv' in X1. apply Rabs_le. lra.
Qed.
