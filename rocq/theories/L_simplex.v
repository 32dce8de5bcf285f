(** Lemmas on regular polygons and the cover of their outside. *)
From Coq Require Import Lra Lia.
From Verif Require Import M_simplex S_simplex.
Set Implicit Arguments.
Unset Strict Implicit.
Open Scope R_scope.

(** * Sums *)
Lemma Rsum_app a b : Rsum (a ++ b) = Rsum a + Rsum b.
Proof. induction a as [|x a IH]; simpl; [lra|]. unfold Rsum in *. simpl. rewrite IH. lra. Qed.
Lemma Rsum_cons x l : Rsum (x :: l) = x + Rsum l. Proof. reflexivity. Qed.
Lemma project_mix w poly : project w poly = mix w poly.
Proof.
  revert poly. induction w as [|a w IH]; intros [|c poly]; try reflexivity.
  simpl. rewrite IH. unfold mix, padd, pscale. reflexivity.
Qed.
Lemma mix_cons a w c poly : mix (a :: w) (c :: poly) = padd (pscale a c) (mix w poly).
Proof. reflexivity. Qed.

(** * Turning *)
(** Twice the signed area of a triangle. *)
Definition turn (a b p : pt) : R := (fst b - fst a) * (snd p - snd a) - (snd b - snd a) * (fst p - fst a).
Lemma turn_mix a b w poly : length w = length poly ->
  turn a b (mix w poly) = Rsum (map2 Rmult w (map (turn a b) poly)) + (1 - Rsum w) * turn a b (0, 0).
Proof.
  revert poly. induction w as [|x w IH]; intros [|c poly] H; try discriminate.
  - unfold mix. simpl. unfold Rsum; simpl. lra.
  - injection H as H. specialize (IH _ H). rewrite mix_cons. simpl map. simpl map2. rewrite !Rsum_cons.
    unfold turn, padd, pscale in *. simpl in *. nra.
Qed.
Lemma turn_circle s a b j :
  turn (s * cos a, s * sin a) (s * cos b, s * sin b) (s * cos j, s * sin j) =
  s * s * (4 * (sin ((b - a) / 2) * (sin ((j - b) / 2) * sin ((j - a) / 2)))).
Proof.
  assert (H1 : turn (s * cos a, s * sin a) (s * cos b, s * sin b) (s * cos j, s * sin j) =
    s * s * (sin (b - a) + sin (j - b) - sin (j - a))).
  { unfold turn; simpl. rewrite !sin_minus. ring. }
  rewrite H1. f_equal.
  set (p := (b - a) / 2). set (q := (j - b) / 2).
  replace (b - a) with (2 * p) by (unfold p; field). replace (j - b) with (2 * q) by (unfold q; field).
  replace (j - a) with (2 * p + 2 * q) by (unfold p, q; field).
  replace ((2 * p + 2 * q) / 2) with (p + q) by field.
  rewrite (sin_plus (2 * p)), (sin_plus p q), !sin_2a, !cos_2a_sin. ring.
Qed.

(** * Regular polygons *)
Section Polygon.
Variables (s : R) (n : nat).
Hypothesis Hs : 0 < s.
Hypothesis Hn : (3 <= n)%nat.
(** The corners, continued around the circle. *)
Definition C (k : nat) : pt := pscale s (corner n k).
Definition alpha (k : nat) : R := PI * INR k / INR n.
Lemma n_pos : 0 < INR n. Proof. apply lt_0_INR. lia. Qed.
Lemma n_3 : 3 <= INR n. Proof. replace 3 with (INR 3) by (simpl; lra). apply le_INR. lia. Qed.
Lemma alpha_le a b : (a <= b)%nat -> alpha a <= alpha b.
Proof.
  intros H. unfold alpha. apply Rmult_le_compat_r; [left; apply Rinv_0_lt_compat, n_pos|].
  apply Rmult_le_compat_l; [left; apply PI_RGT_0|]. apply le_INR; auto.
Qed.
Lemma alpha_lt a b : (a < b)%nat -> alpha a < alpha b.
Proof.
  intros H. unfold alpha. apply Rmult_lt_compat_r; [apply Rinv_0_lt_compat, n_pos|].
  apply Rmult_lt_compat_l; [apply PI_RGT_0|]. apply lt_INR; auto.
Qed.
Lemma alpha_0 : alpha 0 = 0. Proof. unfold alpha. simpl. pose proof n_pos. field. lra. Qed.
Lemma alpha_n : alpha n = PI. Proof. unfold alpha. pose proof n_pos. field. lra. Qed.
Lemma alpha_plus a b : alpha (a + b) = alpha a + alpha b.
Proof. unfold alpha. rewrite plus_INR. pose proof n_pos. field. lra. Qed.
Lemma C_angle k : C k = (s * cos (2 * alpha k + PI / 2), s * sin (2 * alpha k + PI / 2)).
Proof. unfold C, corner, pscale, alpha. simpl. do 2 f_equal; f_equal; pose proof n_pos; field; lra. Qed.
Lemma C_x k : fst (C k) = - (s * sin (2 * alpha k)).
Proof. rewrite C_angle. simpl. rewrite cos_plus, cos_PI2, sin_PI2. ring. Qed.
Lemma C_period k : C (k + n) = C k.
Proof.
  rewrite !C_angle, alpha_plus, alpha_n.
  replace (2 * (alpha k + PI) + PI / 2) with (2 * alpha k + PI / 2 + 2 * INR 1 * PI) by (simpl; ring).
  rewrite cos_period, sin_period. reflexivity.
Qed.
Lemma turn_edge k j : (k < n)%nat -> (j < n)%nat -> 0 <= turn (C k) (C (S k)) (C j).
Proof.
  intros Hk Hj. rewrite !C_angle, turn_circle.
  replace ((2 * alpha (S k) + PI / 2 - (2 * alpha k + PI / 2)) / 2) with (alpha 1).
  2:{ replace (S k) with (k + 1)%nat by lia. rewrite alpha_plus. field. }
  replace ((2 * alpha j + PI / 2 - (2 * alpha (S k) + PI / 2)) / 2) with (alpha j - alpha (S k)) by field.
  replace ((2 * alpha j + PI / 2 - (2 * alpha k + PI / 2)) / 2) with (alpha j - alpha k) by field.
  assert (H1 : 0 <= sin (alpha 1)).
  { apply sin_ge_0; [rewrite <- alpha_0|rewrite <- alpha_n]; apply alpha_le; lia. }
  assert (H2 : 0 <= sin (alpha j - alpha (S k)) * sin (alpha j - alpha k)).
  { pose proof alpha_0. pose proof alpha_n.
    pose proof (@alpha_le 0 j ltac:(lia)). pose proof (@alpha_lt j n Hj). pose proof (@alpha_le (S k) n ltac:(lia)).
    pose proof (@alpha_le 0 k ltac:(lia)). pose proof (@alpha_lt k (S k) ltac:(lia)).
    destruct (Nat.le_gt_cases (S k) j) as [Hc|Hc].
    - pose proof (@alpha_le _ _ Hc). apply Rmult_le_pos; apply sin_ge_0; lra.
    - pose proof (@alpha_le j k ltac:(lia)).
      replace (alpha j - alpha (S k)) with (- (alpha (S k) - alpha j)) by ring.
      replace (alpha j - alpha k) with (- (alpha k - alpha j)) by ring. rewrite !sin_neg.
      replace (- sin (alpha (S k) - alpha j) * - sin (alpha k - alpha j)) with (sin (alpha (S k) - alpha j) * sin (alpha k - alpha j)) by ring.
      apply Rmult_le_pos; apply sin_ge_0; lra. }
  apply Rmult_le_pos; [nra|]. apply Rmult_le_pos; [lra|]. apply Rmult_le_pos; auto.
Qed.

(** ** Left and right *)
Lemma step_x k : fst (C (S k)) - fst (C k) = - (2 * s * (cos (alpha (2 * k + 1)) * sin (alpha 1))).
Proof.
  rewrite !C_x. replace (S k) with (k + 1)%nat by lia. replace (2 * k + 1)%nat with (k + k + 1)%nat by lia.
  rewrite !alpha_plus. set (a := alpha k). set (d := alpha 1).
  replace (2 * (a + d)) with (a + a + d + d) by ring. replace (2 * a) with (a + a + d - d) by ring.
  rewrite (sin_plus (a + a + d) d), (sin_minus (a + a + d) d). ring.
Qed.
Lemma sin_1_pos : 0 < sin (alpha 1).
Proof. apply sin_gt_0; [rewrite <- alpha_0|rewrite <- alpha_n]; apply alpha_lt; lia. Qed.
Lemma step_sign k : (0 <= fst (C (S k)) - fst (C k) <-> cos (alpha (2 * k + 1)) <= 0) /\
  (fst (C (S k)) - fst (C k) <= 0 <-> 0 <= cos (alpha (2 * k + 1))).
Proof.
  rewrite step_x. pose proof sin_1_pos as H1. set (c := cos _). set (d := sin (alpha 1)) in *.
  assert (0 < s * d) by nra. split; split; intros; nra.
Qed.

Variables left right : nat.
Hypothesis Hl : (left < n)%nat.
Hypothesis Hr : (right < n)%nat.
Hypothesis Hleft : forall k, (k < n)%nat -> fst (C left) <= fst (C k).
Hypothesis Hright : forall k, (k < n)%nat -> fst (C k) <= fst (C right).

Lemma x_left : fst (C left) < 0.
Proof.
  apply Rle_lt_trans with (fst (C 1)); [apply Hleft; lia|]. rewrite C_x.
  assert (0 < sin (2 * alpha 1)).
  { replace (2 * alpha 1) with (alpha 2) by (replace 2%nat with (1 + 1)%nat by lia; rewrite alpha_plus; ring).
    apply sin_gt_0; [rewrite <- alpha_0|rewrite <- alpha_n]; apply alpha_lt; lia. }
  nra.
Qed.
Lemma x_right : 0 < fst (C right).
Proof.
  apply Rlt_le_trans with (fst (C (n - 1))); [|apply Hright; lia]. rewrite C_x.
  assert (sin (2 * alpha (n - 1)) < 0).
  { assert (E : alpha (n - 1) + alpha 1 = PI) by (rewrite <- alpha_plus, <- alpha_n; f_equal; lia).
    replace (2 * alpha (n - 1)) with (- (2 * alpha 1) + 2 * INR 1 * PI) by (simpl; lra).
    rewrite sin_period, sin_neg.
    replace (2 * alpha 1) with (alpha 2) by (replace 2%nat with (1 + 1)%nat by lia; rewrite alpha_plus; ring).
    assert (0 < sin (alpha 2)) by (apply sin_gt_0; [rewrite <- alpha_0|rewrite <- alpha_n]; apply alpha_lt; lia). lra. }
  nra.
Qed.
Lemma double k : 2 * alpha k = alpha (2 * k).
Proof. replace (2 * k)%nat with (k + k)%nat by lia. rewrite alpha_plus. ring. Qed.
Lemma left_half : (0 < left)%nat /\ (2 * left < n)%nat.
Proof.
  pose proof x_left as H. rewrite C_x, double in H. split.
  - destruct left; [|lia]. exfalso. simpl in H. rewrite alpha_0, sin_0 in H. lra.
  - apply Nat.nle_gt. intros Hc. assert (sin (alpha (2 * left)) <= 0); [|nra].
    apply sin_le_0; [rewrite <- alpha_n; apply alpha_le; auto|].
    rewrite <- double. pose proof (alpha_lt Hl). rewrite alpha_n in *. lra.
Qed.
Lemma right_half : (n < 2 * right)%nat.
Proof.
  pose proof x_right as H. rewrite C_x, double in H.
  apply Nat.nle_gt. intros Hc. assert (0 <= sin (alpha (2 * right))); [|nra].
  apply sin_ge_0; [rewrite <- alpha_0|rewrite <- alpha_n]; apply alpha_le; lia.
Qed.
Lemma left_right : (left < right)%nat. Proof. pose proof left_half. pose proof right_half. lia. Qed.

Lemma bottom_step k : (left <= k < right)%nat -> fst (C k) <= fst (C (S k)).
Proof.
  intros Hk. pose proof left_half as [? ?]. pose proof right_half.
  apply Rminus_le. apply Ropp_le_cancel. rewrite Ropp_0. replace (- _) with (fst (C (S k)) - fst (C k)) by ring.
  apply step_sign. apply cos_le_0.
  - apply Rnot_lt_le. intros Hc.
    assert (HA : 0 < cos (alpha (2 * left + 1))).
    { apply cos_gt_0; [pose proof (@alpha_le 0 (2 * left + 1) ltac:(lia)); rewrite alpha_0 in *; pose proof PI_RGT_0; lra|].
      apply Rle_lt_trans with (2 := Hc). apply alpha_le. lia. }
    assert (HB : 0 <= fst (C (S left)) - fst (C left)) by (apply Rge_le, Rge_minus, Rle_ge, Hleft; lia).
    apply step_sign in HB. lra.
  - apply Rnot_lt_le. intros Hc.
    assert (HA : 0 < cos (alpha (2 * (right - 1) + 1))).
    { assert (E : alpha (2 * (right - 1) + 1) = - (alpha (2 * n - (2 * (right - 1) + 1))) + 2 * INR 1 * PI).
      { assert (E : alpha (2 * n - (2 * (right - 1) + 1)) + alpha (2 * (right - 1) + 1) = 2 * PI)
          .
        { rewrite <- alpha_plus, <- alpha_n, double. apply (f_equal alpha). lia. } change (INR 1) with 1. lra. }
      assert (Hle : alpha (2 * k + 1) <= alpha (2 * (right - 1) + 1)) by (apply alpha_le; lia).
      pose proof (@alpha_lt 0 (2 * n - (2 * (right - 1) + 1)) ltac:(lia)) as Hp. rewrite alpha_0 in Hp.
      rewrite E in *. rewrite cos_period, cos_neg. change (INR 1) with 1 in *. apply cos_gt_0; lra. }
    assert (HB : 0 <= fst (C (S (right - 1))) - fst (C (right - 1))).
    { replace (S (right - 1)) with right by lia. apply Rge_le, Rge_minus, Rle_ge, Hright; lia. }
    apply step_sign in HB. lra.
Qed.
Lemma top_step k : (right <= k < left + n)%nat -> fst (C (S k)) <= fst (C k).
Proof.
  intros Hk. pose proof left_half as [? ?]. pose proof right_half. pose proof PI_RGT_0 as HP.
  assert (Hlow : forall k, (k < left)%nat -> fst (C (S k)) <= fst (C k)).
  { clear k Hk. intros k Hk. apply Rminus_le. apply step_sign. apply cos_ge_0.
    - pose proof (@alpha_le 0 (2 * k + 1) ltac:(lia)). rewrite alpha_0 in *. lra.
    - apply Rnot_lt_le. intros Hc.
      assert (HA : cos (alpha (2 * (left - 1) + 1)) < 0).
      { apply cos_lt_0; [apply Rlt_le_trans with (1 := Hc); apply alpha_le; lia|].
        pose proof (@alpha_lt (2 * (left - 1) + 1) n ltac:(lia)). rewrite alpha_n in *. lra. }
      assert (HB : fst (C (S (left - 1))) - fst (C (left - 1)) <= 0).
      { replace (S (left - 1)) with left by lia. apply Rle_minus, Hleft; lia. }
      apply step_sign in HB. lra. }
  destruct (Nat.lt_ge_cases k n) as [Hc|Hc].
  - apply Rminus_le. apply step_sign. apply cos_ge_0_3PI2.
    + apply Rnot_lt_le. intros Hd.
      assert (HA : cos (alpha (2 * right + 1)) < 0).
      { apply cos_lt_0.
        - pose proof (@alpha_lt n (2 * right + 1) ltac:(lia)). rewrite alpha_n in *. lra.
        - apply Rle_lt_trans with (2 := Hd). apply alpha_le. lia. }
      assert (HB : fst (C (S right)) - fst (C right) <= 0).
      { apply Rle_minus. destruct (Nat.eq_dec (S right) n) as [E|E]; [|apply Hright; lia].
        replace (S right) with (0 + n)%nat by lia. rewrite C_period. apply Hright; lia. }
      apply step_sign in HB. lra.
    + pose proof (@alpha_le (2 * k + 1) (2 * n) ltac:(lia)). rewrite <- (double n), alpha_n in *. lra.
  - replace k with (k - n + n)%nat by lia. replace (S (k - n + n)) with (S (k - n) + n)%nat by lia. rewrite !C_period. apply Hlow. lia.
Qed.
Lemma turn_edge' k j : (k < 2 * n)%nat -> (j < n)%nat -> 0 <= turn (C k) (C (S k)) (C j).
Proof.
  intros Hk Hj. destruct (Nat.lt_ge_cases k n) as [Hc|Hc]; [apply turn_edge; auto|].
  replace k with (k - n + n)%nat by lia. replace (S (k - n + n)) with (S (k - n) + n)%nat by lia. rewrite !C_period. apply turn_edge; lia.
Qed.
End Polygon.

(** * First minimum and maximum *)
Lemma arg_first_spec (better : R -> R -> bool) (le : R -> R -> Prop)
  (Hrefl : forall a, le a a) (Htrans : forall a b c, le a b -> le b c -> le a c)
  (Ht : forall a b, better a b = true -> le a b) (Hf : forall a b, better a b = false -> le b a) :
  forall r pre at_, (at_ < length pre)%nat -> (forall k, (k < length pre)%nat -> le (nth at_ pre 0) (nth k pre 0)) ->
  let m := arg_first better (nth at_ pre 0) at_ (length pre) r in
  (m < length (pre ++ r))%nat /\ forall k, (k < length (pre ++ r))%nat -> le (nth m (pre ++ r) 0) (nth k (pre ++ r) 0).
Proof.
  induction r as [|x r IH]; intros pre at_ Ha Hm; simpl.
  - rewrite app_nil_r. auto.
  - replace (pre ++ x :: r) with ((pre ++ [x]) ++ r) by (rewrite <- app_assoc; reflexivity).
    assert (HL : length (pre ++ [x]) = S (length pre)) by (rewrite app_length; simpl; lia).
    assert (Hx : nth (length pre) (pre ++ [x]) 0 = x) by (rewrite app_nth2, Nat.sub_diag; auto).
    assert (Hat : nth at_ (pre ++ [x]) 0 = nth at_ pre 0) by (apply app_nth1; auto).
    destruct (better x (nth at_ pre 0)) eqn:E.
    + specialize (IH (pre ++ [x]) (length pre)). rewrite Hx, HL in IH. apply IH; [lia|].
      intros k Hk. destruct (Nat.eq_dec k (length pre)) as [->|Hne]; [rewrite Hx; auto|].
      rewrite app_nth1 by lia. apply Htrans with (1 := Ht _ _ E). apply Hm. lia.
    + specialize (IH (pre ++ [x]) at_). rewrite Hat, HL in IH. apply IH; [lia|].
      intros k Hk. destruct (Nat.eq_dec k (length pre)) as [->|Hne]; [rewrite Hx; apply Hf; auto|].
      rewrite app_nth1 by lia. apply Hm. lia.
Qed.
Lemma argmin_spec l : l <> [] -> (argmin l < length l)%nat /\ forall k, (k < length l)%nat -> nth (argmin l) l 0 <= nth k l 0.
Proof.
  destruct l as [|x r]; [congruence|]. intros _.
  apply (@arg_first_spec Rltb Rle Rle_refl Rle_trans) with (r := r) (pre := [x]) (at_ := 0%nat).
  - intros a b. unfold Rltb. destruct (Rlt_dec a b); [lra|discriminate].
  - intros a b. unfold Rltb. destruct (Rlt_dec a b); [discriminate|lra].
  - simpl; lia.
  - simpl. intros k Hk. replace k with 0%nat by lia. lra.
Qed.
Lemma argmax_spec l : l <> [] -> (argmax l < length l)%nat /\ forall k, (k < length l)%nat -> nth k l 0 <= nth (argmax l) l 0.
Proof.
  destruct l as [|x r]; [congruence|]. intros _.
  apply (@arg_first_spec (fun a b => Rltb b a) (fun a b => b <= a)) with (r := r) (pre := [x]) (at_ := 0%nat).
  - intros; lra.
  - intros; lra.
  - intros a b. unfold Rltb. destruct (Rlt_dec b a); [lra|discriminate].
  - intros a b. unfold Rltb. destruct (Rlt_dec b a); [discriminate|lra].
  - simpl; lia.
  - simpl. intros k Hk. replace k with 0%nat by lia. lra.
Qed.

(** * The two walks *)
Lemma walk_up_spec n right : (right < n)%nat -> forall m i fuel, (i + m = right)%nat -> (m <= fuel)%nat ->
  walk_up fuel n right i = Some (map (fun t => (i + 1 + t)%nat) (seq 0 m)).
Proof.
  intros Hr. induction m as [|m IH]; intros i fuel Hi Hf.
  - assert (i = right) as -> by lia. destruct fuel; simpl; rewrite Nat.mod_small, Nat.eqb_refl by lia; reflexivity.
  - destruct fuel as [|fuel]; [lia|]. cbn [walk_up]. rewrite Nat.mod_small by lia.
    destruct (Nat.eqb_spec i right); [lia|]. destruct (Nat.ltb_spec (S i) n); [|lia].
    rewrite (IH (S i) fuel) by lia. cbn [option_map seq map]. f_equal. f_equal; [lia|].
    rewrite <- seq_shift, map_map. apply map_ext. intros. lia.
Qed.
Lemma walk_down_spec n right : (right < n)%nat -> forall m (i : Z) fuel,
  (i - Z.of_nat m = Z.of_nat right - Z.of_nat n)%Z -> (i < Z.of_nat right)%Z -> (m <= fuel)%nat ->
  walk_down fuel n right i = Some (map (fun t => Z.to_nat ((i - 1 - Z.of_nat t) mod Z.of_nat n)) (seq 0 m)).
Proof.
  intros Hr. induction m as [|m IH]; intros i fuel Hi Hir Hf.
  - assert (E : (i mod Z.of_nat n = Z.of_nat right)%Z).
    { replace i with (Z.of_nat right + (-1) * Z.of_nat n)%Z by lia. rewrite Z.mod_add, Z.mod_small; lia. }
    destruct fuel; cbn [walk_down]; rewrite E, Z.eqb_refl; reflexivity.
  - destruct fuel as [|fuel]; [lia|]. cbn [walk_down].
    destruct (Z.eqb_spec (i mod Z.of_nat n) (Z.of_nat right)) as [E|_].
    + exfalso. destruct (Z.lt_ge_cases i 0) as [Hc|Hc].
      * replace i with (i + Z.of_nat n + (-1) * Z.of_nat n)%Z in E by lia. rewrite Z.mod_add, Z.mod_small in E; lia.
      * rewrite Z.mod_small in E; lia.
    + destruct (Z.leb_spec (- Z.of_nat n) (i - 1)) as [_|]; [|lia].
      rewrite (IH (i - 1)%Z fuel) by lia. cbn [option_map seq map]. f_equal. f_equal; [do 2 f_equal; lia|].
      rewrite <- seq_shift, map_map. apply map_ext. intros. do 2 f_equal. lia.
Qed.

(** * Lines through a sequence of points *)
Lemma adjacent {A} (f : nat -> A) m : forall st l1 a b l2, map f (seq st (S m)) = l1 ++ a :: b :: l2 ->
  exists i, (st <= i < st + m)%nat /\ a = f i /\ b = f (S i).
Proof.
  induction m as [|m IH]; intros st l1 a b l2 H.
  - destruct l1 as [|? [|]]; discriminate.
  - destruct l1 as [|x l1].
    + simpl in H. injection H as <- <- _. exists st. repeat split; lia.
    + change (map f (seq st (S (S m)))) with (f st :: map f (seq (S st) (S m))) in H. injection H as _ H.
      destruct (IH _ _ _ _ _ H) as (i & Hi & Ea & Eb). exists i. repeat split; auto; lia.
Qed.
Lemma rightwards_seq (f : nat -> pt) m st : (forall i, (st <= i < st + m)%nat -> fst (f i) <= fst (f (S i))) -> rightwards (map f (seq st (S m))).
Proof.
  revert st. induction m as [|m IH]; intros st H; [exact I|].
  change (map f (seq st (S (S m)))) with (f st :: map f (seq (S st) (S m))).
  change (map f (seq (S st) (S m))) with (f (S st) :: map f (seq (S (S st)) m)) at 1. cbn [rightwards]. split; [apply H; lia|].
  apply IH. intros i Hi. apply H. lia.
Qed.
(** The line passes every position between its ends. *)
Lemma step_at (f : nat -> pt) m st x : fst (f st) < fst (f (st + m)%nat) -> fst (f st) <= x <= fst (f (st + m)%nat) ->
  exists i t, (st <= i < st + m)%nat /\ fst (f i) <> fst (f (S i)) /\ 0 <= t <= 1 /\ x = (1 - t) * fst (f i) + t * fst (f (S i)).
Proof.
  revert st. induction m as [|m IH]; intros st Hlt [H1 H2].
  - rewrite Nat.add_0_r in *. lra.
  - destruct (Rlt_dec (fst (f st)) (fst (f (S st)))) as [Ha|Ha].
    + destruct (Rle_dec x (fst (f (S st)))) as [Hb|Hb].
      * exists st, ((x - fst (f st)) / (fst (f (S st)) - fst (f st))). split; [lia|]. split; [lra|]. split; [split|].
        -- apply Rmult_le_pos; [lra|]. left. apply Rinv_0_lt_compat. lra.
        -- apply Rmult_le_reg_r with (fst (f (S st)) - fst (f st)); [lra|]. unfold Rdiv. rewrite Rmult_assoc, Rinv_l; lra.
        -- field. lra.
      * replace (st + S m)%nat with (S st + m)%nat in * by lia.
        destruct (IH (S st)) as (i & t & Hi & Hr); [lra|lra|]. exists i, t. split; [lia|auto].
    + replace (st + S m)%nat with (S st + m)%nat in * by lia.
      destruct (IH (S st)) as (i & t & Hi & Hr); [lra|lra|]. exists i, t. split; [lia|auto].
Qed.

(** * Convex hulls *)
Definition between (t : R) (a b : pt) : pt := padd (pscale (1 - t) a) (pscale t b).
Lemma mix_between t v w poly : length v = length poly -> length w = length poly ->
  between t (mix v poly) (mix w poly) = mix (map2 (fun a b => (1 - t) * a + t * b) v w) poly.
Proof.
  revert v w. induction poly as [|c poly IH]; intros [|a v] [|b w] Hv Hw; try discriminate.
  - unfold between, mix, padd, pscale. simpl. unfold Rsum; simpl. f_equal; ring.
  - injection Hv as Hv. injection Hw as Hw. cbn [map2]. rewrite !mix_cons, <- (IH v w Hv Hw).
    unfold between, padd, pscale. simpl. f_equal; ring.
Qed.
Lemma hull_between t poly P Q : 0 <= t <= 1 -> hull poly P -> hull poly Q -> hull poly (between t P Q).
Proof.
  intros Ht (v & (Hv1 & Hv2 & Hv3) & ->) (w & (Hw1 & Hw2 & Hw3) & ->). eexists. split; [|apply mix_between; auto].
  assert (H : forall n v w, length v = n -> length w = n -> Forall (fun a => 0 <= a) v -> Forall (fun a => 0 <= a) w ->
    length (map2 (fun a b => (1 - t) * a + t * b) v w) = n /\ Forall (fun a => 0 <= a) (map2 (fun a b => (1 - t) * a + t * b) v w) /\
    Rsum (map2 (fun a b => (1 - t) * a + t * b) v w) = (1 - t) * Rsum v + t * Rsum w).
  { clear - Ht. induction n as [|n IH]; intros [|a v] [|b w] H1 H2 Fv Fw; try discriminate.
    - simpl. unfold Rsum; simpl. repeat split; auto. ring.
    - inversion Fv; inversion Fw; subst. destruct (IH v w) as (E1 & E2 & E3); auto.
      cbn [map2]. rewrite !Rsum_cons. repeat split; simpl; [lia| |lra]. constructor; auto. nra. }
  destruct (H _ v w Hv1 Hw1 Hv2 Hw2) as (E1 & E2 & E3). repeat split; auto. rewrite E3, Hv3, Hw3. ring.
Qed.
Definition unit_at (n i : nat) : list R := map (fun k => if Nat.eqb k i then 1 else 0) (seq 0 n).
Lemma unit_shares n i : (i < n)%nat -> shares n (unit_at n i).
Proof.
  intros Hi. unfold unit_at. repeat split.
  - rewrite map_length, seq_length. auto.
  - apply Forall_forall. intros x Hx. apply in_map_iff in Hx as (k & <- & _). destruct (Nat.eqb k i); lra.
  - assert (Hz : forall n st, (i < st)%nat -> Rsum (map (fun k => if Nat.eqb k i then 1 else 0) (seq st n)) = 0).
    { induction n0 as [|n0 IH]; intros st Hst; [reflexivity|]. cbn [seq map]. rewrite Rsum_cons, IH by lia.
      destruct (Nat.eqb_spec st i); [lia|lra]. }
    assert (Hu : forall n st, (st <= i < st + n)%nat -> Rsum (map (fun k => if Nat.eqb k i then 1 else 0) (seq st n)) = 1).
    { induction n0 as [|n0 IH]; intros st Hst; [lia|]. cbn [seq map]. rewrite Rsum_cons. destruct (Nat.eqb_spec st i).
      - rewrite Hz by lia. lra.
      - rewrite IH by lia. lra. }
    apply Hu. lia.
Qed.
Lemma mix_unit (poly : list pt) i : (i < length poly)%nat -> mix (unit_at (length poly) i) poly = nth i poly (0, 0).
Proof.
  unfold unit_at. intros Hi.
  assert (Hz : forall poly st, (i < st)%nat -> mix (map (fun k => if Nat.eqb k i then 1 else 0) (seq st (length poly))) poly = (0, 0)).
  { clear. induction poly as [|c poly IH]; intros st Hst; [reflexivity|]. cbn [length seq map]. rewrite mix_cons, IH by lia.
    destruct (Nat.eqb_spec st i); [lia|]. unfold padd, pscale; simpl. f_equal; ring. }
  assert (Hu : forall poly st, (st <= i < st + length poly)%nat ->
    mix (map (fun k => if Nat.eqb k i then 1 else 0) (seq st (length poly))) poly = nth (i - st) poly (0, 0)).
  { clear - Hz. induction poly as [|c poly IH]; intros st Hst; [simpl in Hst; lia|]. cbn [length seq map]. rewrite mix_cons.
    destruct (Nat.eqb_spec st i) as [->|Hne].
    - rewrite Hz by lia. rewrite Nat.sub_diag. destruct c. unfold padd, pscale; simpl. f_equal; ring.
    - simpl length in Hst. rewrite IH by lia. replace (i - st)%nat with (S (i - S st)) by lia. cbn [nth].
      destruct (nth _ _ _). unfold padd, pscale; simpl. f_equal; ring. }
  rewrite Hu by lia. rewrite Nat.sub_0_r. reflexivity.
Qed.
Lemma hull_corner (poly : list pt) i : (i < length poly)%nat -> hull poly (nth i poly (0, 0)).
Proof. intros Hi. exists (unit_at (length poly) i). split; [apply unit_shares; auto|rewrite mix_unit; auto]. Qed.
Lemma hull_turn a b (poly : list pt) P : (forall i, (i < length poly)%nat -> 0 <= turn a b (nth i poly (0, 0))) -> hull poly P -> 0 <= turn a b P.
Proof.
  intros H (w & (H1 & H2 & H3) & ->). rewrite turn_mix, H3 by auto. replace ((1 - 1) * turn a b (0, 0)) with 0 by ring. rewrite Rplus_0_r.
  clear H3. revert w H1 H2. induction poly as [|c poly IH]; intros [|x w] H1 H2; try discriminate; [unfold Rsum; simpl; lra|].
  cbn [map map2]. rewrite Rsum_cons. inversion H2; subst. injection H1 as H1.
  pose proof (H 0%nat ltac:(simpl; lia)) as H0. simpl in H0.
  assert (0 <= Rsum (map2 Rmult w (map (turn a b) poly))); [|nra].
  apply IH; auto. intros i Hi. apply (H (S i)). simpl. lia.
Qed.

(** * The cover *)
Theorem fill_outside_spec s n poly : 0 < s -> (3 <= n)%nat -> poly = map (C s n) (seq 0 n) ->
  exists bottom top, fill_outside poly = Some (bottom, top) /\ rightwards bottom /\ rightwards top /\
    forall P, (exists a b, In a poly /\ In b poly /\ fst a <= fst P <= fst b) -> covered (bottom, top) P <-> ~ hull poly P.
Proof.
  intros Hs Hn ->. set (poly := map _ _).
  assert (HL : length poly = n) by (unfold poly; rewrite map_length, seq_length; auto).
  assert (Hnth : forall k, (k < n)%nat -> nth k poly (0, 0) = C s n k).
  { intros k Hk. unfold poly. rewrite nth_indep with (d' := C s n 0) by (rewrite map_length, seq_length; auto).
    rewrite map_nth, seq_nth; auto. }
  assert (Hx : forall k, (k < n)%nat -> nth k (map fst poly) 0 = fst (C s n k)).
  { intros k Hk. change 0 with (fst (0, 0)) at 1. rewrite map_nth, Hnth; auto. }
  assert (HLx : length (map fst poly) = n) by (unfold poly; rewrite !map_length, seq_length; auto).
  assert (Hne : map fst poly <> []) by (intros E; rewrite E in HLx; simpl in HLx; lia).
  set (left := argmin (map fst poly)). set (right := argmax (map fst poly)).
  destruct (argmin_spec Hne) as [Hl Hleft]. destruct (argmax_spec Hne) as [Hr Hright].
  fold left in Hl, Hleft. fold right in Hr, Hright. rewrite HLx in *.
  assert (Hleft' : forall k, (k < n)%nat -> fst (C s n left) <= fst (C s n k)) by (intros k Hk; rewrite <- !Hx by auto; apply Hleft; auto).
  assert (Hright' : forall k, (k < n)%nat -> fst (C s n k) <= fst (C s n right)) by (intros k Hk; rewrite <- !Hx by auto; apply Hright; auto).
  clear Hleft Hright.
  pose proof (@left_right s n Hs Hn left right Hl Hr Hleft' Hright') as Hlr.
  pose proof (@bottom_step s n Hs Hn left right Hl Hr Hleft' Hright') as Hbot.
  pose proof (@top_step s n Hs Hn left right Hl Hr Hleft' Hright') as Htop.
  set (mb := (right - left)%nat). set (mt := (left + n - right)%nat).
  set (fb := fun i => C s n (left + i)). set (ft := fun i => C s n (left + n - i)).
  assert (HCmod : forall j, (j < 2 * n)%nat -> nth (j mod n) poly (0, 0) = C s n j).
  { intros j Hj. destruct (Nat.lt_ge_cases j n); [rewrite Nat.mod_small by auto; apply Hnth; auto|].
    replace j with (j - n + 1 * n)%nat at 1 by lia. rewrite Nat.mod_add by lia. rewrite Nat.mod_small by lia.
    rewrite Hnth by lia. replace j with (j - n + n)%nat at 2 by lia. rewrite C_period by auto. reflexivity. }
  exists (map fb (seq 0 (S mb))), (map ft (seq 0 (S mt))).
  assert (HF : fill_outside poly = Some (map fb (seq 0 (S mb)), map ft (seq 0 (S mt)))).
  { unfold fill_outside. rewrite HL. destruct (Nat.leb_spec n 2); [lia|]. fold left. fold right.
    rewrite (@walk_up_spec n right Hr mb left n) by (unfold mb; lia).
    rewrite (@walk_down_spec n right Hr mt (Z.of_nat left) n) by (unfold mt; lia). cbn [obind]. f_equal. f_equal.
    - change (seq 0 (S mb)) with (0%nat :: seq 1 mb). cbn [map]. f_equal.
      + unfold fb. rewrite Nat.add_0_r. apply Hnth; auto.
      + rewrite <- seq_shift, !map_map. apply map_ext_in. intros t Ht. apply in_seq in Ht. unfold fb, mb in *.
        replace (left + 1 + t)%nat with (left + S t)%nat by lia. apply Hnth. lia.
    - change (seq 0 (S mt)) with (0%nat :: seq 1 mt). cbn [map]. f_equal.
      + unfold ft. rewrite Nat.sub_0_r, C_period by auto. apply Hnth; auto.
      + rewrite <- seq_shift, !map_map. apply map_ext_in. intros t Ht. apply in_seq in Ht. unfold ft, mt in *.
        rewrite <- HCmod by lia. f_equal. replace (Z.of_nat left - 1 - Z.of_nat t)%Z with (Z.of_nat (left + n - S t) + (-1) * Z.of_nat n)%Z by lia.
        rewrite Z.mod_add by lia. rewrite <- Nat2Z.inj_mod, Nat2Z.id. reflexivity. }
  split; [exact HF|]. split; [apply rightwards_seq; intros i Hi; unfold fb, mb in *; replace (left + S i)%nat with (S (left + i)) by lia; apply Hbot; lia|].
  split.
  { apply rightwards_seq. intros i Hi. unfold ft, mt in *.
    replace (left + n - i)%nat with (S (left + n - S i)) by lia. apply Htop. lia. }
  intros P (a0 & b0 & Ha0 & Hb0 & HP).
  assert (Hends : fst (C s n left) <= fst P <= fst (C s n right)).
  { unfold poly in Ha0, Hb0. apply in_map_iff in Ha0 as (ka & <- & Hka). apply in_map_iff in Hb0 as (kb & <- & Hkb).
    apply in_seq in Hka, Hkb. specialize (Hleft' ka ltac:(lia)). specialize (Hright' kb ltac:(lia)). lra. }
  assert (fst (C s n left) < 0) by (eapply x_left; eauto). assert (0 < fst (C s n right)) by (eapply x_right; eauto).
  split.
  - intros [(y & (a & b & l1 & l2 & t & E & Hab & Ht & Hpx & ->) & Hy)|(y & (a & b & l1 & l2 & t & E & Hab & Ht & Hpx & ->) & Hy)] Hh.
    + apply adjacent in E as (i & Hi & -> & ->). unfold fb, mb in *.
      assert (Hturn : 0 <= turn (C s n (left + i)) (C s n (S (left + i))) P).
      { apply hull_turn with (2 := Hh). intros j Hj. rewrite HL in Hj. rewrite Hnth by auto. apply turn_edge; auto; lia. }
      replace (left + S i)%nat with (S (left + i)) in * by lia. specialize (Hbot (left + i)%nat ltac:(lia)).
      unfold turn in Hturn. rewrite Hpx in Hturn.
      destruct (C s n (left + i)) as [ax ay]. destruct (C s n (S (left + i))) as [bx by_]. destruct P as [px py]. simpl in *. nra.
    + apply adjacent in E as (i & Hi & -> & ->). unfold ft, mt in *.
      assert (Hturn : 0 <= turn (C s n (left + n - S i)) (C s n (S (left + n - S i))) P).
      { apply hull_turn with (2 := Hh). intros j Hj. rewrite HL in Hj. rewrite Hnth by auto. apply turn_edge' with (left := left) (right := right); auto; lia. }
      specialize (Htop (left + n - S i)%nat ltac:(lia)). replace (S (left + n - S i)) with (left + n - i)%nat in * by lia.
      unfold turn in Hturn. rewrite Hpx in Hturn.
      destruct (C s n (left + n - i)) as [ax ay]. destruct (C s n (left + n - S i)) as [bx by_]. destruct P as [px py]. simpl in *. nra.
  - intros Hno.
    destruct (@step_at fb mb 0 (fst P)) as (i & t & Hi & Hne1 & Ht & Hpx).
    { unfold fb, mb. replace (left + (0 + (right - left)))%nat with right by lia. rewrite Nat.add_0_r. lra. }
    { unfold fb, mb. replace (left + (0 + (right - left)))%nat with right by lia. rewrite Nat.add_0_r. lra. }
    destruct (@step_at ft mt 0 (fst P)) as (j & u & Hj & Hne2 & Hu & Hpx2).
    { unfold ft, mt. replace (left + n - (0 + (left + n - right)))%nat with right by lia. rewrite Nat.sub_0_r, C_period by auto. lra. }
    { unfold ft, mt. replace (left + n - (0 + (left + n - right)))%nat with right by lia. rewrite Nat.sub_0_r, C_period by auto. lra. }
    assert (Hsplit : forall (f : nat -> pt) m i, (i < m)%nat -> exists l1 l2, map f (seq 0 (S m)) = l1 ++ f i :: f (S i) :: l2).
    { clear. intros f m i Hi. exists (map f (seq 0 i)), (map f (seq (S (S i)) (m - S i))).
      replace (S m) with (i + (1 + (1 + (m - S i))))%nat by lia. rewrite !seq_app, !map_app. simpl. repeat (f_equal; try lia). }
    destruct (Rlt_dec (snd P) ((1 - t) * snd (fb i) + t * snd (fb (S i)))) as [Hlow|Hlow].
    { left. exists ((1 - t) * snd (fb i) + t * snd (fb (S i))). split; [|exact Hlow].
      destruct (Hsplit fb mb i ltac:(lia)) as (l1 & l2 & E). exists (fb i), (fb (S i)), l1, l2, t. simpl fst. repeat split; auto; lra. }
    destruct (Rlt_dec ((1 - u) * snd (ft j) + u * snd (ft (S j))) (snd P)) as [Hup|Hup].
    { right. exists ((1 - u) * snd (ft j) + u * snd (ft (S j))). split; [|exact Hup].
      destruct (Hsplit ft mt j ltac:(lia)) as (l1 & l2 & E). exists (ft j), (ft (S j)), l1, l2, u. simpl fst. repeat split; auto; lra. }
    exfalso. apply Hno.
    assert (Hcorner : forall k, (k < 2 * n)%nat -> hull poly (C s n k)).
    { intros k Hk. rewrite <- HCmod by auto. apply hull_corner. rewrite HL. apply Nat.mod_upper_bound. lia. }
    set (B := between t (fb i) (fb (S i))). set (T := between u (ft j) (ft (S j))).
    assert (HB : hull poly B) by (apply hull_between; auto; unfold fb, mb in *; apply Hcorner; lia).
    assert (HT : hull poly T) by (apply hull_between; auto; unfold ft, mt in *; apply Hcorner; lia).
    assert (EB : fst B = fst P) by (unfold B, between, padd, pscale; cbn [fst snd]; lra).
    assert (ET : fst T = fst P) by (unfold T, between, padd, pscale; cbn [fst snd]; lra).
    assert (HBy : snd B <= snd P) by (unfold B, between, padd, pscale; cbn [fst snd]; lra).
    assert (HTy : snd P <= snd T) by (unfold T, between, padd, pscale; cbn [fst snd]; lra).
    clearbody B T. destruct (Req_dec (snd B) (snd T)) as [E|E].
    + replace P with B; auto. destruct B, P; simpl in *. f_equal; lra.
    + replace P with (between ((snd P - snd B) / (snd T - snd B)) B T).
      * apply hull_between; auto. split.
        -- apply Rmult_le_pos; [lra|]. left. apply Rinv_0_lt_compat. lra.
        -- apply Rmult_le_reg_r with (snd T - snd B); [lra|]. unfold Rdiv. rewrite Rmult_assoc, Rinv_l; lra.
      * destruct B as [b1 b2], T as [t1 t2], P as [p1 p2]. unfold between, padd, pscale. cbn [fst snd] in *. clear - EB ET E. subst. f_equal; field; lra.
Qed.
