(** C93: plots of weights and preferences. *)
From Coq Require Import Lra Lia.
From Verif Require Import P_results M_simplex S_simplex L_simplex.
Open Scope R_scope.

(** * Regular polygons *)
Lemma regular_C s n poly : (1 <= n)%nat -> regular s n poly -> poly = map (C s n) (seq 0 n).
Proof.
  intros Hn (Hs & HL & H). apply nth_ext with (0, 0) (0, 0); [rewrite map_length, seq_length; auto|].
  intros k Hk. rewrite HL in Hk. destruct (H k Hk) as (phi & Hphi & E).
  rewrite (nth_indep (map _ _) (0, 0) (C s n 0)) by (rewrite map_length, seq_length; auto). rewrite map_nth, seq_nth by auto.
  transitivity (s * cos phi, s * sin phi); [exact E|].
  assert (0 < INR n) by (apply lt_0_INR; lia).
  assert (phi = 2 * PI * INR (0 + k) / INR n + PI / 2) as ->.
  { apply Rmult_eq_reg_r with (INR n); [|lra]. rewrite Hphi. simpl. field. lra. }
  reflexivity.
Qed.
Lemma C_regular s n : 0 < s -> (1 <= n)%nat -> regular s n (map (C s n) (seq 0 n)).
Proof.
  intros Hs Hn. split; [auto|]. split; [rewrite map_length, seq_length; auto|].
  intros k Hk. exists (2 * PI * INR k / INR n + PI / 2). split.
  - assert (0 < INR n) by (apply lt_0_INR; lia). field. lra.
  - rewrite (nth_indep (map _ _) (0, 0) (C s n 0)) by (rewrite map_length, seq_length; auto). rewrite map_nth, seq_nth by auto. reflexivity.
Qed.
Lemma C_1 n k : C 1 n k = corner n k.
Proof. unfold C, pscale. destruct (corner n k). simpl. f_equal; ring. Qed.
Lemma new_regular n : (1 <= n)%nat -> regular 1 n (new_cache n).
Proof.
  intros Hn. unfold new_cache, corner_points. rewrite <- (map_ext (C 1 n)) by (apply C_1). apply C_regular; [lra|auto].
Qed.
Lemma regular_scale a s n poly : (1 <= n)%nat -> 0 < a -> regular s n poly -> regular (a * s) n (map (pscale a) poly).
Proof.
  intros Hn Ha H. pose proof H as (Hs & _). rewrite (regular_C _ _ _ Hn H), map_map.
  rewrite (map_ext _ (C (a * s) n)); [apply C_regular; [nra|auto]|].
  intros k. unfold C, pscale. simpl. f_equal; ring.
Qed.

(** ** The cover hides what is outside, and nothing else *)
Theorem C93_cover : forall s n poly, (3 <= n)%nat -> regular s n poly ->
  exists lines, fill_outside poly = Some lines /\ rightwards (fst lines) /\ rightwards (snd lines) /\
    forall P, (exists a b, In a poly /\ In b poly /\ fst a <= fst P <= fst b) -> (covered lines P <-> ~ hull poly P).
Proof.
  intros s n poly Hn H. pose proof H as (Hs & _).
  destruct (@fill_outside_spec s n poly Hs Hn (regular_C s n poly ltac:(lia) H)) as (bottom & top & H1 & H2 & H3 & H4).
  exists (bottom, top). auto.
Qed.
Print Assumptions C93_cover.
(** A square with corners at the top, left, bottom and right: the centre of a side is not covered, the corner of its bounding
    box is. *)
Example C93_square : regular 1 4 (corner_points 4) /\ exists lines, fill_outside (corner_points 4) = Some lines /\
  ~ covered lines (1 / 2, 1 / 2) /\ covered lines (-1, 1).
Proof.
  assert (HR : regular 1 4 (corner_points 4)) by (apply new_regular; lia). split; auto.
  destruct (C93_cover 1 4 (corner_points 4) ltac:(lia) HR) as (lines & E & _ & _ & H). exists lines. split; auto.
  assert (E4 : corner_points 4 = [(0, 1); (-1, 0); (0, -1); (1, 0)]).
  { unfold corner_points. cbn [seq map]. unfold corner.
    replace (2 * PI * INR 0 / INR 4 + PI / 2) with (PI / 2) by (simpl; field).
    replace (2 * PI * INR 1 / INR 4 + PI / 2) with PI by (simpl; field).
    replace (2 * PI * INR 2 / INR 4 + PI / 2) with (3 * (PI / 2)) by (simpl; field).
    replace (2 * PI * INR 3 / INR 4 + PI / 2) with (2 * PI) by (simpl; field).
    rewrite cos_PI2, sin_PI2, cos_PI, sin_PI, cos_3PI2, sin_3PI2, cos_2PI, sin_2PI. reflexivity. }
  rewrite E4 in H. assert (Hx : forall P : pt, -1 <= fst P <= 1 -> exists a b : pt, In a [(0, 1); (-1, 0); (0, -1); (1, 0)] /\ In b [(0, 1); (-1, 0); (0, -1); (1, 0)] /\ fst a <= fst P <= fst b).
  { intros P HP. exists (-1, 0), (1, 0). simpl. tauto. }
  split.
  - rewrite H by (apply Hx; simpl; lra). intros Hc. apply Hc. exists [1 / 2; 0; 0; 1 / 2].
    unfold shares, mix. simpl. unfold Rsum. simpl. repeat split; try lra; [repeat constructor; lra|]. f_equal; lra.
  - rewrite H by (apply Hx; simpl; lra). intros (w & (HL & Hw & Hsum) & Hm).
    destruct w as [|w0 [|w1 [|w2 [|w3 [|]]]]]; try discriminate. unfold mix, Rsum in *. simpl in *. injection Hm as Hm1 Hm2.
    repeat match goal with HF : Forall _ (_ :: _) |- _ => inversion HF; clear HF; subst end. lra.
Qed.

(** * One panel of weights *)
Lemma Rsum_map2_mult_l a (v g : list R) : Rsum (map2 Rmult (map (Rmult a) v) g) = a * Rsum (map2 Rmult v g).
Proof.
  revert g. induction v as [|x v IH]; intros [|y g]; cbn [map map2]; try (unfold Rsum; simpl; ring).
  rewrite !Rsum_cons, IH. ring.
Qed.
Lemma Rsum_map2_plus (u v g : list R) : length u = length v ->
  Rsum (map2 Rmult (map2 Rplus u v) g) = Rsum (map2 Rmult u g) + Rsum (map2 Rmult v g).
Proof.
  revert v g. induction u as [|x u IH]; intros [|z v] [|y g] H; try discriminate; cbn [map2]; try (unfold Rsum; simpl; ring).
  rewrite !Rsum_cons, IH by (injection H; auto). ring.
Qed.
Lemma map_nth_seq (r : list R) n : length r = n -> map (fun i => nth i r 0) (seq 0 n) = r.
Proof.
  intros <-. apply nth_ext with 0 0; rewrite map_length, seq_length; auto.
  intros k Hk. rewrite (nth_indep _ 0 (nth 0 r 0)) by (rewrite map_length, seq_length; auto).
  rewrite (map_nth (fun i => nth i r 0)), seq_nth; auto.
Qed.
Lemma mean_sum n g samples : samples <> [] -> Forall (fun r => length r = n) samples ->
  INR (length samples) * Rsum (map2 Rmult (mean_row n samples) g) = Rsum (map (fun r => Rsum (map2 Rmult r g)) samples).
Proof.
  intros Hne Hlen. assert (HN : 0 < INR (length samples)) by (apply lt_0_INR; destruct samples; [congruence|simpl; lia]).
  unfold mean_row. set (N := INR (length samples)) in *.
  rewrite (map_ext _ (fun i => / N * Rsum (map (fun r => nth i r 0) samples))) by (intros i; field; lra).
  rewrite <- (map_map (fun i => Rsum (map (fun r => nth i r 0) samples)) (Rmult (/ N))), Rsum_map2_mult_l, <- Rmult_assoc, Rinv_r, Rmult_1_l by lra.
  clear Hne HN N. induction Hlen as [|r rs Hr _ IH].
  - cbn [map]. unfold Rsum at 2. simpl. assert (H : forall st m g, Rsum (map2 Rmult (map (fun _ : nat => Rsum []) (seq st m)) g) = 0); [|apply H].
    intros st m. revert st. induction m as [|m IH]; intros st [|y g']; try reflexivity. cbn [seq map map2]. rewrite Rsum_cons, IH. unfold Rsum; simpl; ring.
  - cbn [map]. rewrite Rsum_cons, <- IH. clear IH.
    replace (Rsum (map2 Rmult r g)) with (Rsum (map2 Rmult (map (fun i => nth i r 0) (seq 0 n)) g)) by (rewrite (map_nth_seq r n Hr); reflexivity).
    rewrite <- Rsum_map2_plus by (rewrite !map_length; auto). f_equal. f_equal.
    generalize (seq 0 n). intros l. induction l as [|i l IH]; [reflexivity|]. cbn [map map2]. rewrite Rsum_cons, IH. reflexivity.
Qed.
Lemma hull_strip poly P : hull poly P -> exists a b, In a poly /\ In b poly /\ fst a <= fst P <= fst b.
Proof.
  intros (w & (HL & Hw & Hsum) & ->). assert (H : forall (poly : list pt) w, length w = length poly -> Forall (fun a => 0 <= a) w -> 0 < Rsum w ->
    exists a b, In a poly /\ In b poly /\ Rsum w * fst a <= fst (mix w poly) <= Rsum w * fst b).
  { clear. induction poly as [|c poly IH]; intros [|x w] HL Hw Hs; try discriminate; [unfold Rsum in Hs; simpl in Hs; lra|].
    injection HL as HL. inversion Hw; subst. rewrite mix_cons, Rsum_cons in *.
    destruct (Req_dec (Rsum w) 0) as [Hz|Hz].
    - assert (Hm : fst (mix w poly) = 0).
      { assert (HF : Forall (fun a => a = 0) w).
        { clear - Hz H2. induction H2 as [|y w Hy Hw IH]; [constructor|]. rewrite Rsum_cons in Hz.
          assert (0 <= Rsum w) by (clear - Hw; induction Hw; [unfold Rsum; simpl; lra|rewrite Rsum_cons; lra]). constructor; [lra|apply IH; lra]. }
        clear - HF HL. revert poly HL. induction HF as [|y w Hy _ IH]; intros [|c poly] HL; try discriminate; [reflexivity|].
        rewrite mix_cons. unfold padd, pscale. cbn [fst]. rewrite IH by (injection HL; auto). subst. ring. }
      exists c, c. unfold padd, pscale. cbn [fst]. rewrite Hm, Hz. simpl. repeat split; auto; lra.
    - assert (0 <= Rsum w) by (clear - H2; induction H2; [unfold Rsum; simpl; lra|rewrite Rsum_cons; lra]).
      destruct (IH w HL H2 ltac:(lra)) as (a & b & Ha & Hb & Hab). unfold padd, pscale. cbn [fst].
      exists (if Rle_dec (fst c) (fst a) then c else a), (if Rle_dec (fst b) (fst c) then c else b).
      split; [destruct (Rle_dec _ _); simpl; auto|]. split; [destruct (Rle_dec _ _); simpl; auto|].
      destruct (Rle_dec (fst c) (fst a)); destruct (Rle_dec (fst b) (fst c)); nra. }
  destruct (H poly w HL Hw ltac:(lra)) as (a & b & Ha & Hb & Hab). rewrite Hsum in Hab. exists a, b. repeat split; auto; lra.
Qed.
Theorem C93_weight_panel : forall c n s title names samples, (3 <= n)%nat -> samples <> [] -> Forall (shares n) samples -> regular s n (c n) ->
  exists sp m, plot_weight c title names samples = Some (Simplex sp) /\ sp_title sp = title /\ sp_polygon sp = c n /\
    sp_points sp = map (fun w => mix w (c n)) samples /\
    (forall P, In P (sp_points sp) -> hull (c n) P /\ ~ covered (sp_cover sp) P) /\
    sp_mean sp = Some m /\
    INR (length samples) * fst m = Rsum (map fst (sp_points sp)) /\ INR (length samples) * snd m = Rsum (map snd (sp_points sp)) /\
    (** the name of each component is beside its corner *)
    match names with
    | None => sp_labels sp = []
    | Some names => length (sp_labels sp) = Nat.min n (length names) /\
        forall i P l, nth_error (sp_labels sp) i = Some (P, l) -> nth_error names i = Some l /\
          Rabs (fst P - fst (nth i (c n) (0, 0))) <= 15 / 100 * s + 5 / 100 /\ Rabs (snd P - snd (nth i (c n) (0, 0))) <= 15 / 100 * s + 5 / 100
    end.
Proof.
  intros c n s title names samples Hn Hne HS HR.
  assert (HC : n_columns samples = n) by (destruct samples as [|w samples]; [congruence|]; inversion HS; subst; unfold n_columns; simpl; apply H1).
  destruct (C93_cover s n (c n) Hn HR) as (lines & Hf & _ & _ & Hcov).
  eexists. exists (mix (mean_row n samples) (c n)). unfold plot_weight. rewrite HC, Hf. cbn [option_map].
  split; [reflexivity|]. cbn [sp_title sp_polygon sp_points sp_cover sp_mean].
  split; [reflexivity|]. split; [reflexivity|]. split; [apply map_ext; intros; apply project_mix|].
  split.
  { intros P HP. apply in_map_iff in HP as (w & <- & Hw). rewrite project_mix.
    assert (Hh : hull (c n) (mix w (c n))).
    { exists w. split; auto. destruct HR as (_ & HL & _). rewrite HL. rewrite Forall_forall in HS. auto. }
    split; auto. rewrite Hcov by (apply hull_strip; auto). auto. }
  split; [rewrite project_mix; reflexivity|].
  assert (HF : Forall (fun r => length r = n) samples) by (eapply Forall_impl; [|exact HS]; intros w (H & _); auto).
  split; [|split].
  1, 2: (etransitivity; [apply mean_sum; auto|]); f_equal; symmetry; (etransitivity; [apply map_map|]); apply map_ext; intros w; rewrite project_mix; reflexivity.
  destruct names as [names|]; [|reflexivity]. cbn [sp_labels]. destruct HR as (Hs & HL & HP). split; [rewrite map_length, combine_length, HL; reflexivity|].
  intros i P l Hi. rewrite nth_error_map in Hi. unfold option_map in Hi.
  match type of Hi with match ?x with _ => _ end = _ => destruct x as [[xy l']|] eqn:E end; [|discriminate].
  inversion Hi; subst P l. clear Hi.
  assert (Hc : nth_error (c n) i = Some xy /\ nth_error names i = Some l').
  { revert E. generalize (c n) names. clear. induction i as [|i IH]; intros [|a l] [|b m]; simpl; try discriminate; [intros [= <- <-]; auto|apply IH]. }
  destruct Hc as (Hc & Hl). split; [exact Hl|]. assert (Hin : (i < n)%nat) by (rewrite <- HL; apply nth_error_Some; congruence).
  destruct (HP i Hin) as (phi & _ & Hn'). assert (Hx : xy = (s * cos phi, s * sin phi)) by (rewrite <- Hn'; symmetry; exact (nth_error_nth _ _ (0, 0) Hc)).
  rewrite Hn'. subst xy. cbn [fst snd].
  pose proof (COS_bound phi). pose proof (SIN_bound phi). assert (-s <= s * cos phi <= s) by nra. assert (-s <= s * sin phi <= s) by nra.
  split; apply Rabs_le; lra.
Qed.
Print Assumptions C93_weight_panel.

(** ** Each component pulls towards its own corner; three components can be told apart *)
Theorem C93_corners : forall s n poly i, regular s n poly -> (i < n)%nat ->
  mix (unit_at n i) poly = nth i poly (0, 0) /\ project (unit_at n i) poly = nth i poly (0, 0) /\
  forall j, (j < n)%nat -> nth j poly (0, 0) = nth i poly (0, 0) -> j = i.
Proof.
  intros s n poly i HR Hi. pose proof HR as (Hs & HL & _). assert (Hu := @mix_unit poly i). rewrite HL in Hu. specialize (Hu Hi).
  split; [exact Hu|]. split; [rewrite project_mix; exact Hu|].
  intros j Hj E. rewrite (regular_C s n poly ltac:(lia) HR) in E.
  assert (Hnth : forall k, (k < n)%nat -> nth k (map (C s n) (seq 0 n)) (0, 0) = C s n k).
  { intros k Hk. rewrite (nth_indep (map _ _) (0, 0) (C s n 0)) by (rewrite map_length, seq_length; auto). rewrite map_nth, seq_nth; auto. }
  rewrite !Hnth in E by auto. clear Hnth.
  assert (HN : 0 < INR n) by (apply lt_0_INR; lia).
  set (al := fun k => PI * INR k / INR n).
  assert (Hco : forall k, C s n k = (s * - sin (2 * al k), s * cos (2 * al k))).
  { intros k. unfold C, corner, pscale, al. cbn [fst snd].
    replace (2 * PI * INR k / INR n + PI / 2) with (2 * (PI * INR k / INR n) + PI / 2) by (field; lra).
    rewrite cos_plus, sin_plus, cos_PI2, sin_PI2. f_equal; ring. }
  rewrite !Hco in E. injection E as E1 E2.
  assert (Hs1 : sin (2 * al j) = sin (2 * al i)) by nra. assert (Hc1 : cos (2 * al j) = cos (2 * al i)) by nra.
  assert (Hz : cos (2 * (al j - al i)) = 1).
  { replace (2 * (al j - al i)) with (2 * al j - 2 * al i) by ring. rewrite cos_minus, Hs1, Hc1. pose proof (sin2_cos2 (2 * al i)). unfold Rsqr in *. lra. }
  rewrite cos_2a_sin in Hz. assert (Hsin : sin (al j - al i) = 0) by nra.
  assert (Hbound : forall a b, (a < b)%nat -> (b < n)%nat -> 0 < al b - al a < PI).
  { clear - HN. intros a b Hab Hb. unfold al. assert (HP := PI_RGT_0).
    replace (PI * INR b / INR n - PI * INR a / INR n) with (PI * ((INR b - INR a) / INR n)) by (field; lra).
    assert (H1 : 0 < (INR b - INR a) / INR n) by (apply Rmult_lt_0_compat; [apply lt_INR in Hab; lra|apply Rinv_0_lt_compat; lra]).
    assert (H2 : (INR b - INR a) / INR n < 1).
    { apply Rmult_lt_reg_r with (INR n); [lra|]. unfold Rdiv. rewrite Rmult_assoc, Rinv_l by lra. pose proof (pos_INR a). apply lt_INR in Hb. lra. }
    split; nra. }
  destruct (Nat.lt_trichotomy j i) as [Hc|[Hc|Hc]]; auto; exfalso.
  - pose proof (Hbound _ _ Hc Hi) as Hb. replace (al j - al i) with (- (al i - al j)) in Hsin by ring. rewrite sin_neg in Hsin.
    pose proof (sin_gt_0 (al i - al j)). lra.
  - pose proof (Hbound _ _ Hc Hj) as Hb. pose proof (sin_gt_0 (al j - al i)). lra.
Qed.
Print Assumptions C93_corners.
(** The second of five components alone is drawn at the second corner. *)
Example C93_second : project [0; 1; 0; 0; 0] (corner_points 5) = corner 5 1.
Proof. destruct (C93_corners 1 5 (corner_points 5) 1 (new_regular 5 ltac:(lia)) ltac:(lia)) as (_ & H & _). exact H. Qed.

Lemma corners_3 s : map (C s 3) (seq 0 3) = [(0, s); (- (s * (sqrt 3 / 2)), - (s / 2)); (s * (sqrt 3 / 2), - (s / 2))].
Proof.
  assert (H : forall k, C s 3 k = (s * - sin (2 * PI * INR k / 3), s * cos (2 * PI * INR k / 3))).
  { intros k. unfold C, corner, pscale. replace (INR 3) with 3 by (simpl; ring). cbn [fst snd]. rewrite cos_plus, sin_plus, cos_PI2, sin_PI2. f_equal; ring. }
  cbn [map seq]. rewrite !H.
  replace (2 * PI * INR 0 / 3) with 0 by (simpl; field).
  replace (2 * PI * INR 1 / 3) with (2 * (PI / 3)) by (simpl; field).
  replace (2 * PI * INR 2 / 3) with (- (2 * (PI / 3)) + 2 * INR 1 * PI) by (simpl; field).
  rewrite cos_period, sin_period, cos_neg, sin_neg, sin_0, cos_0, sin_2PI3, cos_2PI3. repeat f_equal; field.
Qed.
Theorem C93_three_partial : forall s poly v w, regular s 3 poly -> shares 3 v -> shares 3 w -> project v poly = project w poly -> v = w.
Proof.
  intros s poly v w HR (Hv & _ & Hv1) (Hw & _ & Hw1) E. pose proof HR as (Hs & _).
  rewrite (regular_C s 3 poly ltac:(lia) HR), corners_3 in E.
  destruct v as [|v0 [|v1 [|v2 [|]]]]; try discriminate. destruct w as [|w0 [|w1 [|w2 [|]]]]; try discriminate.
  unfold project, padd, pscale, Rsum in *. simpl in *. injection E as E1 E2.
  assert (Hq : 0 < s * (sqrt 3 / 2)) by (pose proof (sqrt_lt_R0 3); nra). set (q := s * (sqrt 3 / 2)) in *.
  assert (F1 : v2 - v1 = w2 - w1) by nra. assert (F2 : v0 - v1 / 2 - v2 / 2 = w0 - w1 / 2 - w2 / 2) by nra.
  f_equal; [lra|]. f_equal; [lra|]. f_equal. lra.
Qed.
Print Assumptions C93_three_partial.
(** Four components cannot be told apart. *)
Theorem C93_three_refuted : exists v w, shares 4 v /\ shares 4 w /\ v <> w /\ project v (corner_points 4) = project w (corner_points 4).
Proof.
  exists [1 / 2; 0; 1 / 2; 0], [0; 1 / 2; 0; 1 / 2].
  unfold shares, Rsum. simpl. repeat split; try lra; try (repeat constructor; lra).
  - intros E. injection E as E _. lra.
  - unfold corner_points. cbn [seq map]. unfold corner.
    replace (2 * PI * INR 0 / INR 4 + PI / 2) with (PI / 2) by (simpl; field).
    replace (2 * PI * INR 1 / INR 4 + PI / 2) with PI by (simpl; field).
    replace (2 * PI * INR 2 / INR 4 + PI / 2) with (3 * (PI / 2)) by (simpl; field).
    replace (2 * PI * INR 3 / INR 4 + PI / 2) with (2 * PI) by (simpl; field).
    rewrite cos_PI2, sin_PI2, cos_PI, sin_PI, cos_3PI2, sin_3PI2, cos_2PI, sin_2PI.
    unfold project, padd, pscale. simpl. f_equal; lra.
Qed.
Print Assumptions C93_three_refuted.

(** * The cached corners *)
Definition samples_of (d : drawing) : list (list R) := match d with DWeight _ _ s => s | DPreference _ _ _ s => s end.
(** At least one sample, all of the same length; weights of three components at least; a label for every state. *)
Definition drawable (d : drawing) : Prop :=
  exists n, samples_of d <> [] /\ Forall (fun r => length r = n) (samples_of d) /\
    match d with DWeight _ _ _ => (3 <= n)%nat | DPreference _ _ labels _ => (1 <= n)%nat /\ length labels = n end.
Definition width (d : drawing) : nat := n_columns (samples_of d).
(** The panel has labels for [n] states. *)
Definition labelled_states (n : nat) (d : drawing) : bool := match d with DPreference true _ _ _ => width d =? n | _ => false end%nat.
Lemma drawable_width d : drawable d -> Forall (fun r => length r = width d) (samples_of d) /\
  match d with DWeight _ _ _ => (3 <= width d)%nat | DPreference _ _ labels _ => (1 <= width d)%nat /\ length labels = width d end.
Proof.
  intros (n & Hne & HF & H). assert (E : width d = n).
  { unfold width, n_columns. destruct (samples_of d) as [|w l]; [congruence|]. inversion HF; auto. }
  rewrite E. auto.
Qed.
Lemma stretch_all corners n : length corners = n -> stretch n corners = map (pscale 1.2) corners.
Proof. intros <-. unfold stretch. rewrite firstn_all, skipn_all, app_nil_r. reflexivity. Qed.
Lemma fill_regular s n poly : (3 <= n)%nat -> regular s n poly -> exists lines, fill_outside poly = Some lines.
Proof. intros Hn H. destruct (C93_cover s n poly Hn H) as (lines & E & _). eauto. Qed.
Lemma draw_step e c d : (forall n, (3 <= n)%nat -> regular (1.2 ^ e n) n (c n)) -> drawable d ->
  exists c' p, draw c d = Some (c', p) /\
    (forall n, (3 <= n)%nat -> regular (1.2 ^ (if labelled_states n d then S (e n) else e n)) n (c' n)) /\
    ((3 <= width d)%nat -> exists sp, p = Simplex sp /\ sp_polygon sp = c (width d)).
Proof.
  intros Hc Hd. destruct (drawable_width _ Hd) as (HF & Hw). destruct d as [title names samples|add title labels samples]; unfold draw.
  - unfold plot_weight. change (n_columns samples) with (width (DWeight title names samples)).
    destruct (fill_regular _ _ _ Hw (Hc _ Hw)) as (lines & ->). cbn [option_map]. do 2 eexists. split; [reflexivity|]. split; [exact Hc|].
    intros _. eexists. split; reflexivity.
  - destruct Hw as [Hw HL]. unfold plot_preference. change (n_columns samples) with (width (DPreference add title labels samples)).
    set (m := width (DPreference add title labels samples)) in *.
    destruct (Nat.eqb_spec m 2) as [E2|E2].
    { do 2 eexists. split; [reflexivity|]. split; [|lia]. intros n Hn. unfold labelled_states. fold m. destruct add; [|auto].
      destruct (Nat.eqb_spec m n); [lia|auto]. }
    destruct (Nat.ltb_spec 2 m) as [Hm|Hm].
    2:{ do 2 eexists. split; [reflexivity|]. split; [|lia]. intros n Hn. unfold labelled_states. fold m. destruct add; [|auto].
        destruct (Nat.eqb_spec m n); [lia|auto]. }
    destruct (fill_regular _ _ _ Hm (Hc _ Hm)) as (lines & ->). cbn [option_map]. do 2 eexists. split; [reflexivity|]. split.
    + intros n Hn. unfold labelled_states, set_cache. fold m. destruct add.
      * rewrite (Nat.eqb_sym m n). destruct (Nat.eqb_spec n m) as [->|Hne]; [|auto].
        rewrite stretch_all by (rewrite HL; apply (Hc m Hn)). simpl pow. apply regular_scale; [lia|lra|auto].
      * destruct (Nat.eqb_spec n m) as [->|Hne]; auto.
    + intros _. eexists. split; reflexivity.
Qed.
(** The polygon of a panel: 1.2 times larger for every earlier panel with labels for the same number of states. *)
Theorem C93_scale_partial : forall ds, Forall drawable ds -> exists c ps, draw_all new_cache ds = Some (c, ps) /\ length ps = length ds /\
  forall i d p, nth_error ds i = Some d -> nth_error ps i = Some p -> (3 <= width d)%nat ->
    exists sp, p = Simplex sp /\ regular (1.2 ^ length (filter (labelled_states (width d)) (firstn i ds))) (width d) (sp_polygon sp).
Proof.
  assert (H : forall ds e c, (forall n, (3 <= n)%nat -> regular (1.2 ^ e n) n (c n)) -> Forall drawable ds ->
    exists c' ps, draw_all c ds = Some (c', ps) /\ length ps = length ds /\
    forall i d p, nth_error ds i = Some d -> nth_error ps i = Some p -> (3 <= width d)%nat ->
      exists sp, p = Simplex sp /\ regular (1.2 ^ (e (width d) + length (filter (labelled_states (width d)) (firstn i ds)))) (width d) (sp_polygon sp)).
  { induction ds as [|d ds IH]; intros e c Hc Hd.
    - exists c, []. split; [reflexivity|]. split; [reflexivity|]. intros [|i] d p Hi; discriminate.
    - inversion Hd as [|? ? Hd1 Hd2]; subst. destruct (draw_step e c d Hc Hd1) as (c1 & p1 & E1 & Hc1 & Hp1).
      destruct (IH _ c1 Hc1 Hd2) as (c2 & ps & E2 & HL & Hps).
      exists c2, (p1 :: ps). cbn [draw_all]. rewrite E1. cbn [obind]. rewrite E2. cbn [obind]. split; [reflexivity|]. split; [simpl; lia|].
      intros [|i] d' p' Hi Hi' Hw; simpl in Hi, Hi'.
      + injection Hi as <-. injection Hi' as <-. destruct (Hp1 Hw) as (sp & -> & Hsp). exists sp. split; auto. rewrite Hsp. cbn [firstn filter length].
        rewrite Nat.add_0_r. auto.
      + destruct (Hps i d' p' Hi Hi' Hw) as (sp & -> & Hsp). exists sp. split; auto. cbn [firstn filter].
        destruct (labelled_states (width d') d); [|exact Hsp]. cbn [length]. rewrite Nat.add_succ_r. exact Hsp. }
  intros ds Hds. apply (H ds (fun _ => 0%nat) new_cache); auto. intros n Hn. simpl pow. apply new_regular. lia.
Qed.
Print Assumptions C93_scale_partial.
(** One panel of three states with labels. *)
Definition three_states : drawing := DPreference true (s_ "order") [s_ "SOV"; s_ "SVO"; s_ "VSO"] [[1 / 2; 1 / 4; 1 / 4]; [1 / 3; 1 / 3; 1 / 3]].
Example three_drawable : drawable three_states.
Proof. exists 3%nat. simpl. repeat split; try congruence; repeat constructor. Qed.
(** Drawing the same panel again gives a different picture.  The size grows without bound: after 3894 panels the top corner is
    beyond the largest floating point number (numpy's corners are then infinite, and the points NaN). *)
Theorem C93_scale_refuted :
  (exists ds c p q, Forall drawable ds /\ ds = [three_states; three_states] /\ draw_all new_cache ds = Some (c, [p; q]) /\ p <> q) /\
  (forall N, exists ds c ps sp, Forall drawable ds /\ length ds = S N /\ draw_all new_cache ds = Some (c, ps) /\
     nth_error ps N = Some (Simplex sp) /\ nth 0 (sp_polygon sp) (0, 0) = (0, 1.2 ^ N)) /\
  2 ^ 1024 < 1.2 ^ 3894.
Proof.
  assert (Hrep : forall k i, Forall drawable (repeat three_states k) /\ ((i < k)%nat -> nth_error (repeat three_states k) i = Some three_states) /\
    length (filter (labelled_states 3) (firstn i (repeat three_states k))) = min i k).
  { induction k as [|k IH]; intros i; [simpl; repeat split; [constructor|lia|destruct i; auto]|].
    destruct i as [|i]; simpl; [split; [constructor; [apply three_drawable|apply (IH 0%nat)]|auto]|].
    destruct (IH i) as (H1 & H2 & H3). split; [constructor; [apply three_drawable|auto]|]. split; [intros; apply H2; lia|]. simpl. rewrite H3. lia. }
  assert (Htop : forall s poly, regular s 3 poly -> nth 0 poly (0, 0) = (0, s)).
  { intros s poly HR. rewrite (regular_C s 3 poly ltac:(lia) HR), corners_3. reflexivity. }
  split.
  - destruct (C93_scale_partial (repeat three_states 2) (proj1 (Hrep 2%nat 0%nat))) as (c & ps & E & HL & H).
    destruct ps as [|p [|q [|]]]; try discriminate. exists [three_states; three_states], c, p, q.
    split; [apply (proj1 (Hrep 2%nat 0%nat))|]. split; [reflexivity|]. split; [exact E|]. intros <-.
    destruct (H 0%nat three_states p eq_refl eq_refl (le_n 3)) as (sp & -> & H1).
    destruct (H 1%nat three_states (Simplex sp) eq_refl eq_refl (le_n 3)) as (sp' & [= <-] & H2).
    apply Htop in H1. apply Htop in H2. rewrite H1 in H2. injection H2 as H2. simpl in H2. lra.
  - split.
    + intros N. destruct (Hrep (S N) N) as (Hd & Hn & Hc).
      destruct (C93_scale_partial (repeat three_states (S N)) Hd) as (c & ps & E & HL & H). rewrite repeat_length in HL.
      destruct (nth_error ps N) as [p|] eqn:Ep; [|apply nth_error_None in Ep; lia].
      destruct (H N three_states p (Hn ltac:(lia)) Ep (le_n 3)) as (sp & -> & HR).
      exists (repeat three_states (S N)), c, ps, sp. split; [exact Hd|]. split; [apply repeat_length|]. split; [exact E|]. split; [exact Ep|].
      rewrite (Htop _ _ HR). change (width three_states) with 3%nat in *. rewrite Hc. replace (min N (S N)) with N by lia. reflexivity.
    + clear. replace 1.2 with (IZR 6 * / IZR 5) by lra. rewrite Rpow_mult_distr, pow_inv. rewrite !pow_IZR.
      apply Rmult_lt_reg_r with (IZR (5 ^ Z.of_nat 3894)); [apply IZR_lt; apply Z.pow_pos_nonneg; [reflexivity|apply Nat2Z.is_nonneg]|].
      rewrite Rmult_assoc, Rinv_l by (apply not_0_IZR; apply Z.pow_nonzero; [discriminate|apply Nat2Z.is_nonneg]). rewrite Rmult_1_r, <- mult_IZR. apply IZR_lt.
      vm_compute. reflexivity.
Qed.
Print Assumptions C93_scale_refuted.
