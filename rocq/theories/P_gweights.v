(** C61: the accept/reject step for the weights of every feature leaves the posterior unchanged. *)
From Coq Require Import Lra.
From Verif Require Import M_conj S_model M_gweights S_params L_params L_model P_conj.
From Coq Require Lqa.
Set Implicit Arguments.
Unset Strict Implicit.
Open Scope R_scope.

(** * Specification *)
(** Weights of [nf] features on [nc] components: positive probability vectors. *)
Definition weight_matrix (nf nc : nat) (W : list (list Q)) : Prop :=
  length W = nf /\ Forall (fun w => length w = nc /\ Forall (fun q => (0 < q)%Q) w /\ (Qsum w == 1)%Q) W.
(** Every observation has exactly one source, available to its object. *)
Definition admissible_source (nf nc : nat) (has : list (list bool)) (src : cube) : Prop :=
  valid_source (length has) nf nc src /\ Forall (fun h => length h = nc) has /\
  forall o f c, nth c (nth f (nth o src []) []) false = true -> nth c (nth o has []) false = true.
(** The posterior as a function of the weights: source prior times likelihood given the source; the prior of the
    weights is flat. *)
Definition weights_posterior (lhs : list lhmat) (has : list (list bool)) (src : cube) (W : list (list Q)) : R :=
  match joint lhs (normalize_weights W has) src with Some q => Q2R q | None => 0 end.
(** Take the rows of [A] for the features in [m], else those of [W]. *)
Definition pick_rows (m : list bool) (A W : list (list Q)) : list (list Q) := mapi (fun f w => if nth f m false then nth f A [] else w) W.
(** Probability that a uniform draw is below the exponential. *)
Definition accept_prob (x : xf) : R := match x with Fin r => Rmin 1 (exp r) | PInf => 1 | NInf | NaN => 0 end.
(** The density with which exactly the features in [m] are moved, to relative weights [a2]; features not in [m] stay. *)
Definition move_density (logpdf : R -> R -> R -> R) (has : list (list bool)) (src : cube) (i1 i2 : nat) (a2 : list Q) (m : list bool) (W : list (list Q)) : R :=
  Rprod (map (fun f => if nth f m false then exp (beta_logpdf logpdf has src i1 i2 f (nth f a2 0%Q)) * accept_prob (log_p_accept logpdf has src i1 i2 a2 W f) else 1)
             (seq 0 (length W))).

(** * Rows *)
Lemma below_exp_spec u x : 0 <= u < 1 -> (below_exp u x = true <-> u < accept_prob x).
Proof.
  intros Hu. unfold below_exp, accept_prob. destruct x as [r| | |].
  - destruct (Rlt_dec u (exp r)) as [H|H]; split; intros H'; try reflexivity; try discriminate.
    + apply Rmin_glb_lt; lra.
    + exfalso. apply H. eapply Rlt_le_trans; [exact H'|apply Rmin_r].
  - split; intros; [lra|auto].
  - destruct (Rlt_dec u 0); split; intros; try discriminate; lra.
  - destruct (Rlt_dec u 0); split; intros; try discriminate; lra.
Qed.

Section Row.
Import Lqa.
Open Scope Q_scope.
Definition pos_row (nc : nat) (w : list Q) : Prop := length w = nc /\ Forall (fun q => 0 < q) w /\ Qsum w == 1.
Lemma pos_nth w i : Forall (fun q => 0 < q) w -> (i < length w)%nat -> 0 < nth i w 0.
Proof. intros H Hi. rewrite Forall_forall in H. apply H. apply nth_In. auto. Qed.
Lemma set2_pos i j a b (v : list Q) : Forall (fun q => 0 < q) v -> 0 < a -> 0 < b -> Forall (fun q => 0 < q) (set2 i j a b v).
Proof. intros H Ha Hb. unfold set2. apply L_params.Forall_upd; auto. apply L_params.Forall_upd; auto. Qed.
Lemma resample_spec nc w i j a : pos_row nc w -> (i < nc)%nat -> (j < nc)%nat -> i <> j -> 0 < a < 1 ->
  exists w', resample_row i j a w = Some w' /\ pos_row nc w' /\ vec_eq w' (set2 i j ((1 - a) * (nth i w 0 + nth j w 0)) (a * (nth i w 0 + nth j w 0)) w).
Proof.
  intros (Hl & Hp & Hs) Hi Hj Hij Ha. unfold resample_row. cbv zeta.
  assert (Pi : 0 < nth i w 0) by (apply pos_nth; auto; lia). assert (Pj : 0 < nth j w 0) by (apply pos_nth; auto; lia).
  set (x := nth i w 0) in *. set (y := nth j w 0) in *.
  assert (Pa : 0 < (1 - a) * (x + y)) by (apply Qmult_lt_0_compat; lra). assert (Pb : 0 < a * (x + y)) by (apply Qmult_lt_0_compat; lra).
  set (v := set2 i j _ _ w). assert (Hv : Qsum v == 1).
  { unfold v. rewrite set2_sum by lia. fold x y. rewrite Hs. ring. }
  assert (Hvp : Forall (fun q => 0 < q) v) by (apply set2_pos; auto).
  unfold normalize. cbv zeta. destruct (Qeq_bool (Qsum v) 0) eqn:E; [apply Qeq_bool_iff in E; lra|].
  exists (map (fun q => q / Qsum v) v). conj; auto.
  - unfold pos_row. conj.
    + rewrite map_length. unfold v. rewrite set2_length. auto.
    + apply Forall_map. eapply Forall_impl; [|exact Hvp]. simpl. intros q Hq. rewrite Hv. unfold Qdiv. setoid_replace (q * / 1) with q by (field); auto.
    + rewrite Qsum_div by lra. rewrite Hv. reflexivity.
  - clearbody v. clear - Hv. assert (G : forall (l : list Q) s, s == 1 -> vec_eq (map (fun q => q / s) l) l).
    { intros l s H1. induction l; simpl; constructor; auto. rewrite H1. field. }
    apply G. auto.
Qed.
Lemma vec_eq_at u v s : vec_eq u v -> nth s u 0 == nth s v 0.
Proof. intros H. revert s. induction H; intros [|s]; simpl; auto; reflexivity. Qed.
Lemma vec_eq_sum u v : vec_eq u v -> Qsum u == Qsum v.
Proof. induction 1; simpl; [reflexivity|]. rewrite H, IHForall2. reflexivity. Qed.
Lemma vec_eq_sym u v : vec_eq u v -> vec_eq v u.
Proof. induction 1; constructor; auto. symmetry; auto. Qed.
Lemma vec_eq_trans u v w : vec_eq u v -> vec_eq v w -> vec_eq u w.
Proof. intros H. revert w. induction H; intros w H'; inversion H'; subst; constructor; auto; [etransitivity; eauto|apply IHForall2; auto]. Qed.
Lemma vec_eq_length u v : vec_eq u v -> length u = length v.
Proof. induction 1; simpl; auto. Qed.
Lemma set2_at nc i j a b (w : list Q) s : length w = nc -> (i < nc)%nat -> (j < nc)%nat -> i <> j ->
  nth s (set2 i j a b w) 0 = if (s =? j)%nat then b else if (s =? i)%nat then a else nth s w 0.
Proof.
  intros Hl Hi Hj Hij. destruct (Nat.eqb_spec s j) as [->|]; [apply set2_j; lia|]. destruct (Nat.eqb_spec s i) as [->|]; [apply set2_i; auto; lia|]. apply set2_other; auto.
Qed.
(** Moving and returning. *)
Lemma resample_back nc w i j a w' : pos_row nc w -> (i < nc)%nat -> (j < nc)%nat -> i <> j -> 0 < a < 1 -> resample_row i j a w = Some w' ->
  0 < relative_weight i j w < 1 /\ relative_weight i j w' == a /\
  exists w'', resample_row i j (relative_weight i j w) w' = Some w'' /\ pos_row nc w'' /\ vec_eq w'' w.
Proof.
  intros Hw Hi Hj Hij Ha E. destruct (resample_spec Hw Hi Hj Hij Ha) as (w1 & E1 & Hw' & Hv). rewrite E in E1. injection E1 as <-.
  destruct Hw as (Hl & Hp & Hs).
  assert (Pi : 0 < nth i w 0) by (apply pos_nth; auto; lia). assert (Pj : 0 < nth j w 0) by (apply pos_nth; auto; lia).
  assert (Vi := vec_eq_at i Hv). assert (Vj := vec_eq_at j Hv). rewrite (@set2_at nc) in Vi, Vj by auto.
  rewrite Nat.eqb_refl in Vj. rewrite Nat.eqb_refl in Vi. destruct (Nat.eqb_spec i j) as [?|_]; [contradiction|].
  set (x := nth i w 0) in *. set (y := nth j w 0) in *.
  assert (Hb : 0 < relative_weight i j w < 1).
  { unfold relative_weight. fold x y. split; [apply Qlt_shift_div_l; lra|apply Qlt_shift_div_r; lra]. }
  split; [auto|]. split.
  - unfold relative_weight. rewrite Vi, Vj. field. lra.
  - destruct (resample_spec Hw' Hi Hj Hij Hb) as (w2 & E2 & Hw2 & Hv2). exists w2. conj; auto.
    eapply vec_eq_trans; [exact Hv2|]. apply vec_eq_nth.
    + rewrite set2_length. destruct Hw' as [-> _]. auto.
    + intros s. destruct Hw' as (Hl' & _). rewrite (@set2_at nc) by auto. unfold relative_weight. fold x y.
      destruct (Nat.eqb_spec s j) as [->|]; [fold y; rewrite Vi, Vj; field; lra|].
      destruct (Nat.eqb_spec s i) as [->|]; [fold x; rewrite Vi, Vj; field; lra|].
      rewrite (vec_eq_at s Hv), (@set2_at nc) by auto. destruct (Nat.eqb_spec s j); [contradiction|]. destruct (Nat.eqb_spec s i); [contradiction|]. reflexivity.
Qed.
Lemma normalize_row_eq w w' h r : vec_eq w w' -> normalize_row w h = Some r -> exists r', normalize_row w' h = Some r' /\ vec_eq r r'.
Proof.
  intros Hv. unfold normalize_row. cbv zeta.
  assert (Hm : vec_eq (map2 (fun q (b : bool) => if b then q else 0) w h) (map2 (fun q (b : bool) => if b then q else 0) w' h)).
  { revert h. induction Hv; intros [|b h]; simpl; constructor; auto; [|apply IHHv]. destruct b; auto. reflexivity. }
  revert Hm. generalize (map2 (fun q (b : bool) => if b then q else 0) w h) (map2 (fun q (b : bool) => if b then q else 0) w' h).
  intros m m' Hm. assert (Hs := vec_eq_sum Hm). destruct (Qeq_bool (Qsum m) 0) eqn:E; [discriminate|]. intros [= <-].
  apply Qeq_bool_neq in E. destruct (Qeq_bool (Qsum m') 0) eqn:E'; [apply Qeq_bool_iff in E'; rewrite E' in Hs; contradiction|].
  eexists. split; [reflexivity|]. revert Hs E. generalize (Qsum m) (Qsum m'). intros s s' Hs E. clear E'. induction Hm; simpl; constructor; auto. rewrite H, Hs. reflexivity.
Qed.
(** The weight of the source of one observation. *)
Definition cell (w : list Q) (h v : list bool) : Q :=
  match normalize_row w h with Some r => Qsum (map2 (fun (b : bool) q => if b then q else 0) v r) | None => 0 end.
Lemma cell_eq w w' h v : vec_eq w w' -> cell w h v == cell w' h v.
Proof.
  intros Hv. unfold cell. destruct (normalize_row w h) as [r|] eqn:E.
  - destruct (normalize_row_eq Hv E) as (r' & -> & Hr). apply vec_eq_sum. clear - Hr. revert v. induction Hr; intros [|b v]; simpl; constructor; [destruct b; auto; reflexivity|apply IHHr].
  - destruct (normalize_row w' h) as [r'|] eqn:E'; [|reflexivity]. destruct (normalize_row_eq (vec_eq_sym Hv) E') as (r & E2 & _). congruence.
Qed.
Lemma cell_spec nc w h v : pos_row nc w -> length h = nc -> length v = nc -> exactly_one v ->
  (forall c, nth c v false = true -> nth c h false = true) ->
  exists r c, normalize_row w h = Some r /\ nth c v false = true /\ (forall d, nth d v false = true -> d = c) /\
    Qsum (map2 (fun (b : bool) q => if b then q else 0) v r) == nth c r 0 /\ 0 < nth c r 0.
Proof.
  intros (Hl & Hp & _) Hh Hv (c & Hc & Hu) Ha. assert (Hc' : nth c v false = true) by (apply nth_error_nth; auto).
  assert (Hb : nth_error h c = Some true).
  { rewrite <- (Ha _ Hc'). apply nth_error_nth'. apply nth_error_Some_lt in Hc. lia. }
  assert (Hlen : length h = length w) by lia.
  destruct (normalize_row w h) as [r|] eqn:E.
  2:{ exfalso. apply (proj1 (normalize_row_defined Hp Hlen) E c). auto. }
  assert (Hd : forall d, nth d v false = true -> d = c).
  { intros d Hd. apply Hu. rewrite <- Hd. apply nth_error_nth'. destruct (Nat.lt_ge_cases d (length v)); auto. rewrite nth_overflow in Hd by auto. discriminate. }
  exists r, c. conj; auto.
  - apply (state_prob_one r Hc' Hd).
  - destruct (normalize_row_distribution Hp Hlen E) as (Hr & Hn & _ & Hz & _).
    assert (Hcr : (c < length r)%nat) by (apply nth_error_Some_lt in Hb; lia).
    assert (Hq : nth_error r c = Some (nth c r 0)) by (apply nth_error_nth'; auto).
    rewrite Forall_forall in Hn. assert (0 <= nth c r 0) by (apply Hn; apply nth_In; auto).
    destruct (Qeq_dec (nth c r 0) 0) as [H0|H0]; [|lra]. exfalso. apply (Hz c _ true Hq Hb) in H0. discriminate.
Qed.
End Row.
Lemma pos_row_of nf nc W f : weight_matrix nf nc W -> (f < nf)%nat -> pos_row nc (nth f W []).
Proof. intros [Hl H] Hf. rewrite Forall_forall in H. apply H. apply nth_In. lia. Qed.

(** * The posterior of the weights factors into features *)
Definition log_lh (has : list (list bool)) (src : cube) (f : nat) (w : list Q) : R :=
  Rsum (map (fun o => ln (Q2R (cell w (nth o has []) (nth f (nth o src []) [])))) (seq 0 (length src))).
Lemma log_lh_eq has src f w w' : vec_eq w w' -> log_lh has src f w = log_lh has src f w'.
Proof. intros H. apply Rsum_ext. intros o _. f_equal. apply Qeq_eqR. apply cell_eq; auto. Qed.
Lemma normalized_at W has o f : (o < length has)%nat -> (f < length W)%nat ->
  nth f (nth o (normalize_weights W has) []) None = normalize_row (nth f W []) (nth o has []).
Proof.
  intros Ho Hf. unfold normalize_weights. rewrite (nth_indep _ [] (map (fun w_f => normalize_row w_f []) W)) by (rewrite map_length; auto).
  rewrite (map_nth (fun h => map (fun w_f => normalize_row w_f h) W)). rewrite (nth_indep _ None (normalize_row [] (nth o has []))) by (rewrite map_length; auto).
  rewrite (map_nth (fun w => normalize_row w (nth o has []))). reflexivity.
Qed.
Lemma Q2R_pos q : (0 < q)%Q -> 0 < Q2R q.
Proof. intros H. replace 0 with (Q2R 0) by (unfold Q2R; simpl; lra). apply Qlt_Rlt. auto. Qed.

Definition draws_in (nf : nat) (a2 : list Q) : Prop := length a2 = nf /\ Forall (fun a => (0 < a < 1)%Q) a2.
Lemma draw_at nf a2 f : draws_in nf a2 -> (f < nf)%nat -> (0 < nth f a2 0 < 1)%Q.
Proof. intros [Hl H] Hf. rewrite Forall_forall in H. apply H. apply nth_In. lia. Qed.
Lemma pick_at m A W f : (f < length W)%nat -> nth f (pick_rows m A W) [] = if nth f m false then nth f A [] else nth f W [].
Proof. intros Hf. apply nth_error_nth. unfold pick_rows. rewrite nth_error_mapi, (nth_error_nth' W []) by auto. reflexivity. Qed.
Lemma pick_matrix nf nc m A W : weight_matrix nf nc A -> weight_matrix nf nc W -> weight_matrix nf nc (pick_rows m A W).
Proof.
  intros HA HW. assert (Hl : length (pick_rows m A W) = nf) by (unfold pick_rows; rewrite mapi_length; apply HW).
  split; auto. apply Forall_forall. intros w Hw. apply (In_nth _ _ []) in Hw as (f & Hf & <-). rewrite Hl in Hf. rewrite pick_at by (destruct HW; lia).
  destruct (nth f m false); [apply (pos_row_of HA Hf)|apply (pos_row_of HW Hf)].
Qed.
Lemma exp_balance a b : exp a * Rmin 1 (exp (b - a)) = exp b * Rmin 1 (exp (a - b)).
Proof.
  assert (Hm : forall x, Rmin 1 (exp x) = exp (Rmin 0 x)).
  { intros x. unfold Rmin. destruct (Rle_dec 0 x) as [H|H].
    - rewrite exp_0. destruct (Rle_dec 1 (exp x)) as [_|N]; auto. exfalso. apply N. rewrite <- exp_0. destruct H as [H| <-]; [left; apply exp_increasing; auto|right; auto].
    - destruct (Rle_dec 1 (exp x)) as [N|_]; auto. exfalso. assert (exp x < exp 0) by (apply exp_increasing; lra). rewrite exp_0 in *. lra. }
  rewrite !Hm, <- !exp_plus. f_equal. unfold Rmin. destruct (Rle_dec 0 (b - a)), (Rle_dec 0 (a - b)); lra.
Qed.

Section Setting.
Variables (nf nc : nat) (has : list (list bool)) (src : cube).
Hypothesis Hsrc : admissible_source nf nc has src.
Lemma source_cell o f : (o < length src)%nat -> (f < nf)%nat -> length (nth f (nth o src []) []) = nc /\ exactly_one (nth f (nth o src []) []).
Proof.
  intros Ho Hf. destruct Hsrc as ((Hl & Hr) & _). rewrite Forall_forall in Hr. destruct (Hr (nth o src [])) as [H1 H2]; [apply nth_In; auto|].
  rewrite Forall_forall in H2. apply H2. apply nth_In. lia.
Qed.
Lemma cell_at W o f : weight_matrix nf nc W -> (o < length src)%nat -> (f < nf)%nat ->
  exists r c, normalize_row (nth f W []) (nth o has []) = Some r /\ nth c (nth f (nth o src []) []) false = true /\ (forall d, nth d (nth f (nth o src []) []) false = true -> d = c) /\
    (Qsum (map2 (fun (b : bool) q => if b then q else 0) (nth f (nth o src []) []) r) == nth c r 0 /\ 0 < nth c r 0)%Q.
Proof.
  intros HW Ho Hf. destruct Hsrc as ((Hl & _) & Hh & Ha). destruct (source_cell Ho Hf) as [H1 H2].
  apply (@cell_spec nc); auto.
  - eapply pos_row_of; eauto.
  - rewrite Forall_forall in Hh. apply Hh. apply nth_In. lia.
  - intros c. apply Ha.
Qed.
Lemma feature_lh W f : weight_matrix nf nc W -> (f < nf)%nat -> source_lh_by_feature src (normalize_weights W has) f = Fin (log_lh has src f (nth f W [])).
Proof.
  intros HW Hf. unfold source_lh_by_feature, log_lh. assert (Hl : length src = length has) by apply Hsrc.
  assert (G : forall os, (forall o, In o os -> (o < length src)%nat) ->
    fold_right xadd (Fin 0) (map (fun o => match nth f (nth o (normalize_weights W has) []) None with
      | None => NaN | Some w => np_log (Q2R (Qsum (map2 (fun (b : bool) q => if b then q else 0%Q) (nth f (nth o src []) []) w))) end) os) =
    Fin (Rsum (map (fun o => ln (Q2R (cell (nth f W []) (nth o has []) (nth f (nth o src []) [])))) os))).
  { induction os as [|o os IH]; intros H; [reflexivity|]. cbn [map fold_right Rsum]. rewrite IH by (intros; apply H; right; auto).
    assert (Ho : (o < length src)%nat) by (apply H; left; auto).
    rewrite normalized_at by (try lia; destruct HW; lia). destruct (cell_at HW Ho Hf) as (r & c & Er & _ & _ & E & P). rewrite Er.
    assert (Ec : cell (nth f W []) (nth o has []) (nth f (nth o src []) []) = Qsum (map2 (fun (b : bool) q => if b then q else 0%Q) (nth f (nth o src []) []) r)) by (unfold cell; rewrite Er; reflexivity).
    rewrite Ec. unfold np_log. destruct (Rlt_dec 0 _) as [_|N]; [reflexivity|]. exfalso. apply N. rewrite (Qeq_eqR _ _ E). apply Q2R_pos. auto. }
  apply G. intros o Ho. apply in_seq in Ho. lia.
Qed.
Lemma prior_factor W : weight_matrix nf nc W -> exists q, oprod (source_weights (normalize_weights W has) src) = Some q /\
  Q2R q = exp (Rsum (map (fun f => log_lh has src f (nth f W [])) (seq 0 nf))).
Proof.
  intros HW. assert (Hl : length src = length has) by apply Hsrc.
  set (g := fun t : nat * nat * nat => match t with (o, f, c) => match nth f (nth o (normalize_weights W has) []) None with Some w => nth c w 0%Q | None => 0%Q end end).
  assert (Hin : forall o f c, In (o, f, c) (source_positions src) -> (o < length src)%nat /\ (f < nf)%nat).
  { intros o f c H. apply positions_in in H as [H1 H2]. split; auto. destruct Hsrc as ((_ & Hr) & _). rewrite Forall_forall in Hr.
    destruct (Hr (nth o src [])) as [H3 _]; [apply nth_In; auto|]. lia. }
  exists (Qprod (map g (source_positions src))). split.
  - unfold oprod, source_weights. rewrite (@all_some_map _ _ _ g); [reflexivity|].
    intros [[o f] c] H. destruct (Hin _ _ _ H) as [Ho Hf]. unfold g. rewrite normalized_at by (try lia; destruct HW; lia).
    destruct (cell_at HW Ho Hf) as (r & c' & -> & _). reflexivity.
  - assert (Hpos : forall t, In t (source_positions src) -> 0 < Q2R (g t)).
    { intros [[o f] c] H. destruct (Hin _ _ _ H) as [Ho Hf]. unfold g. rewrite normalized_at by (try lia; destruct HW; lia).
      destruct (cell_at HW Ho Hf) as (r & c' & -> & Hc' & Hu & _ & P).
      assert (E : c = c'). { apply Hu. unfold source_positions in H. apply in_concat in H as (l1 & Hl1 & H). rewrite (mapi_seq _ []) in Hl1. apply in_map_iff in Hl1 as (o' & <- & _).
        apply in_concat in H as (l2 & Hl2 & H). rewrite (mapi_seq _ []) in Hl2. apply in_map_iff in Hl2 as (f' & <- & _).
        apply in_concat in H as (l3 & Hl3 & H). rewrite (mapi_seq _ false) in Hl3. apply in_map_iff in Hl3 as (c1 & <- & _).
        destruct (nth c1 _ false) eqn:Eb; [|destruct H]. destruct H as [[= <- <- <-]|[]]. auto. }
      subst c. apply Q2R_pos. auto. }
    rewrite Q2R_Qprod, map_map. transitivity (exp (Rsum (map (fun t => ln (Q2R (g t))) (source_positions src)))).
    { clear - Hpos. induction (source_positions src) as [|t l IH]; cbn [map fold_right Rsum]; [symmetry; apply exp_0|].
      fold (Rsum (map (fun t => ln (Q2R (g t))) l)). rewrite exp_plus, IH by (intros; apply Hpos; right; auto). rewrite exp_ln by (apply Hpos; left; auto). reflexivity. }
    f_equal. unfold source_positions. rewrite (Rsum_concat_mapi _ _ []). unfold log_lh.
    rewrite (Rsum_swap (seq 0 nf) (seq 0 (length src)) (fun f o => ln (Q2R (cell (nth f W []) (nth o has []) (nth f (nth o src []) []))))).
    apply Rsum_ext. intros o Ho. apply in_seq in Ho. rewrite (Rsum_concat_mapi _ _ []).
    assert (Hrow : length (nth o src []) = nf). { destruct Hsrc as ((_ & Hr) & _). rewrite Forall_forall in Hr. apply Hr. apply nth_In. lia. }
    rewrite Hrow. apply Rsum_ext. intros f Hf. apply in_seq in Hf. rewrite (Rsum_concat_mapi _ _ false).
    destruct (@cell_at W o f HW) as (r & c & Er & Hc & Hu & Es & P); try lia.
    rewrite (nodup_sum_one (s := c)); [|apply seq_NoDup| |].
    + rewrite Hc. cbn [map Rsum fold_right g]. unfold g. rewrite normalized_at by (try lia; destruct HW; lia). unfold cell. rewrite Er, (Qeq_eqR _ _ Es). lra.
    + apply in_seq. split; [lia|]. simpl. destruct (Nat.lt_ge_cases c (length (nth f (nth o src []) []))); auto. rewrite nth_overflow in Hc by auto. discriminate.
    + intros d Hd. destruct (nth d _ false) eqn:Ed; [exfalso; apply Hd; auto|reflexivity].
Qed.

(** * Moves *)
Variables (i1 i2 : nat).
Hypotheses (H1 : (i1 < nc)%nat) (H2 : (i2 < nc)%nat) (H12 : i1 <> i2).
Lemma new_row a2 W f : weight_matrix nf nc W -> draws_in nf a2 -> (f < nf)%nat ->
  resample_row i1 i2 (nth f a2 0%Q) (nth f W []) = Some (nth f (new_weights i1 i2 a2 W) []) /\ pos_row nc (nth f (new_weights i1 i2 a2 W) []).
Proof.
  intros HW Ha Hf. destruct (resample_spec (pos_row_of HW Hf) H1 H2 H12 (draw_at Ha Hf)) as (w' & E & Hp & _).
  assert (E' : nth f (new_weights i1 i2 a2 W) [] = w').
  { apply nth_error_nth. unfold new_weights. rewrite nth_error_map2. rewrite (nth_error_nth' a2 0%Q) by (destruct Ha; lia). rewrite (nth_error_nth' W []) by (destruct HW; lia). rewrite E. reflexivity. }
  rewrite E'. auto.
Qed.
Lemma new_matrix a2 W : weight_matrix nf nc W -> draws_in nf a2 -> weight_matrix nf nc (new_weights i1 i2 a2 W).
Proof.
  intros HW Ha. assert (Hl : length (new_weights i1 i2 a2 W) = nf) by (unfold new_weights; rewrite map2_length; destruct Ha, HW; lia).
  split; auto. apply Forall_forall. intros w Hw. apply (In_nth _ _ []) in Hw as (f & Hf & <-). apply (new_row HW Ha). lia.
Qed.
End Setting.

(** * The theorem *)
(** The step moves exactly the features whose uniform draw is below the acceptance probability. *)
Theorem C61_decisions logpdf has src i1 i2 a2 u W : Forall (fun x => 0 <= x < 1) u -> length u = length W ->
  exists m, gibbs_sample_weights logpdf has src i1 i2 a2 u W = pick_rows m (new_weights i1 i2 a2 W) W /\ length m = length W /\
    forall f, (f < length W)%nat -> (nth f m false = true <-> nth f u 0 < accept_prob (log_p_accept logpdf has src i1 i2 a2 W f)).
Proof.
  intros Hu Hl. exists (map (fun f => below_exp (nth f u 0) (log_p_accept logpdf has src i1 i2 a2 W f)) (seq 0 (length W))).
  assert (Hm : forall f, (f < length W)%nat -> nth f (map (fun f => below_exp (nth f u 0) (log_p_accept logpdf has src i1 i2 a2 W f)) (seq 0 (length W))) false =
    below_exp (nth f u 0) (log_p_accept logpdf has src i1 i2 a2 W f)).
  { intros f Hf. apply nth_error_nth. rewrite nth_error_map, (nth_error_nth' _ 0%nat) by (rewrite seq_length; auto). rewrite seq_nth by auto. reflexivity. }
  split; [|split].
  - unfold gibbs_sample_weights, pick_rows. rewrite !(mapi_seq _ []). apply map_ext_in. intros f Hf. apply in_seq in Hf. rewrite Hm by lia. reflexivity.
  - rewrite map_length, seq_length. auto.
  - intros f Hf. rewrite Hm by auto. apply below_exp_spec. rewrite Forall_forall in Hu. apply Hu. apply nth_In. lia.
Qed.
Print Assumptions C61_decisions.

(** Detailed balance with respect to the posterior: moving the features [m] to relative weights [a2] and moving them back
    to their old relative weights have the same flow. *)
Theorem C61_balance logpdf nf nc lhs has src i1 i2 a2 m W :
  admissible_source nf nc has src -> weight_matrix nf nc W -> (i1 < nc)%nat -> (i2 < nc)%nat -> i1 <> i2 ->
  length a2 = nf -> Forall (fun a => (0 < a < 1)%Q) a2 ->
  let W' := pick_rows m (new_weights i1 i2 a2 W) W in
  let b2 := map (fun w => nth i2 w 0 / (nth i1 w 0 + nth i2 w 0))%Q W in
  weight_matrix nf nc W' /\
  Forall2 (Forall2 Qeq) (pick_rows m (new_weights i1 i2 b2 W') W') W /\
  weights_posterior lhs has src W * move_density logpdf has src i1 i2 a2 m W =
  weights_posterior lhs has src W' * move_density logpdf has src i1 i2 b2 m W'.
Proof.
  intros Hsrc HW H1 H2 H12 Hal Ha W' b2. assert (Hd : draws_in nf a2) by (split; auto).
  assert (HN := @new_matrix nf nc i1 i2 H1 H2 H12 a2 W HW Hd).
  assert (HW' : weight_matrix nf nc W') by (apply pick_matrix; auto).
  assert (HlW : length W = nf) by apply HW. assert (HlW' : length W' = nf) by apply HW'.
  assert (Hb2 : forall f, (f < nf)%nat -> nth f b2 0%Q = relative_weight i1 i2 (nth f W [])).
  { intros f Hf. apply nth_error_nth. unfold b2. rewrite nth_error_map, (nth_error_nth' W []) by lia. reflexivity. }
  (* rows *)
  assert (Hrow' : forall f, (f < nf)%nat -> nth f W' [] = if nth f m false then nth f (new_weights i1 i2 a2 W) [] else nth f W []) by (intros f Hf; apply pick_at; lia).
  assert (Hback : forall f, (f < nf)%nat -> (0 < relative_weight i1 i2 (nth f W []) < 1)%Q /\
    (relative_weight i1 i2 (nth f (new_weights i1 i2 a2 W) []) == nth f a2 0)%Q).
  { intros f Hf. destruct (@new_row nf nc i1 i2 H1 H2 H12 a2 W f HW Hd Hf) as [E _].
    destruct (resample_back (pos_row_of HW Hf) H1 H2 H12 (draw_at Hd Hf) E) as (A & B & _). auto. }
  assert (Hdb : draws_in nf b2).
  { split; [unfold b2; rewrite map_length; auto|]. apply Forall_forall. intros q Hq. apply (In_nth _ _ 0%Q) in Hq as (f & Hf & <-).
    unfold b2 in Hf. rewrite map_length in Hf. rewrite Hb2 by lia. apply Hback. lia. }
  assert (HN' := @new_matrix nf nc i1 i2 H1 H2 H12 b2 W' HW' Hdb).
  assert (Hret : forall f, (f < nf)%nat -> nth f m false = true -> vec_eq (nth f (new_weights i1 i2 b2 W') []) (nth f W [])).
  { intros f Hf Hm. destruct (@new_row nf nc i1 i2 H1 H2 H12 a2 W f HW Hd Hf) as [E _].
    destruct (resample_back (pos_row_of HW Hf) H1 H2 H12 (draw_at Hd Hf) E) as (_ & _ & w'' & E'' & _ & Hv).
    destruct (@new_row nf nc i1 i2 H1 H2 H12 b2 W' f HW' Hdb Hf) as [E3 _]. rewrite Hb2, Hrow', Hm in E3 by auto. rewrite E'' in E3. injection E3 as <-. auto. }
  split; [auto|]. split.
  - assert (G : forall (A B : list (list Q)), length A = length B -> (forall f, (f < length A)%nat -> vec_eq (nth f A []) (nth f B [])) -> Forall2 (Forall2 Qeq) A B).
    { clear. induction A as [|a A IH]; intros [|b B] Hl H; try discriminate; constructor.
      - apply (H 0%nat). simpl; lia.
      - apply IH; [simpl in Hl; lia|]. intros f Hf. apply (H (S f)). simpl; lia. }
    apply G; [unfold pick_rows; rewrite mapi_length; lia|]. intros f Hf. unfold pick_rows in Hf. rewrite mapi_length in Hf. rewrite pick_at by lia.
    destruct (nth f m false) eqn:Em; [apply Hret; auto; lia|]. rewrite Hrow', Em by lia. apply vec_eq_refl.
  - unfold weights_posterior, joint. destruct (prior_factor Hsrc HW) as (p & -> & Ep). destruct (prior_factor Hsrc HW') as (p' & -> & Ep').
    destruct (oprod (source_lhs lhs src)) as [l|]; [|lra]. rewrite !Q2R_mult, Ep, Ep'.
    unfold move_density. rewrite HlW, HlW'.
    assert (Bal : forall f, (f < nf)%nat ->
      exp (log_lh has src f (nth f W [])) * (if nth f m false then exp (beta_logpdf logpdf has src i1 i2 f (nth f a2 0%Q)) * accept_prob (log_p_accept logpdf has src i1 i2 a2 W f) else 1) =
      exp (log_lh has src f (nth f W' [])) * (if nth f m false then exp (beta_logpdf logpdf has src i1 i2 f (nth f b2 0%Q)) * accept_prob (log_p_accept logpdf has src i1 i2 b2 W' f) else 1)).
    { intros f Hf. destruct (nth f m false) eqn:Em.
      2:{ rewrite Hrow', Em by auto. reflexivity. }
      unfold log_p_accept. cbv zeta. rewrite (feature_lh Hsrc HW Hf), (feature_lh Hsrc HW' Hf), (feature_lh Hsrc HN Hf), (feature_lh Hsrc HN' Hf).
      rewrite (log_lh_eq has src f (Hret f Hf Em)). rewrite Hb2 by auto. rewrite Hrow', Em by auto.
      assert (Eb : beta_logpdf logpdf has src i1 i2 f (relative_weight i1 i2 (nth f (new_weights i1 i2 a2 W) [])) = beta_logpdf logpdf has src i1 i2 f (nth f a2 0%Q)).
      { unfold beta_logpdf. f_equal. apply Qeq_eqR. apply Hback. auto. }
      rewrite Eb. cbn [xsub xadd xopp accept_prob].
      set (x := log_lh has src f (nth f W [])). set (y := log_lh has src f (nth f (new_weights i1 i2 a2 W) [])).
      set (q := beta_logpdf logpdf has src i1 i2 f (nth f a2 0%Q)). set (qb := beta_logpdf logpdf has src i1 i2 f (relative_weight i1 i2 (nth f W []))).
      replace (y + - x + qb + - q) with ((y + qb) - (x + q)) by ring. replace (x + - y + q + - qb) with ((x + q) - (y + qb)) by ring.
      rewrite <- !Rmult_assoc, <- !exp_plus. apply exp_balance. }
    assert (Prod : forall W0 b0, exp (Rsum (map (fun f => log_lh has src f (nth f W0 [])) (seq 0 nf))) * Rprod (map b0 (seq 0 nf)) =
      Rprod (map (fun f => exp (log_lh has src f (nth f W0 [])) * b0 f) (seq 0 nf))).
    { intros W0 b0. clear. induction (seq 0 nf) as [|f l IH]; cbn [map Rsum Rprod fold_right]; [rewrite exp_0; lra|].
      fold (Rsum (map (fun f => log_lh has src f (nth f W0 [])) l)). fold (Rprod (map b0 l)). fold (Rprod (map (fun f => exp (log_lh has src f (nth f W0 [])) * b0 f) l)).
      rewrite <- IH, exp_plus. ring. }
    transitivity (Q2R l * Rprod (map (fun f => exp (log_lh has src f (nth f W [])) * (if nth f m false then exp (beta_logpdf logpdf has src i1 i2 f (nth f a2 0%Q)) * accept_prob (log_p_accept logpdf has src i1 i2 a2 W f) else 1)) (seq 0 nf))).
    { rewrite <- Prod. ring. }
    transitivity (Q2R l * Rprod (map (fun f => exp (log_lh has src f (nth f W' [])) * (if nth f m false then exp (beta_logpdf logpdf has src i1 i2 f (nth f b2 0%Q)) * accept_prob (log_p_accept logpdf has src i1 i2 b2 W' f) else 1)) (seq 0 nf))).
    2:{ rewrite <- Prod. ring. }
    f_equal. f_equal. apply map_ext_in. intros f Hf. apply in_seq in Hf. apply Bal. lia.
Qed.
Print Assumptions C61_balance.

(** * Two components (a single confounder): an exact Gibbs step *)
(** The log-density of a beta distribution up to a constant that does not depend on the argument. *)
Definition is_beta_logpdf (logpdf : R -> R -> R -> R) : Prop :=
  exists c, forall a b x, 0 < x < 1 -> logpdf a b x = (a - 1) * ln x + (b - 1) * ln (1 - x) + c a b.
Lemma cell_two (w : list Q) h v : pos_row 2 w -> length h = 2%nat -> length v = 2%nat -> exactly_one v ->
  (forall c, nth c v false = true -> nth c h false = true) ->
  (cell w h v == if nth 0 h false && nth 1 h false then (if nth 0 v false then nth 0 w 0 else nth 1 w 0) else 1)%Q.
Proof.
  intros (Hl & Hp & Hs) Hh Hv (c & Hc & Hu) Ha.
  destruct w as [|x [|y [|? ?]]]; try discriminate. destruct h as [|h0 [|h1 [|? ?]]]; try discriminate. destruct v as [|v0 [|v1 [|? ?]]]; try discriminate.
  inversion Hp as [|? ? Px Hp']; subst. inversion Hp' as [|? ? Py _]; subst. simpl in Hs.
  pose proof (Ha 0%nat) as A0. pose proof (Ha 1%nat) as A1. cbn [nth] in A0, A1.
  assert (Hone : (v0 = true /\ v1 = false) \/ (v0 = false /\ v1 = true)).
  { destruct c as [|[|c]]; cbn in Hc; [injection Hc as ->; left|injection Hc as ->; right|destruct c; discriminate]; split; auto.
    - destruct v1; auto. specialize (Hu 1%nat eq_refl). discriminate.
    - destruct v0; auto. specialize (Hu 0%nat eq_refl). discriminate. }
  unfold cell, normalize_row. cbv zeta. cbn [nth].
  destruct Hone as [[-> ->]|[-> ->]]; [rewrite (A0 eq_refl)|rewrite (A1 eq_refl)].
  - destruct h1; cbn [andb map2 Qsum fold_right map].
    + destruct (Qeq_bool (x + (y + 0)) 0) eqn:E; [apply Qeq_bool_iff in E; Lqa.lra|]. cbn [map2 Qsum fold_right]. rewrite Hs. field.
    + destruct (Qeq_bool (x + (0 + 0)) 0) eqn:E; [apply Qeq_bool_iff in E; Lqa.lra|]. cbn [map2 Qsum fold_right]. field. Lqa.lra.
  - destruct h0; cbn [andb map2 Qsum fold_right map].
    + destruct (Qeq_bool (x + (y + 0)) 0) eqn:E; [apply Qeq_bool_iff in E; Lqa.lra|]. cbn [map2 Qsum fold_right]. rewrite Hs. field.
    + destruct (Qeq_bool (0 + (y + 0)) 0) eqn:E; [apply Qeq_bool_iff in E; Lqa.lra|]. cbn [map2 Qsum fold_right]. field. Lqa.lra.
Qed.
Lemma log_lh_two nf has src i1 i2 f (w : list Q) : admissible_source nf 2 has src -> pos_row 2 w -> (f < nf)%nat ->
  (i1 < 2)%nat -> (i2 < 2)%nat -> i1 <> i2 ->
  log_lh has src f w = INR (pair_count has src i1 i2 f i1) * ln (Q2R (nth i1 w 0%Q)) + INR (pair_count has src i1 i2 f i2) * ln (Q2R (nth i2 w 0%Q)).
Proof.
  intros Hsrc Hw Hf H1 H2 H12. unfold log_lh, pair_count.
  assert (G : forall os, (forall o, In o os -> (o < length src)%nat) ->
    Rsum (map (fun o => ln (Q2R (cell w (nth o has []) (nth f (nth o src []) [])))) os) =
    INR (length (filter (fun o => nth i1 (nth o has []) false && nth i2 (nth o has []) false && nth i1 (nth f (nth o src []) []) false) os)) * ln (Q2R (nth i1 w 0%Q)) +
    INR (length (filter (fun o => nth i1 (nth o has []) false && nth i2 (nth o has []) false && nth i2 (nth f (nth o src []) []) false) os)) * ln (Q2R (nth i2 w 0%Q))).
  { induction os as [|o os IH]; intros H; [cbn; lra|]. cbn [map Rsum fold_right filter].
    assert (Ho : (o < length src)%nat) by (apply H; left; auto).
    fold (Rsum (map (fun o => ln (Q2R (cell w (nth o has []) (nth f (nth o src []) [])))) os)).
    rewrite IH by (intros; apply H; right; auto).
    destruct (source_cell Hsrc Ho Hf) as [Hv Hone]. destruct Hsrc as ((Hl & _) & Hh & Ha).
    assert (Hh2 : length (nth o has []) = 2%nat) by (rewrite Forall_forall in Hh; apply Hh; apply nth_In; lia).
    assert (Hc := cell_two Hw Hh2 Hv Hone (fun c => Ha o f c)). rewrite (Qeq_eqR _ _ Hc). clear Hc.
    set (h := nth o has []) in *. set (v := nth f (nth o src []) []) in *. clearbody h v. clear - Hv Hone H1 H2 H12.
    destruct v as [|v0 [|v1 [|? ?]]]; try discriminate.
    assert (Hx : (v0 = true /\ v1 = false) \/ (v0 = false /\ v1 = true)).
    { destruct Hone as (c & Hc & Hu). destruct c as [|[|c]]; cbn in Hc; [injection Hc as ->; left|injection Hc as ->; right|destruct c; discriminate]; split; auto.
      - destruct v1; auto. specialize (Hu 1%nat eq_refl). discriminate.
      - destruct v0; auto. specialize (Hu 0%nat eq_refl). discriminate. }
    assert (L1 : ln (Q2R 1) = 0) by (replace (Q2R 1) with 1 by (unfold Q2R; simpl; lra); apply ln_1).
    destruct i1 as [|[|i1]], i2 as [|[|i2]]; try lia; cbn [nth]; destruct (nth 0 h false), (nth 1 h false); cbn [andb];
      try (rewrite L1; ring); destruct Hx as [[-> ->]|[-> ->]]; cbn [length]; rewrite ?S_INR; ring. }
  apply G. intros o Ho. apply in_seq in Ho. lia.
Qed.
Lemma new_row_two i1 i2 a (w w' : list Q) : pos_row 2 w -> (i1 < 2)%nat -> (i2 < 2)%nat -> i1 <> i2 -> (0 < a < 1)%Q ->
  resample_row i1 i2 a w = Some w' -> (nth i1 w' 0 == 1 - a /\ nth i2 w' 0 == a)%Q.
Proof.
  intros Hw H1 H2 H12 Ha E. destruct (resample_spec Hw H1 H2 H12 Ha) as (w1 & E1 & _ & Hv). rewrite E in E1. injection E1 as <-.
  destruct Hw as (Hl & _ & Hs). pose proof (vec_eq_at i1 Hv) as V1. pose proof (vec_eq_at i2 Hv) as V2.
  rewrite (@set2_at 2) in V1, V2 by auto. rewrite Nat.eqb_refl in V2. rewrite Nat.eqb_refl in V1. destruct (Nat.eqb_spec i1 i2) as [?|_]; [contradiction|].
  assert (S1 : (nth i1 w 0 + nth i2 w 0 == 1)%Q).
  { destruct w as [|x [|y [|? ?]]]; try discriminate. simpl in Hs. destruct i1 as [|[|i1]], i2 as [|[|i2]]; try lia; cbn [nth]; Lqa.lra. }
  rewrite V1, V2, S1. split; ring.
Qed.
(** C61 with one confounder: the proposal is the conditional distribution of the relative weight, every step is accepted. *)
Theorem C61_one_confounder logpdf nf has src i1 i2 a2 W f : is_beta_logpdf logpdf ->
  admissible_source nf 2 has src -> weight_matrix nf 2 W -> (i1 < 2)%nat -> (i2 < 2)%nat -> i1 <> i2 ->
  length a2 = nf -> Forall (fun a => (0 < a < 1)%Q) a2 -> (f < nf)%nat ->
  log_p_accept logpdf has src i1 i2 a2 W f = Fin 0.
Proof.
  intros (c & Hc) Hsrc HW H1 H2 H12 Hal Ha Hf. assert (Hd : draws_in nf a2) by (split; auto).
  assert (HN := @new_matrix nf 2 i1 i2 H1 H2 H12 a2 W HW Hd).
  unfold log_p_accept. cbv zeta. rewrite (feature_lh Hsrc HW Hf), (feature_lh Hsrc HN Hf).
  destruct (@new_row nf 2 i1 i2 H1 H2 H12 a2 W f HW Hd Hf) as [E Hp]. pose proof (pos_row_of HW Hf) as Hw. pose proof (draw_at Hd Hf) as Hq.
  rewrite (log_lh_two Hsrc Hw Hf H1 H2 H12), (log_lh_two Hsrc Hp Hf H1 H2 H12).
  destruct (new_row_two Hw H1 H2 H12 Hq E) as [N1 N2].
  destruct (resample_back Hw H1 H2 H12 Hq E) as (Hr & _).
  set (w := nth f W []) in *. set (w' := nth f (new_weights i1 i2 a2 W) []) in *. set (a := nth f a2 0%Q) in *.
  assert (R2 : (relative_weight i1 i2 w == nth i2 w 0 /\ 1 - relative_weight i1 i2 w == nth i1 w 0)%Q).
  { clear - Hw H1 H2 H12. destruct Hw as (Hl & Hp & Hs). destruct w as [|x [|y [|? ?]]]; try discriminate. simpl in Hs.
    inversion Hp as [|? ? Px Hp']; subst. inversion Hp' as [|? ? Py _]; subst. unfold relative_weight.
    assert (G : forall p q : Q, (p + q == 1 -> q / (p + q) == q /\ 1 - q / (p + q) == p)%Q).
    { intros p q S1. assert (S2 : (q / (p + q) == q)%Q) by (rewrite S1; field). split; [auto|]. rewrite S2. Lqa.lra. }
    apply G. destruct i1 as [|[|i1]], i2 as [|[|i2]]; try lia; cbn [nth]; Lqa.lra. }
  destruct R2 as [R2 R1].
  assert (P : forall q, (0 < q < 1)%Q -> 0 < Q2R q < 1).
  { intros q [A B]. split; [apply Q2R_pos; auto|]. apply Qlt_Rlt in B. replace (Q2R 1) with 1 in B by (unfold Q2R; simpl; lra). auto. }
  unfold beta_logpdf. rewrite !Hc by (apply P; auto).
  assert (Q1 : Q2R 1 = 1) by (unfold Q2R; simpl; lra).
  assert (E1 : 1 - Q2R a = Q2R (nth i1 w' 0%Q)) by (rewrite (Qeq_eqR _ _ N1), Q2R_minus, Q1; reflexivity).
  assert (E2 : Q2R a = Q2R (nth i2 w' 0%Q)) by (rewrite (Qeq_eqR _ _ N2); auto).
  assert (E3 : 1 - Q2R (relative_weight i1 i2 w) = Q2R (nth i1 w 0%Q)) by (rewrite <- (Qeq_eqR _ _ R1), Q2R_minus, Q1; reflexivity).
  assert (E4 : Q2R (relative_weight i1 i2 w) = Q2R (nth i2 w 0%Q)) by (apply Qeq_eqR; auto).
  rewrite E1, E3, E4, E2. cbn [xsub xadd xopp]. f_equal. ring.
Qed.
Print Assumptions C61_one_confounder.
Example C61_one_confounder_case : let has := [[true; true]; [false; true]] in let src := [[[true; false]]; [[false; true]]] in
  admissible_source 1 2 has src /\ weight_matrix 1 2 [[1#4; 3#4]]%Q /\ pair_count has src 1 0 0 0 = 1%nat /\ pair_count has src 1 0 0 1 = 0%nat /\
  is_beta_logpdf (fun a b x => (a - 1) * ln x + (b - 1) * ln (1 - x)) /\
  log_p_accept (fun a b x => (a - 1) * ln x + (b - 1) * ln (1 - x)) has src 1 0 [1#3]%Q [[1#4; 3#4]]%Q 0 = Fin 0.
Proof.
  intros has src.
  assert (A : admissible_source 1 2 has src).
  { unfold admissible_source. conj.
    - split; [reflexivity|]. repeat (apply Forall_cons; [split; [reflexivity|]|]); auto; repeat (apply Forall_cons; [split; [reflexivity|]|]); auto.
      + exists 0%nat. split; [reflexivity|]. intros [|[|[|d]]]; simpl; congruence.
      + exists 1%nat. split; [reflexivity|]. intros [|[|[|d]]]; simpl; congruence.
    - repeat (apply Forall_cons; [reflexivity|]). auto.
    - intros o f c. destruct o as [|[|o]]; [| |destruct o]; (destruct f as [|f]; [|destruct f]); destruct c as [|[|c]]; try destruct c; simpl; intros; try reflexivity; discriminate. }
  assert (B : weight_matrix 1 2 [[1#4; 3#4]]%Q).
  { split; [reflexivity|]. repeat (apply Forall_cons; [split; [reflexivity|]; split; [repeat (apply Forall_cons; [reflexivity|]); apply Forall_nil|reflexivity]|]). apply Forall_nil. }
  assert (C : is_beta_logpdf (fun a b x => (a - 1) * ln x + (b - 1) * ln (1 - x))) by (exists (fun _ _ => 0); intros; lra).
  conj; auto. apply (@C61_one_confounder _ 1); auto. repeat constructor.
Qed.

(** Two objects (the second in no cluster), two features, three components. *)
Definition gw_has : list (list bool) := [[true; true; true]; [false; true; true]].
Definition gw_src : cube := [[[true; false; false]; [false; false; true]]; [[false; true; false]; [false; false; true]]].
Definition gw_W : list (list Q) := [[1#2; 1#4; 1#4]; [1#5; 2#5; 2#5]]%Q.
Example C61_case : admissible_source 2 3 gw_has gw_src /\ weight_matrix 2 3 gw_W /\
  Forall2 (Forall2 Qeq) (pick_rows [false; true] (new_weights 0 2 [1#4; 1#2]%Q gw_W) gw_W) [[1#2; 1#4; 1#4]; [3#10; 2#5; 3#10]]%Q /\
  pair_count gw_has gw_src 0 2 1 2 = 1%nat /\ pair_count gw_has gw_src 1 2 1 2 = 2%nat.
Proof.
  conj.
  - unfold admissible_source. conj.
    + split; [reflexivity|]. repeat (apply Forall_cons; [split; [reflexivity|]|]); auto;
        repeat (apply Forall_cons; [split; [reflexivity|]|]); auto.
      * exists 0%nat. split; [reflexivity|]. intros [|[|[|[|d]]]]; simpl; congruence.
      * exists 2%nat. split; [reflexivity|]. intros [|[|[|[|d]]]]; simpl; congruence.
      * exists 1%nat. split; [reflexivity|]. intros [|[|[|[|d]]]]; simpl; congruence.
      * exists 2%nat. split; [reflexivity|]. intros [|[|[|[|d]]]]; simpl; congruence.
    + repeat (apply Forall_cons; [reflexivity|]). auto.
    + intros [|[|o]] [|[|f]] [|[|[|c]]]; simpl; try reflexivity; try discriminate; try (destruct o; discriminate); try (destruct f; discriminate); try (destruct c; discriminate);
        destruct o; try destruct f; try destruct c; discriminate.
  - split; [reflexivity|]. repeat (apply Forall_cons; [split; [reflexivity|]; split; [repeat (apply Forall_cons; [reflexivity|]); apply Forall_nil|reflexivity]|]). apply Forall_nil.
  - vm_compute. repeat (apply Forall2_cons; [repeat (apply Forall2_cons; [reflexivity|]); apply Forall2_nil|]). apply Forall2_nil.
  - reflexivity.
  - reflexivity.
Qed.
