(** Property theorems C25, C28 and C56: operators on weights and effects, categorical sampling. *)
From Verif Require Import M_params S_params L_params L_reverse.
From Coq Require Import Lqa Reals Qreals.
Open Scope Q_scope.

(** C25. After any history of the five operators (any random choices, any draws the generators can
    return, accepted or rejected, for each feature separately in [GibbsSampleWeights]) all weights and
    effects are probability vectors of the same shape, with zeros at inapplicable states. *)
Theorem C25_simplex_preserved : forall m applicable p p',
  phistory m applicable p p' -> params_ok m applicable p -> params_ok m applicable p'.
Proof. exact history_ok. Qed.
Print Assumptions C25_simplex_preserved.

(** Two features (the second has only two of three states), three components, one cluster, one
    confounder with one group. *)
Definition app_demo : list (list bool) := [[true; true; true]; [true; false; true]].
Definition params_demo : params :=
  {| p_weights := [[1#2; 1#3; 1#6]; [1#3; 1#3; 1#3]];
     p_ce := [[[1#2; 1#4; 1#4]; [1#3; 0; 2#3]]];
     p_cf := [[[[1#5; 3#5; 1#5]; [1#2; 0; 1#2]]]] |}.
Lemma simplex_compute v : forallb (Qle_bool 0) v && Qeq_bool (Qsum v) 1 = true -> simplex v.
Proof.
  intros H. apply andb_true_iff in H as [H1 H2]. split; [|apply Qeq_bool_iff; auto].
  apply Forall_forall. intros q Hq. rewrite forallb_forall in H1. apply Qle_bool_iff; auto.
Qed.
Lemma simplex_on_compute app v : (length v =? length app)%nat && (forallb (Qle_bool 0) v && Qeq_bool (Qsum v) 1) &&
  forallb (fun b => b) (map2 (fun (a : bool) q => a || Qeq_bool q 0) app v) = true -> simplex_on app v.
Proof.
  intros H. apply andb_true_iff in H as [H H3]. apply andb_true_iff in H as [H1 H2].
  apply Nat.eqb_eq in H1. split; [auto|]. split; [apply simplex_compute; auto|].
  intros s Hs. rewrite forallb_forall in H3. destruct (nth_error app s) as [a|] eqn:Ea.
  - destruct (nth_error v s) as [q|] eqn:Ev.
    + rewrite (nth_error_nth _ _ _ Ea) in Hs. rewrite (nth_error_nth _ _ _ Ev). subst a.
      assert (X : nth_error (map2 (fun (a : bool) q => a || Qeq_bool q 0) app v) s = Some (Qeq_bool q 0)) by (rewrite nth_error_map2, Ea, Ev; auto).
      apply nth_error_In in X. apply H3 in X. apply Qeq_bool_iff; auto.
    + apply nth_error_None in Ev. rewrite nth_overflow by auto. reflexivity.
  - apply nth_error_None in Ea. rewrite nth_overflow by lia. reflexivity.
Qed.
Example C25_case : params_ok 3 app_demo params_demo /\ exists p', phistory 3 app_demo params_demo p' /\
  p_weights p' <> p_weights params_demo /\ p_ce p' <> p_ce params_demo /\ p_cf p' <> p_cf params_demo.
Proof.
  split.
  - unfold params_ok. conj.
    + reflexivity.
    + repeat constructor; try (apply Qle_bool_iff; reflexivity).
    + repeat first [apply simplex_on_compute; reflexivity | apply Forall_cons | apply Forall_nil | apply Forall2_cons | apply Forall2_nil].
    + repeat first [apply simplex_on_compute; reflexivity | apply Forall_cons | apply Forall_nil | apply Forall2_cons | apply Forall2_nil].
  - eexists. split.
    + eapply ph_accept with (op := GibbsEffect (Some 0%nat) 0 [[1#3; 1#3; 1#3]; [1#4; 3#4]]).
      * eapply ph_accept with (op := AlterEffect None 0 1 2 0 (Some [1#5; 4#5])).
        -- eapply ph_accept with (op := GibbsWeights 0 2 [(1#7, true); (1#8, false)]).
           ++ eapply ph_accept with (op := AlterWeights 1 2 0 (Some [1#3; 2#3])).
              ** apply ph_start.
              ** simpl. conj; auto; try lia. repeat split; auto. repeat constructor; apply Qle_bool_iff; reflexivity.
              ** vm_compute. reflexivity.
           ++ simpl. conj; auto; try lia. repeat constructor; apply Qle_bool_iff; reflexivity.
           ++ vm_compute. reflexivity.
        -- simpl. conj; auto. repeat split; auto. repeat constructor; apply Qle_bool_iff; reflexivity.
        -- vm_compute. reflexivity.
      * constructor; [|constructor; [|constructor]]; split; try reflexivity; apply simplex_compute; reflexivity.
      * vm_compute. reflexivity.
    + conj; discriminate.
Qed.

(** C28. For every probability vector [p] and every draw [z] in [0, 1): category [i] is returned exactly
    for the draws in an interval of length [p_i]; the binary encoding is the unit vector of the category. *)
Theorem C28_categorical : forall p z, Forall (fun q => 0 <= q) p -> Qsum p == 1 -> 0 <= z -> z < 1 ->
  (forall i, categorical z (Some p) = i <-> (i < length p)%nat /\ Qsum (firstn i p) <= z /\ z < Qsum (firstn (S i) p)) /\
  (forall i, Qsum (firstn (S i) p) - Qsum (firstn i p) == nth i p 0) /\
  (forall i, nth i p 0 == 0 -> categorical z (Some p) <> i) /\
  (forall n zs ps o f z_o p_o, nth_error zs o = Some z_o -> nth_error z_o f = Some z ->
     nth_error ps o = Some p_o -> nth_error p_o f = Some (Some p) ->
     exists row v, nth_error (sample_categorical n zs ps) o = Some row /\ nth_error row f = Some v /\
       length v = n /\ forall c, (c < n)%nat -> nth c v false = Nat.eqb (categorical z (Some p)) c).
Proof.
  intros p z Hn Hs H1 H2. pose proof (@categorical_spec p z Hn Hs H1 H2) as A. conj; auto.
  - intros i. rewrite Qsum_firstn_S. lra.
  - intros i Hi E. apply A in E as (_ & I1 & I2). rewrite Qsum_firstn_S in I2. lra.
  - intros n zs ps o f z_o p_o Ho Hf Ho' Hf'. unfold sample_categorical.
    eexists (map2 _ z_o p_o), _. conj.
    + rewrite nth_error_map2, Ho, Ho'. reflexivity.
    + rewrite nth_error_map2, Hf, Hf'. reflexivity.
    + unfold eye_row. rewrite map_length, seq_length. reflexivity.
    + intros c Hc. unfold eye_row. rewrite nth_indep with (d' := Nat.eqb (categorical z (Some p)) 0%nat) by (rewrite map_length, seq_length; auto).
      rewrite map_nth, seq_nth by auto. reflexivity.
Qed.
Print Assumptions C28_categorical.
Example C28_case : simplex [1#4; 0; 1#2; 1#4] /\ categorical (1#4) (Some [1#4; 0; 1#2; 1#4]) = 2%nat /\
  sample_categorical 4 [[1#4; 99#100]] [[Some [1#4; 0; 1#2; 1#4]; None]] = [[[false; false; true; false]; [true; false; false; false]]].
Proof. conj; [apply simplex_compute; reflexivity|reflexivity|reflexivity]. Qed.

(** The hypothesis [Qsum p == 1] is needed: if the sum falls short of one (in the code: by rounding), a
    draw above it returns category 0 even if its probability is zero. *)
Theorem C28_short_sum_returns_zero : forall p z, Forall (fun q => 0 <= q) p -> Qsum p <= z -> categorical z (Some p) = 0%nat.
Proof.
  intros p z Hn Hz. unfold categorical, argmax, cumsum.
  assert (H : forall p acc, Forall (fun q => 0 <= q) p -> acc + Qsum p <= z -> first_true (map (Qltb z) (cumsum_from acc p)) = None).
  { clear. induction p as [|q p IH]; intros acc Hn Hz; [reflexivity|]. inversion_clear Hn.
    change (Qsum (q :: p)) with (q + Qsum p) in Hz. cbn [cumsum_from map first_true].
    pose proof (Qsum_nonneg H0). replace (Qltb z (acc + q)) with false by (symmetry; apply Qltb_false; lra).
    rewrite IH; auto. lra. }
  rewrite H; auto. lra.
Qed.
Print Assumptions C28_short_sum_returns_zero.
Example C28_short_case : categorical (999#1000) (Some [0; 99#100]) = 0%nat.
Proof. reflexivity. Qed.

(** C56. For the three Dirichlet operators: if the row [row] is changed to [row'] with reported
    densities [q] and [qb], then the reverse move (the same entries, the draw that restores the old
    values) from [row'] leads back to [row] and reports [qb] and [q]; all other entries are untouched and
    the sum of the two entries is kept.  [logpdf] is any function of the values of its arguments. *)
Theorem C56_dirichlet_reports : forall D (logpdf : list Q -> list Q -> D) prec row i j d row' q qb,
  (forall x x' a a', vec_eq x x' -> vec_eq a a' -> logpdf x a = logpdf x' a') ->
  dirichlet_draw 2 d -> (i < length row)%nat -> (j < length row)%nat -> i <> j ->
  alter_pair logpdf prec row i j (Some d) = Some (row', q, qb) ->
  let s := nth i row 0 + nth j row 0 in
  (forall k, k <> i -> k <> j -> nth k row' 0 = nth k row 0) /\ nth i row' 0 + nth j row' 0 == s /\
  q = logpdf d (map (fun x => 1 + prec * x) [nth i row 0 / s; nth j row 0 / s]) /\
  exists row'', alter_pair logpdf prec row' i j (Some [nth i row 0 / s; nth j row 0 / s]) = Some (row'', qb, q) /\
    vec_eq row'' row.
Proof.
  intros D logpdf prec row i j d row' q qb HP Hd Hi Hj Hij H s.
  pose proof (alter_pair_reverse HP Hd Hi Hj Hij H) as R.
  apply alter_pair_inv in H as (H0 & w & [= <-] & -> & -> & ->). conj; auto.
  - intros; apply set2_other; auto.
  - rewrite set2_i, set2_j by auto. apply draw2 in Hd as (a & b & -> & _ & _ & E). cbn [nth].
    rewrite Qsum2. fold s. transitivity ((a + b) * s); [ring|]. rewrite E. ring.
  - apply HP; [apply vec_eq_refl|]. apply (@step_alpha_eq prec _ [nth i row 0 / s; nth j row 0 / s]). repeat constructor; rewrite Qsum2; reflexivity.
Qed.
Print Assumptions C56_dirichlet_reports.

(** C56, for all parameters: a proposal changes no number other than the ones the operator names. *)
Lemma nth_upd_any {A} (l : list A) n h m d : (m <> n -> nth m (upd n h l) d = nth m l d) /\
  ((n < length l)%nat -> nth n (upd n h l) d = h (nth n l d)) /\ ((length l <= n)%nat -> upd n h l = l).
Proof.
  conj.
  - revert n m. induction l as [|a l IH]; intros [|n] [|m] H; simpl; auto; try congruence.
  - revert n. induction l as [|a l IH]; intros [|n] H; simpl in *; try lia; auto. apply IH; lia.
  - intros H. apply upd_out; auto.
Qed.
Lemma upd_row_entry (l : list (list Q)) f row i j : (forall k, k <> i -> k <> j -> nth k row 0 = nth k (nth f l []) 0) ->
  forall f' s, ~ (f' = f /\ (s = i \/ s = j)) -> nth s (nth f' (upd f (fun _ => row) l) []) 0 = nth s (nth f' l []) 0.
Proof.
  intros H f' s N. destruct (Nat.eq_dec f' f) as [->|E].
  - destruct (Nat.lt_ge_cases f (length l)) as [L|L].
    + rewrite (proj1 (proj2 (nth_upd_any l f (fun _ => row) f [])) L). apply H; intros ->; apply N; auto.
    + rewrite (proj2 (proj2 (nth_upd_any l f (fun _ => row) f [])) L). reflexivity.
  - rewrite (proj1 (nth_upd_any l f (fun _ => row) f' []) E). reflexivity.
Qed.
Lemma upd_group_entry (l : list effect) g h : forall g' f s,
  (g' = g -> nth s (nth f (h (nth g l [])) []) 0 = nth s (nth f (nth g l []) []) 0) ->
  nth s (nth f (nth g' (upd g h l) []) []) 0 = nth s (nth f (nth g' l []) []) 0.
Proof.
  intros g' f s H. destruct (Nat.eq_dec g' g) as [->|E].
  - destruct (Nat.lt_ge_cases g (length l)) as [L|L].
    + rewrite (proj1 (proj2 (nth_upd_any l g h g [])) L). auto.
    + rewrite (proj2 (proj2 (nth_upd_any l g h g [])) L). reflexivity.
  - rewrite (proj1 (nth_upd_any l g h g' []) E). reflexivity.
Qed.
Lemma edit_effect_entry which g h p x :
  (forall f s, x = effect_entry which g f s -> nth s (nth f (h (get_effect which g p)) []) 0 = value p x) ->
  value (edit_effect which g h p) x = value p x.
Proof.
  intros H. destruct which as [k|], x as [f c|g' f s|k' g' f s]; cbn [edit_effect value p_weights p_ce p_cf]; auto.
  - destruct (Nat.eq_dec k' k) as [->|E].
    + destruct (Nat.lt_ge_cases k (length (p_cf p))) as [L|L].
      * rewrite (proj1 (proj2 (nth_upd_any (p_cf p) k (upd g h) k [])) L). apply upd_group_entry. intros ->. apply H. reflexivity.
      * rewrite (proj2 (proj2 (nth_upd_any (p_cf p) k (upd g h) k [])) L). reflexivity.
    + rewrite (proj1 (nth_upd_any (p_cf p) k (upd g h) k' []) E). reflexivity.
  - apply upd_group_entry. intros ->. apply H. reflexivity.
Qed.
Theorem C56_other_entries : forall applicable op p p' x,
  propose_params applicable op p = Some p' -> ~ may_change op x -> value p' x = value p x.
Proof.
  intros applicable op p p' x H N. destruct op as [f i j d|i j ds|which g f i j d|which g ds]; cbn [propose_params may_change] in *.
  - destruct (alter_pair _ _ _ _ _ _) as [[[row q] qb]|] eqn:E; [|discriminate]. injection H as <-.
    apply alter_pair_inv in E as (_ & w & _ & -> & _ & _). destruct x as [f' c|g' f' s|k' g' f' s]; cbn [value p_weights p_ce p_cf]; auto.
    apply upd_row_entry with (i := i) (j := j); [intros; apply set2_other; auto|]. intros (-> & [-> | ->]); apply N; auto.
  - injection H as <-. destruct x as [f' c|g' f' s|k' g' f' s]; cbn [value p_weights p_ce p_cf]; auto. destruct N; eauto.
  - destruct (alter_pair _ _ _ _ _ _) as [[[row q] qb]|] eqn:E; [|discriminate]. injection H as <-.
    apply alter_pair_inv in E as (_ & w & _ & -> & _ & _). apply edit_effect_entry. intros f' s ->.
    transitivity (nth s (nth f' (get_effect which g p) []) 0); [|destruct which; reflexivity].
    apply upd_row_entry with (i := i) (j := j); [intros; apply set2_other; auto|]. intros (-> & [-> | ->]); apply N; auto.
  - injection H as <-. apply edit_effect_entry. intros f s ->. destruct N; eauto.
Qed.
Print Assumptions C56_other_entries.
(** The confounding operator changes two entries of its confounder and no cluster effect. *)
Example C56_other_case : exists p', propose_params app_demo (AlterEffect (Some 0%nat) 0 0 0 1 (Some [1#2; 1#2])) params_demo = Some p' /\
  value p' (EConf 0 0 0 0) == 2#5 /\ value params_demo (EConf 0 0 0 0) == 1#5 /\
  ~ may_change (AlterEffect (Some 0%nat) 0 0 0 1 (Some [1#2; 1#2])) (ECluster 0 0 0) /\ value p' (ECluster 0 0 0) = 1#2.
Proof.
  eexists. split; [reflexivity|]. split; [reflexivity|]. split; [reflexivity|].
  split; [intros [H|H]; discriminate H|reflexivity].
Qed.

(** The Dirichlet log-density (up to the function giving the normalising constant), as an instance. *)
Definition dirichlet_logpdf_of (norm : list R -> R) (x alpha : list Q) : R :=
  (norm (map Q2R alpha) + fold_right Rplus 0 (map2 (fun a y => (Q2R a - 1) * ln (Q2R y)) alpha x))%R.
Lemma dirichlet_logpdf_values norm x x' a a' : vec_eq x x' -> vec_eq a a' ->
  dirichlet_logpdf_of norm x a = dirichlet_logpdf_of norm x' a'.
Proof.
  intros Hx Ha. unfold dirichlet_logpdf_of. f_equal.
  - f_equal. induction Ha as [|u v a a' E _ IH]; simpl; [reflexivity|]. rewrite IH. f_equal. apply Qeq_eqR; auto.
  - revert x x' Hx. induction Ha as [|u v a a' E _ IH]; intros x x' Hx; [reflexivity|].
    destruct Hx as [|y z x x' E' Hx]; [reflexivity|]. simpl. rewrite (IH _ _ Hx), (Qeq_eqR _ _ E), (Qeq_eqR _ _ E'). reflexivity.
Qed.
Example C56_case : forall norm, exists row' q qb,
  alter_pair (dirichlet_logpdf_of norm) prec_weights [1#2; 1#3; 1#6] 2 0 (Some [1#3; 2#3]) = Some (row', q, qb) /\
  vec_eq row' [4#9; 1#3; 2#9] /\ dirichlet_draw 2 [1#3; 2#3].
Proof.
  intros norm. eexists _, _, _. split; [cbv -[dirichlet_logpdf_of]; reflexivity|]. split; [repeat constructor|].
  split; [reflexivity|]. apply simplex_compute. reflexivity.
Qed.
