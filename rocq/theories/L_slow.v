(** Lemmas for the reference implementation (C87). *)
From Verif Require Import M_cache S_cache L_cache S_slow.
From Coq Require Import Lra.
Set Implicit Arguments.
Unset Strict Implicit.
Close Scope R_scope.
Close Scope Q_scope.
Open Scope nat_scope.

(** ** Arithmetic of floating point values *)
Lemma xadd_comm a b : xadd a b = xadd b a.
Proof. destruct a, b; simpl; auto. f_equal; ring. Qed.
Lemma xadd_assoc a b c : xadd a (xadd b c) = xadd (xadd a b) c.
Proof. destruct a, b, c; simpl; auto. f_equal; ring. Qed.
Lemma xadd_0_l a : xadd (Fin 0) a = a.
Proof. destruct a; simpl; auto. f_equal; ring. Qed.
Lemma xadd_0_r a : xadd a (Fin 0) = a.
Proof. rewrite xadd_comm; apply xadd_0_l. Qed.
Lemma xadd_nan_r a : xadd a NaN = NaN.
Proof. destruct a; auto. Qed.
Lemma xopp_xadd a b : xopp (xadd a b) = xadd (xopp a) (xopp b).
Proof. destruct a, b; simpl; auto. f_equal; ring. Qed.
Lemma xscale_1 a : xscale 1 a = a.
Proof. destruct a; simpl; auto; try (destruct (Rlt_dec 0 1); [auto|lra]). f_equal; ring. Qed.
Lemma xadd_swap a b c : xadd a (xadd b c) = xadd b (xadd a c).
Proof. rewrite !xadd_assoc, (xadd_comm a b); auto. Qed.

Lemma log_sum_app l r : log_sum (l ++ r) = xadd (log_sum l) (log_sum r).
Proof.
  induction l as [|x l IH].
  - symmetry; apply xadd_0_l.
  - change (xadd (np_log x) (log_sum (l ++ r)) = xadd (xadd (np_log x) (log_sum l)) (log_sum r)).
    rewrite IH, xadd_assoc; auto.
Qed.

Lemma sum4 a b c d : xadd (xadd a (xadd b c)) d = xadd (xadd a c) (xadd b d).
Proof. rewrite (xadd_comm b c), xadd_assoc, <- xadd_assoc. auto. Qed.

(** The decision depends on the sum of likelihood and prior only. *)
Lemma ratio_sum ll ll0 pr pr0 q qb :
  metropolis_hastings_ratio ll ll0 pr pr0 q qb 1 =
  xadd (xsub (xadd ll pr) (xadd ll0 pr0)) (xopp (xsub q qb)).
Proof.
  unfold metropolis_hastings_ratio, xsub. rewrite xscale_1, !xopp_xadd.
  set (a := xopp ll0). set (b := xopp q). set (c := xopp (xopp qb)). set (d := xopp pr0).
  rewrite <- !xadd_assoc. f_equal. rewrite (xadd_swap pr a). f_equal.
  rewrite (xadd_swap c pr d), (xadd_swap b pr). f_equal. rewrite (xadd_comm c d), (xadd_swap b d); auto.
Qed.

Lemma xsub_shift a b k : xsub (xadd a (Fin k)) (xadd b (Fin k)) = xsub a b.
Proof. unfold xsub. destruct a, b; simpl; auto. f_equal; ring. Qed.

(** ** Component likelihoods *)
Section Comp.
Variable features : cube.
Variable nf : nat.

Lemma zeros_length : length (zeros features nf) = length features.
Proof. apply map_length. Qed.

Lemma slow_component_fast probs groups : length probs = length groups -> disjoint_groups groups ->
  set_na features (slow_component features probs groups (zeros features nf)) =
  spec_component nf features probs groups.
Proof.
  intros L D. rewrite <- (@component_correct nf features probs groups L D (seq 0 (length groups)) (zeros features nf)).
  - unfold slow_component, compute_component_likelihood. f_equal. f_equal.
    apply nth_error_ext; intros o. rewrite nth_error_mapi. unfold zeros. rewrite nth_error_map.
    destruct (nth_error features o); simpl; auto. destruct (any_group groups o); auto.
  - apply zeros_length.
  - intros o i G N. exfalso; apply N. apply in_seq. apply in_group_lt in G. lia.
Qed.
End Comp.

(** ** The whole model *)
Section Whole.
Variable features : cube.
Variable nf : nat.
Variable confs : list bmat.
Variables size_fn geo_fn : bmat -> xf.
Variable lnB : list R -> R.
Variable applicable : list (list bool).
Notation M := (uniform_model features nf confs size_fn geo_fn).

Lemma slow_confs_fast gs : forall es, Forall disjoint_groups gs ->
  map (fun e : pval effect => length (v_value e)) es = map (@length (list bool)) gs ->
  map (set_na features) (map2 (fun g e => slow_component features (v_value e) g (zeros features nf)) gs es) =
  map2 (fun g e => spec_component nf features (v_value e) g) gs es.
Proof.
  induction gs as [|g gs IH]; intros [|e es] D L; simpl in *; try discriminate; auto.
  inversion D; subst. f_equal.
  - apply slow_component_fast; auto; congruence.
  - apply IH; auto; congruence.
Qed.

Lemma slow_components_fast p : Forall disjoint_groups confs -> disjoint_pars p -> pars_wf M p ->
  slow_components features nf confs p = spec_components M p.
Proof.
  intros D P (_ & _ & L & _ & LC). unfold slow_components, spec_components. cbn [map]. f_equal.
  - apply slow_component_fast; auto.
  - apply slow_confs_fast; auto.
Qed.

Lemma Rsum_const A (f : A -> R) l c : (forall x, In x l -> f x = c) -> Rsum (map f l) = (INR (length l) * c)%R.
Proof.
  induction l as [|x l IH]; intros H.
  - simpl; ring.
  - cbn [map length]. rewrite S_INR. unfold Rsum; cbn [fold_right]. fold (Rsum (map f l)).
    rewrite IH, H by (intros; try apply H; simpl; auto). ring.
Qed.

Lemma ones_logpdf x n : dirichlet_logpdf lnB x (repeat 1%R n) = (- lnB (repeat 1%R n))%R.
Proof.
  unfold dirichlet_logpdf. enough (E : forall n x, Rsum (map2 (fun a y => (a - 1) * ln y)%R (repeat 1%R n) x) = 0%R).
  { rewrite E; ring. }
  clear. induction n as [|n IH]; intros [|y x]; simpl; auto.
  specialize (IH x). unfold Rsum in *. simpl. rewrite IH. ring.
Qed.

Definition per_group : R := Rsum (map (fun f => - lnB (repeat 1 (length (filter (fun b => b) (nth f applicable []))))) (seq 0 nf))%R.

Lemma slow_group_prior (es : list effect) : length applicable = nf -> Forall (fun x : effect => length x = nf) es ->
  slow_confounding_prior lnB applicable es = (INR (length es) * per_group)%R.
Proof.
  intros A F. unfold slow_confounding_prior. apply Rsum_const. intros e I.
  rewrite Forall_forall in F. rewrite (F e I). unfold per_group. f_equal. apply map_ext_in. intros f J.
  apply in_seq in J. unfold concentration.
  rewrite (nth_indep _ [] (repeat 1%R (size []))) by (rewrite map_length; lia).
  rewrite (map_nth (fun app => repeat 1%R (size app))). apply ones_logpdf.
Qed.

Lemma slow_conf_total es gs : length applicable = nf ->
  map (fun e : pval effect => length (v_value e)) es = map (@length (list bool)) gs ->
  Forall (fun e : pval effect => Forall (fun x : effect => length x = nf) (v_value e)) es ->
  xsum (map (fun e => Fin (slow_confounding_prior lnB applicable (v_value e))) es) =
  Fin (INR (number_of_groups gs) * per_group)%R.
Proof.
  intros A. revert gs. induction es as [|e es IH]; intros [|g gs] L F; simpl in L; try discriminate.
  - simpl. f_equal. ring.
  - inversion F; subst. injection L as L1 L2.
    change (xadd (Fin (slow_confounding_prior lnB applicable (v_value e)))
      (xsum (map (fun e => Fin (slow_confounding_prior lnB applicable (v_value e))) es)) =
      Fin (INR (length g + number_of_groups gs) * per_group)%R).
    rewrite (IH gs) by auto. rewrite slow_group_prior by auto. simpl. f_equal. rewrite plus_INR, L1. ring.
Qed.

Lemma xsum_zeros l : (forall x, In x l -> x = Fin 0) -> xsum l = Fin 0.
Proof.
  induction l as [|x l IH]; intros H; auto.
  change (xadd x (xsum l) = Fin 0). rewrite IH by (intros; apply H; simpl; auto).
  rewrite (H x) by (simpl; auto). simpl. f_equal; ring.
Qed.

Lemma conf_terms_zero (es : list (pval effect)) :
  xsum (map xsum (mapi (fun c e => mapi (fun g row => conf_fn M c g row) (v_value e)) es)) = Fin 0.
Proof.
  apply xsum_zeros. intros x I. apply in_map_iff in I as (l & <- & I).
  apply xsum_zeros. intros y J.
  apply In_nth_error in I as (i & I). rewrite nth_error_mapi in I.
  destruct (nth_error es i); [|discriminate]. simpl in I. injection I as <-.
  apply In_nth_error in J as (j & J). rewrite nth_error_mapi in J.
  destruct (nth_error (v_value p) j); [|discriminate]. simpl in J. congruence.
Qed.

Definition fast_model (caching : bool) (s : sample xf) : xf :=
  xadd (log_sum (snd (likelihood M caching s))) (log_prior (snd (prior M caching s))).

Lemma fast_log_prior (caching : bool) (s : sample xf) :
  same_but_geo (snd (prior M caching s)) (spec_prior M (s_pars s)) ->
  log_prior (snd (prior M caching s)) =
  xadd (xadd (size_fn (v_value (clusters (s_pars s)))) (t_geo (snd (prior M caching s))))
    match source (s_pars s) with
    | None => Fin 0
    | Some src => log_sum (source_weights (slow_weights features confs (s_pars s)) (v_value src))
    end.
Proof.
  intros (E1 & E2 & E3 & E4 & E5). unfold log_prior. rewrite E1, E2, E3, E4, E5.
  cbn [spec_prior t_size t_weights t_ce t_conf t_src]. rewrite conf_terms_zero, !xadd_0_r.
  f_equal. destruct (source (s_pars s)); auto.
Qed.

Lemma slow_is_fast v0 v1 ss i s caching :
  Forall disjoint_groups confs -> length applicable = nf ->
  reachable v0 v1 M tracked_edit disjoint_pars ss -> nth_error ss i = Some s ->
  disjoint_pars (s_pars s) -> effects_fit nf (s_pars s) ->
  t_geo (snd (prior M caching s)) = geo_fn (v_value (clusters (s_pars s))) ->
  match slow_model features nf confs size_fn geo_fn lnB applicable (s_pars s) with
  | None => fast_model caching s = NaN
  | Some x => x = xadd (fast_model caching s) (Fin (uniform_density lnB applicable nf (number_of_groups confs)))
  end.
Proof.
  intros DC A R E D F G.
  assert (I : sample_inv M true s).
  { assert (Q : Forall (sample_inv M true) ss).
    { eapply (@reachable_inv xf v0 v1 M true); [| |exact R]; auto. intros e T; split; auto. apply tracked_prior; auto. }
    rewrite Forall_forall in Q. apply Q. eapply nth_error_In; eauto. }
  assert (W : pars_wf M (s_pars s)) by (apply I; auto).
  assert (LH : snd (likelihood M caching s) = spec_likelihood M (s_pars s)) by (eapply cached_likelihood_fresh; eauto).
  assert (P : same_but_geo (snd (prior M caching s)) (spec_prior M (s_pars s))) by (eapply prior_correct; eauto).
  unfold fast_model. rewrite LH, (fast_log_prior P), G.
  unfold slow_model, slow_likelihood. rewrite slow_components_fast by auto.
  change (slow_weights features confs (s_pars s)) with (spec_weights M (s_pars s)).
  fold (spec_likelihood M (s_pars s)).
  unfold slow_prior. rewrite (@slow_conf_total (confounding_effects (s_pars s)) confs) by (auto; apply W).
  fold per_group. unfold uniform_density. fold per_group.
  set (k := Fin (INR _ * _)). set (sz := size_fn _). set (ge := geo_fn _). set (lh := log_sum (spec_likelihood _ _)).
  rewrite !xadd_0_r.
  destruct (source (s_pars s)) as [src|] eqn:S; cbn [option_map].
  - set (sw := log_sum (source_weights _ _)).
    rewrite (sum4 lh (xadd sz ge) sw k). destruct (xadd lh sw) eqn:X; auto.
    rewrite (xadd_comm (xadd sz ge)), xadd_assoc, X. reflexivity.
  - rewrite !xadd_0_r. destruct lh eqn:X; solve [apply xadd_assoc | reflexivity].
Qed.
End Whole.

(** ** Decisions *)
Lemma accept_shift ll ll0 pr pr0 ml ml0 mr mr0 q qb u k :
  xadd ll pr = xadd (xadd ml mr) (Fin k) -> xadd ll0 pr0 = xadd (xadd ml0 mr0) (Fin k) ->
  accept ll ll0 pr pr0 q qb u = accept ml ml0 mr mr0 q qb u.
Proof.
  intros E E0. unfold accept. destruct (is_ninf qb); auto. destruct (is_ninf q); auto.
  destruct (math_log u); simpl; auto. rewrite !ratio_sum, E, E0, xsub_shift. auto.
Qed.

Lemma log_sum_pos l : Forall (fun x => exists q, x = Some q /\ (0 < q)%Q) l -> exists r, log_sum l = Fin r.
Proof.
  intros F; induction F as [|x l (q & -> & P) _ (r & IH)].
  - exists 0%R; auto.
  - change (log_sum (Some q :: l)) with (xadd (np_log (Some q)) (log_sum l)). rewrite IH. simpl.
    destruct (Qlt_le_dec 0 q) as [_|H]; [eexists; reflexivity|]. exfalso; apply (Qlt_not_le _ _ P H).
Qed.

Lemma log_sum_neg l : Forall (fun x => exists q, x = Some q /\ (0 < q)%Q /\ (q <= 1)%Q) l ->
  Exists (fun x => exists q, x = Some q /\ (q < 1)%Q) l -> exists r, log_sum l = Fin r /\ (r < 0)%R.
Proof.
  assert (N : forall l, Forall (fun x => exists q, x = Some q /\ (0 < q)%Q /\ (q <= 1)%Q) l ->
    exists r, log_sum l = Fin r /\ (r <= 0)%R).
  { intros k F; induction F as [|x k (q & -> & P & Q) _ (r & IH & H)].
    - exists 0%R; split; auto; lra.
    - change (log_sum (Some q :: k)) with (xadd (np_log (Some q)) (log_sum k)). rewrite IH. simpl.
      destruct (Qlt_le_dec 0 q) as [_|B]; [|exfalso; apply (Qlt_not_le _ _ P B)].
      eexists; split; [reflexivity|].
      apply Qreals.Qlt_Rlt in P. apply Qreals.Qle_Rle in Q. unfold Q2R in P at 1. unfold Q2R in Q at 2.
      simpl in P, Q. assert (ln (Q2R q) <= ln 1)%R by (destruct (Rle_lt_or_eq_dec (Q2R q) 1);
        [lra|left; apply ln_increasing; lra|right; f_equal; auto]). rewrite ln_1 in *. lra. }
  intros F E; induction E as [x l (q & -> & L)|x l E IH].
  - inversion F as [|? ? (q' & Eq & P & Q) F']; subst. injection Eq as <-.
    destruct (N _ F') as (r & Hr & Hn).
    change (log_sum (Some q :: l)) with (xadd (np_log (Some q)) (log_sum l)). rewrite Hr. simpl.
    destruct (Qlt_le_dec 0 q) as [_|B]; [|exfalso; apply (Qlt_not_le _ _ P B)].
    eexists; split; [reflexivity|].
    apply Qreals.Qlt_Rlt in P. apply Qreals.Qlt_Rlt in L. unfold Q2R in P at 1. unfold Q2R in L at 2.
    simpl in P, L. assert (ln (Q2R q) < ln 1)%R by (apply ln_increasing; lra). rewrite ln_1 in *. lra.
  - inversion F as [|? ? (q' & -> & P & Q) F']; subst. destruct (IH F') as (r & Hr & Hn).
    change (log_sum (Some q' :: l)) with (xadd (np_log (Some q')) (log_sum l)). rewrite Hr. simpl.
    destruct (Qlt_le_dec 0 q') as [_|B]; [|exfalso; apply (Qlt_not_le _ _ P B)].
    eexists; split; [reflexivity|].
    apply Qreals.Qlt_Rlt in P. apply Qreals.Qle_Rle in Q. unfold Q2R in P at 1. unfold Q2R in Q at 2.
    simpl in P, Q. assert (ln (Q2R q') <= ln 1)%R by (destruct (Rle_lt_or_eq_dec (Q2R q') 1);
      [lra|left; apply ln_increasing; lra|right; f_equal; auto]). rewrite ln_1 in *. lra.
Qed.
