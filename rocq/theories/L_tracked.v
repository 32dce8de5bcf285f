(** Lemmas for C98 and C99: the operators on sample objects with caches. *)
From Verif Require Import S_tracked L_cache L_operators L_sampler L_source L_params.
From Verif Require Import M_dist M_operators.
From Coq Require Import Lqa.
Set Implicit Arguments.
Unset Strict Implicit.
Close Scope R_scope.
Close Scope Q_scope.
Open Scope nat_scope.

(** * Distributions up to outcomes without probability *)
Lemma possible_app A (d d' : dist A) : possible (d ++ d') = possible d ++ possible d'.
Proof. apply filter_app. Qed.
Lemma possible_scale A p (d : dist A) : possible (scale p d) = if Qeq_bool p 0 then [] else scale p (possible d).
Proof.
  destruct (Qeq_bool p 0) eqn:Ep.
  - apply Qeq_bool_iff in Ep. induction d as [|[a q] d IH]; [reflexivity|]. cbn [scale map possible filter].
    assert (E : Qeq_bool (p * q) 0 = true) by (apply Qeq_bool_iff; rewrite Ep; ring). rewrite E. exact IH.
  - induction d as [|[a q] d IH]; [reflexivity|]. cbn [scale map possible filter].
    assert (E : Qeq_bool (p * q) 0 = Qeq_bool q 0).
    { destruct (Qeq_bool q 0) eqn:Eq.
      - apply Qeq_bool_iff. apply Qeq_bool_iff in Eq. rewrite Eq. ring.
      - destruct (Qeq_bool (p * q) 0) eqn:E; auto. apply Qeq_bool_iff, Qmult_integral in E.
        destruct E as [E|E]; apply Qeq_bool_iff in E; congruence. }
    rewrite E. destruct (Qeq_bool q 0); cbn [negb]; [exact IH|]. cbn [map]. f_equal. exact IH.
Qed.
Lemma possible_bind A B (d : dist A) (f : A -> dist B) :
  possible (bind d f) = concat (map (fun '(a, p) => scale p (possible (f a))) (possible d)).
Proof.
  induction d as [|[a p] d IH]; [reflexivity|]. unfold bind in *. cbn [map concat]. rewrite possible_app, possible_scale, IH.
  cbn [possible filter]. destruct (Qeq_bool p 0); reflexivity.
Qed.
Lemma possible_supp A (d : dist A) a p : In (a, p) (possible d) -> supp d a.
Proof.
  unfold possible. rewrite filter_In. intros [H E]. exists p. split; auto. intros Hp. apply Qeq_bool_iff in Hp. rewrite Hp in E. discriminate.
Qed.
Lemma possible_ret A (a : A) : possible (ret a) = ret a.
Proof. reflexivity. Qed.

Definition dsim {A B} (R : A -> B -> Prop) (d : dist A) (d' : dist B) : Prop :=
  Forall2 (fun x y => R (fst x) (fst y) /\ snd x = snd y) (possible d) (possible d').
Lemma dsim_ret A B (R : A -> B -> Prop) a b : R a b -> dsim R (ret a) (ret b).
Proof. intros H. unfold dsim. rewrite !possible_ret. repeat constructor; auto. Qed.
Lemma dsim_scale A B (R : A -> B -> Prop) p (d : dist A) (d' : dist B) :
  Forall2 (fun x y => R (fst x) (fst y) /\ snd x = snd y) d d' ->
  Forall2 (fun x y => R (fst x) (fst y) /\ snd x = snd y) (scale p d) (scale p d').
Proof.
  induction 1 as [|[a q] [b r] d d' [H1 H2] H IH]; cbn [scale map]; constructor; auto. cbn [fst snd] in *. split; congruence.
Qed.
Lemma dsim_bind A B C (R : B -> C -> Prop) (d : dist A) (f : A -> dist B) (g : A -> dist C) :
  (forall a, supp d a -> dsim R (f a) (g a)) -> dsim R (bind d f) (bind d g).
Proof.
  intros H. unfold dsim. rewrite !possible_bind.
  assert (H' : forall a p, In (a, p) (possible d) -> dsim R (f a) (g a)) by (intros; eapply H, possible_supp; eauto). clear H.
  induction (possible d) as [|[a p] l IH]; cbn [map concat]; [constructor|].
  apply Forall2_app; [apply dsim_scale; eapply H'; left; reflexivity|]. apply IH. intros; eapply H'; right; eauto.
Qed.
Lemma dsim_nth A B (R : A -> B -> Prop) (d : dist A) (d' : dist B) n : dsim R d d' ->
  match nth_error (possible d) n, nth_error (possible d') n with
  | Some (a, p), Some (b, q) => R a b /\ p = q
  | None, None => True
  | _, _ => False
  end.
Proof.
  unfold dsim. intros H. revert n. induction H as [|[a p] [b q] l l' H1 H IH]; intros [|n]; cbn [nth_error]; auto. exact (IH n).
Qed.

Section Ops.
Variable su : setup.
Variable M : mdl xf.
Hypothesis F : fits su M.

Lemma conf_disjoint : Forall disjoint_groups (m_conf M).
Proof. rewrite (ft_conf F). apply F. Qed.

Lemma with_cache_inv s (k : cache xf) : s_pars (with_cache s k) = s_pars s.
Proof. reflexivity. Qed.

Lemma history_inv s : history M s -> sample_inv M true s.
Proof.
  pose proof conf_disjoint as DC. intros H.
  induction H as [cl w ce cf src junk H|s H IH|s H IH|e s He H IH|s H IH D|s H IH|s H IH|caching s H IH D|caching s H IH].
  - apply new_inv; auto.
  - apply copy_inv; auto.
  - apply clear_inv. destruct s; auto.
  - unfold edited. apply edit_inv; auto using tracked_prior; destruct s; auto.
  - destruct IH as (C & W & P & Cf). destruct (C eq_refl) as [Wf CI]. unfold read_lhs, with_cache, set_comp. cbn [fst].
    split; [|split; [|split]]; cbn [s_pars s_cache k_comp k_confp]; auto.
    intros _. split; auto. apply (update_comp_correct true DC Wf D CI).
  - destruct IH as (C & W & P & Cf). unfold read_weights, with_cache. cbn [fst].
    destruct (update_weights_other true (s_pars s) (s_cache s)) as (E1 & E2 & E3 & E4 & E5 & E6 & E7).
    split; [|split; [|split]]; cbn [s_pars s_cache].
    + rewrite E1. exact C.
    + apply update_weights_correct. exact W.
    + unfold pnode_inv in *. rewrite E2, E4, E5, E7. exact P.
    + rewrite E6. exact Cf.
  - destruct IH as (C & [H1 H2] & P & Cf). unfold read_has, with_cache, set_hc. cbn [fst].
    split; [|split; [|split]]; cbn [s_pars s_cache k_comp k_confp]; auto.
    split; cbn [k_hc k_wn]; auto. apply hc_value_correct; auto.
  - apply likelihood_inv; auto.
  - apply prior_correct; auto.
Qed.

(** ** What is read is the value from scratch *)
Lemma component_scratch p probs groups : length probs = length groups -> disjoint_groups groups ->
  component (env_of su p) probs groups = spec_component (su_nf su) (su_features su) probs groups.
Proof.
  intros L D. unfold component. cbn [env_of e_features e_nf]. apply component_correct; auto.
  - unfold M_operators.n_objects. cbn [env_of e_features]. apply repeat_length.
  - intros o i Ho Hi. exfalso. apply Hi. apply in_seq. split; [lia|]. cbn. eapply in_group_lt; eauto.
Qed.
Lemma lhs_scratch s : history M s -> disjoint_groups (tv_clusters s) ->
  spec_components M (s_pars s) = component_lhs (env_of su (fs_params (view s))) (tv_clusters s).
Proof.
  intros H D. destruct (history_inv H) as (C & _). destruct (C eq_refl) as [(_ & _ & L & _ & Lc) _].
  unfold spec_components, component_lhs. rewrite (ft_features F), (ft_nf F), (ft_conf F). rewrite (ft_conf F) in Lc.
  cbn [view fs_params env_of e_ce e_cf e_conf]. f_equal.
  - unfold env_of. symmetry. apply component_scratch; auto.
  - unfold tv_cf. cbn [p_cf]. pose proof (ft_disjoint F) as Dc. revert Lc Dc. generalize (su_conf su).
    induction (confounding_effects (s_pars s)) as [|x l IH]; intros [|g gs] Lc Dc; cbn in Lc; try discriminate; [reflexivity|].
    injection Lc as L1 L2. inversion Dc; subst. cbn [map2 map]. f_equal; [|apply IH; auto].
    symmetry. apply component_scratch; auto.
Qed.
Lemma read_lhs_val s : history M s -> disjoint_groups (tv_clusters s) ->
  snd (read_lhs M s) = component_lhs (env_of su (fs_params (view s))) (tv_clusters s).
Proof.
  intros H D. rewrite <- lhs_scratch by auto. destruct (history_inv H) as (C & _). destruct (C eq_refl) as [Wf CI].
  apply (update_comp_correct true conf_disjoint Wf D CI).
Qed.
Definition all_has (cl : bmat) : list (list bool) := has_components cl (su_conf su) (su_n su).
Lemma read_weights_val s : history M s -> snd (read_weights s) = normalize_weights (tv_weights s) (all_has (tv_clusters s)).
Proof.
  intros H. destruct (history_inv H) as (_ & W & _). unfold read_weights. cbn [snd].
  rewrite (proj1 (update_weights_correct true W)). unfold spec_weights, all_has, su_n. rewrite (ft_features F), (ft_conf F). reflexivity.
Qed.
Lemma read_has_val s : history M s -> snd (read_has s) = all_has (tv_clusters s).
Proof.
  intros H. destruct (history_inv H) as (_ & [W _] & _). unfold read_has. cbn [snd].
  rewrite (proj1 (hc_value_correct W)). unfold all_has, su_n. rewrite (ft_features F), (ft_conf F). reflexivity.
Qed.
Lemma nth_all_has p cl o : o < su_n su -> nth o (all_has cl) [] = has_row (env_of su p) cl o.
Proof.
  intros Ho. unfold all_has, has_components. rewrite L_cache.nth_of_error, nth_error_map, (nth_error_nth' _ 0) by (rewrite seq_length; auto).
  rewrite seq_nth by auto. reflexivity.
Qed.
Lemma normalize_row_nil has : normalize_row [] has = None.
Proof. reflexivity. Qed.
Lemma nth_weights p W cl o f : o < su_n su ->
  nth f (nth o (normalize_weights W (all_has cl)) []) None = normalize_row (nth f W []) (has_row (env_of su p) cl o).
Proof.
  intros Ho. unfold normalize_weights. rewrite (L_cache.nth_of_error (map _ _)), nth_error_map.
  assert (E : nth_error (all_has cl) o = Some (has_row (env_of su p) cl o)).
  { rewrite <- (nth_all_has p) by auto. apply nth_error_nth'. unfold all_has, has_components. rewrite map_length, seq_length. auto. }
  rewrite E. cbn [option_map]. rewrite (L_cache.nth_of_error (map _ _)), nth_error_map, (L_cache.nth_of_error W).
  destruct (nth_error W f); reflexivity.
Qed.

(** ** Reading keeps the contents *)
Definition kept (s s' : tsample) : Prop :=
  s_pars s' = s_pars s /\ history M s' /\ k_geo (s_cache s') = k_geo (s_cache s).
Lemma kept_view s s' : kept s s' -> view s' = view s.
Proof. intros (E & _). unfold view, tv_clusters, tv_weights, tv_ce, tv_cf, tv_source. rewrite E. reflexivity. Qed.
Lemma kept_refl s : history M s -> kept s s.
Proof. unfold kept; auto. Qed.
Lemma kept_trans a b c : kept a b -> kept b c -> kept a c.
Proof. intros (E1 & H1 & G1) (E2 & H2 & G2). unfold kept; conj; auto; congruence. Qed.
Lemma kept_lhs s : history M s -> disjoint_groups (tv_clusters s) -> kept s (fst (read_lhs M s)).
Proof. intros H D. unfold kept; conj; auto. apply hi_lhs; auto. Qed.
Lemma kept_weights s : history M s -> kept s (fst (read_weights s)).
Proof.
  intros H. unfold kept; conj; auto; [apply hi_weights; auto|]. unfold read_weights, with_cache. cbn [fst s_cache].
  apply (update_weights_other true (s_pars s) (s_cache s)).
Qed.
Lemma kept_has s : history M s -> kept s (fst (read_has s)).
Proof. intros H. unfold kept; conj; auto. apply hi_has; auto. Qed.
Lemma kept_disjoint s s' : kept s s' -> disjoint_groups (tv_clusters s) -> disjoint_groups (tv_clusters s').
Proof. intros (E & _). unfold tv_clusters. rewrite E. auto. Qed.

Notation env_at s := (env_of su (fs_params (view s))).

Lemma posterior_of_spec s o f : o < su_n su ->
  posterior_of (component_lhs (env_at s) (tv_clusters s)) (normalize_weights (tv_weights s) (all_has (tv_clusters s))) o f =
  source_posterior (env_at s) (tv_clusters s) o f.
Proof. intros Ho. unfold posterior_of, source_posterior. rewrite (nth_weights (fs_params (view s))) by auto. reflexivity. Qed.

Lemma read_probs_spec s : history M s -> disjoint_groups (tv_clusters s) ->
  exists s' p, read_probs su M s = (s', p) /\ kept s s' /\
    forall o, o < su_n su -> p o = source_probs (env_at s) (tv_clusters s) o.
Proof.
  intros H D. unfold read_probs.
  pose proof (kept_weights H) as K1. pose proof (read_weights_val H) as V1. destruct (read_weights s) as [s1 wn]. cbn [fst snd] in *.
  destruct (su_from_prior su) eqn:Efp.
  - eexists _, _; split; [reflexivity|]. split; [exact K1|]. intros o Ho. unfold source_probs. cbn [env_of e_from_prior e_nf]. rewrite Efp.
    apply map_ext. intros f. rewrite V1. apply nth_weights; auto.
  - pose proof (kept_disjoint K1 D) as D1. destruct K1 as (E1 & H1 & G1) eqn:EK. clear EK.
    pose proof (kept_lhs H1 D1) as K2. pose proof (read_lhs_val H1 D1) as V2. destruct (read_lhs M s1) as [s2 lhs]. cbn [fst snd] in *.
    eexists _, _; split; [reflexivity|]. split; [eapply kept_trans; [|exact K2]; unfold kept; auto|].
    intros o Ho. unfold source_probs. cbn [env_of e_from_prior e_nf]. rewrite Efp. apply map_ext. intros f.
    rewrite V1, V2. assert (Ev : view s1 = view s) by (apply kept_view; unfold kept; auto). rewrite Ev.
    change (tv_clusters s1) with (fs_clusters (view s1)). rewrite Ev. apply posterior_of_spec; auto.
Qed.
Lemma read_probs_source_spec s : history M s -> disjoint_groups (tv_clusters s) ->
  exists s' p, read_probs_source su M s = (s', p) /\ kept s s' /\
    forall o, o < su_n su -> p o = source_probs (env_at s) (tv_clusters s) o.
Proof.
  intros H D. unfold read_probs_source. destruct (su_from_prior su) eqn:Efp; [apply read_probs_spec; auto|].
  pose proof (kept_lhs H D) as K1. pose proof (read_lhs_val H D) as V1. destruct (read_lhs M s) as [s1 lhs]. cbn [fst snd] in *.
  pose proof (kept_disjoint K1 D) as D1. pose proof (kept_view K1) as Ev. pose proof K1 as (E1 & H1 & G1).
  pose proof (kept_weights H1) as K2. pose proof (read_weights_val H1) as V2. destruct (read_weights s1) as [s2 wn]. cbn [fst snd] in *.
  eexists _, _; split; [reflexivity|]. split; [eapply kept_trans; eauto|].
  intros o Ho. unfold source_probs. cbn [env_of e_from_prior e_nf]. rewrite Efp. apply map_ext. intros f.
  rewrite V1, V2. change (tv_weights s1) with (p_weights (fs_params (view s1))). change (tv_clusters s1) with (fs_clusters (view s1)). rewrite Ev.
  apply posterior_of_spec; auto.
Qed.
Lemma draw_obs_spec p q : draw_obs su q = sample_obs (env_of su p) q.
Proof. reflexivity. Qed.
Lemma draw_rows_spec s (cl : bmat) p objs : Forall (fun o => o < su_n su) objs ->
  (forall o, o < su_n su -> p o = source_probs (env_at s) cl o) ->
  draw_rows su p objs = prod_dist (map (fun o => prod_dist (map (sample_obs (env_at s)) (source_probs (env_at s) cl o))) objs).
Proof.
  intros Ho H. unfold draw_rows. f_equal. apply map_ext_in. intros o Hin. rewrite Forall_forall in Ho. rewrite H by auto. reflexivity.
Qed.
Lemma prob_rows_spec s (cl : bmat) p objs src : Forall (fun o => o < su_n su) objs ->
  (forall o, o < su_n su -> p o = source_probs (env_at s) cl o) -> prob_rows p objs src = rows_prob (env_at s) cl objs src.
Proof.
  intros Ho H. unfold prob_rows, rows_prob. f_equal. apply map_ext_in. intros o Hin. rewrite Forall_forall in Ho. rewrite H by auto. reflexivity.
Qed.

(** ** What an operator may do *)
Definition out_sim (s : tsample) (x : tsample * tout) (out : outcome) : Prop :=
  kept s (fst x) /\
  match snd x, out with
  | TReject, Reject => True
  | TFail, Fail => True
  | TPropose s' q qb, Propose y q' qb' =>
      q = q' /\ qb = qb' /\ fs_cstate (view s') = y /\ fs_params (view s') = fs_params (view s) /\
      history M s' /\ k_geo (s_cache s') = k_geo (s_cache s)
  | _, _ => False
  end.

Lemma copied_view s : view (copied M s) = view s.
Proof. reflexivity. Qed.
Lemma edited_clusters z h s : tv_clusters (edited (EdClusters (EditGroup z h)) s) = upd z h (tv_clusters s).
Proof.
  unfold tv_clusters, edited, do_edit_pars, with_clusters. cbn [s_pars clusters spec_pop].
  destruct (Nat.ltb_spec z (length (v_value (clusters (s_pars s))))) as [Hlt|Hge]; cbn [v_value]; auto.
  symmetry. apply upd_out; auto.
Qed.

Lemma finish_sim must s0 s s_new cl' objs q qb : kept s0 s -> disjoint_groups (tv_clusters s0) ->
  history M s_new -> k_geo (s_cache s_new) = k_geo (s_cache s0) -> tv_clusters s_new = cl' -> disjoint_groups cl' ->
  fs_params (view s_new) = fs_params (view s0) -> tv_source s_new = tv_source s0 -> Forall (fun o => o < su_n su) objs ->
  dsim (out_sim s0) (t_finish su M must s s_new objs q qb) (finish (env_at s0) must (fs_cstate (view s0)) cl' objs q qb).
Proof.
  intros K D Hn Gn Ec D' Ep Es Ho. unfold t_finish, finish. cbn [env_of e_resample].
  pose proof (kept_view K) as Ev. assert (Esrc : tv_source s = tv_source s0) by exact (f_equal fs_source Ev). rewrite Esrc.
  change (x_source (fs_cstate (view s0))) with (tv_source s0). change (x_clusters (fs_cstate (view s0))) with (tv_clusters s0).
  destruct (su_source su) eqn:Esu.
  - destruct (tv_source s0) as [src|] eqn:Et.
    + pose proof (kept_disjoint K D) as Ds. pose proof K as (K1 & K2 & K3).
      destruct (@read_probs_spec s_new) as (s1 & p & R1 & (A1 & A2 & A3) & P1); auto; [rewrite Ec; auto|].
      destruct (@read_probs_spec s) as (s2 & pb & R2 & K' & P2); auto.
      rewrite R1, R2. rewrite Ec, Ep in P1. rewrite Ev in P2. change (tv_clusters s) with (fs_clusters (view s)) in P2. rewrite Ev in P2.
      rewrite (@draw_rows_spec s0 cl' p objs Ho P1). apply dsim_bind. intros rows Hrows. apply dsim_ret.
      set (s3 := edited _ s1).
      assert (E3 : tv_source s3 = Some (set_rows src objs rows)).
      { unfold s3, tv_source, edited, do_edit_pars, with_source. cbn [s_pars source]. unfold tv_source in Es. rewrite A1.
        destruct (source (s_pars s_new)); cbn in *; [injection Es as ->; reflexivity|discriminate]. }
      rewrite E3. split; [eapply kept_trans; eauto|]. cbn [snd].
      rewrite (@prob_rows_spec s0 cl' p) by auto. rewrite (@prob_rows_spec s0 (tv_clusters s0) pb) by auto.
      conj; auto.
      * unfold fs_cstate, view. cbn [fs_clusters fs_source]. rewrite E3. f_equal. rewrite <- Ec. unfold s3, tv_clusters, edited. cbn. rewrite A1. reflexivity.
      * rewrite <- Ep. unfold view, s3, tv_weights, tv_ce, tv_cf, edited. cbn. rewrite A1. reflexivity.
      * apply hi_edit; [exact I|exact A2].
      * unfold s3, edited. cbn [s_cache]. congruence.
    + apply dsim_ret. destruct must; (split; [exact K|]); cbn [snd]; auto.
      conj; auto. unfold fs_cstate, view. cbn [fs_clusters fs_source]. rewrite Ec, Es. reflexivity.
  - apply dsim_ret. split; [exact K|]. cbn [snd]. conj; auto. unfold fs_cstate, view. cbn [fs_clusters fs_source]. rewrite Ec, Es. reflexivity.
Qed.
Lemma choose_sim s0 s l f g : kept s0 s -> (forall a, In a l -> dsim (out_sim s0) (f a) (g a)) ->
  dsim (out_sim s0) (t_choose s l f) (choose l g).
Proof.
  intros K H. destruct l as [|a l]; cbn [t_choose choose].
  - apply dsim_ret. split; cbn; auto.
  - apply dsim_bind. intros b Hb. apply H. apply supp_uniform in Hb. exact Hb.
Qed.
Lemma choose_p_sim s0 s p f g : kept s0 s ->
  (forall l a q, p = Some l -> nth_error l a = Some q -> (~ q == 0)%Q -> dsim (out_sim s0) (f a) (g a)) ->
  dsim (out_sim s0) (t_choose_p s p f) (choose_p p g).
Proof.
  intros K H. destruct p as [l|]; cbn [t_choose_p choose_p].
  - apply dsim_bind. intros b Hb. apply supp_mapi in Hb as (q & Hq & Hz). eapply H; eauto.
  - apply dsim_ret. split; cbn; auto.
Qed.
Lemma reject_sim s0 s : kept s0 s -> dsim (out_sim s0) (ret (s, TReject)) (ret Reject).
Proof. intros K. apply dsim_ret. split; cbn; auto. Qed.

Lemma edit_clusters_history z h s : history M s -> history M (edited (EdClusters (EditGroup z h)) s).
Proof. intros H. apply hi_edit; auto. exact I. Qed.

(** ** AlterCluster *)
Lemma grow_at_sim s z : history M s -> disjoint_groups (tv_clusters s) ->
  dsim (out_sim s) (t_grow_at su M s z) (grow_at (env_at s) (fs_cstate (view s)) z).
Proof.
  intros H D. unfold t_grow_at, grow_at. cbv zeta.
  change (x_clusters (fs_cstate (view s))) with (tv_clusters s). change (M_operators.n_objects (env_at s)) with (n_obj su).
  cbn [env_of e_max e_adj e_pconn].
  destruct (su_max su <=? _); [apply reject_sim, kept_refl; auto|].
  apply dsim_bind. intros c _. destruct (negb _); [apply reject_sim, kept_refl; auto|].
  apply choose_sim; [apply kept_refl; auto|]. intros a Ha. apply in_nonzero in Ha.
  assert (Hf : a < n_obj su /\ any_group (tv_clusters s) a = false).
  { destruct c; [eapply neighbours_free; eauto|eapply free_true; eauto]. }
  apply finish_sim; auto.
  - apply kept_refl; auto.
  - apply edit_clusters_history, hi_copy; auto.
  - apply edited_clusters.
  - apply disjoint_add; tauto.
  - repeat constructor. apply Hf.
Qed.
Lemma shrink_at_sim s z : history M s -> disjoint_groups (tv_clusters s) -> cluster_shape (su_k su) (su_n su) (tv_clusters s) ->
  z < length (tv_clusters s) ->
  dsim (out_sim s) (t_shrink_at su M s z) (shrink_at (env_at s) (fs_cstate (view s)) z).
Proof.
  intros H D Sh Hz. unfold t_shrink_at, shrink_at. cbv zeta.
  change (x_clusters (fs_cstate (view s))) with (tv_clusters s). change (M_operators.n_objects (env_at s)) with (n_obj su).
  cbn [env_of e_min e_adj e_pconn].
  destruct (_ <=? su_min su); [apply reject_sim, kept_refl; auto|].
  apply choose_sim; [apply kept_refl; auto|]. intros a Ha. apply in_nonzero in Ha. rewrite edited_clusters.
  change (tv_clusters (copied M s)) with (tv_clusters s). change (upd z (upd a (fun _ => false)) (tv_clusters s)) with (remove_object (tv_clusters s) z a).
  apply finish_sim; auto.
  - apply kept_refl; auto.
  - apply edit_clusters_history, hi_copy; auto.
  - apply edited_clusters.
  - eapply disjoint_sub; [exact D|]. intros; eapply remove_sub; eauto.
  - repeat constructor. eapply in_range; eauto.
Qed.
Lemma alter_sim s : history M s -> disjoint_groups (tv_clusters s) -> cluster_shape (su_k su) (su_n su) (tv_clusters s) ->
  dsim (out_sim s) (t_alter_cluster su M s) (alter_cluster (env_at s) (fs_cstate (view s))).
Proof.
  intros H D Sh. unfold t_alter_cluster, alter_cluster. apply dsim_bind. intros [] _; unfold shrink, grow.
  - apply choose_sim; [apply kept_refl; auto|]. intros z Hz. apply shrink_at_sim; auto. unfold t_ids in Hz. apply in_seq in Hz. exact (proj2 Hz).
  - apply choose_sim; [apply kept_refl; auto|]. intros z Hz. apply grow_at_sim; auto.
Qed.

(** ** The posterior of membership *)
Lemma z01_spec s o f : o < su_n su ->
  z01_of (tv_weights s) (normalize_weights (tv_weights s) (all_has (tv_clusters s))) (all_has (tv_clusters s)) o f =
  weights_z01 (env_at s) (tv_clusters s) o f.
Proof.
  intros Ho. unfold z01_of, weights_z01. rewrite (nth_weights (fs_params (view s))), (nth_all_has (fs_params (view s))) by auto. reflexivity.
Qed.
Lemma fold_omult_ext (f g : nat -> option Q) l : (forall x, f x = g x) -> fold_right omult (Some 1%Q) (map f l) = fold_right omult (Some 1%Q) (map g l).
Proof. intros H. f_equal. apply map_ext. auto. Qed.
Lemma read_posterior_spec s i : history M s -> disjoint_groups (tv_clusters s) ->
  exists s' post, read_posterior su M s i = (s', post) /\ kept s s' /\
    forall o, o < su_n su -> post o = cluster_posterior (env_at s) (tv_clusters s) i o.
Proof.
  intros H D. unfold read_posterior, cluster_posterior. cbn [env_of e_from_prior].
  destruct (su_from_prior su) eqn:Efp.
  - eexists _, _; split; [reflexivity|]. split; [apply kept_refl; auto|]. auto.
  - pose proof (kept_lhs H D) as K1. pose proof (read_lhs_val H D) as V1. destruct (read_lhs M s) as [s1 lhs]. cbn [fst snd] in *.
    pose proof K1 as (E1 & H1 & G1).
    pose proof (kept_weights H1) as K2. pose proof (read_weights_val H1) as V2. destruct (read_weights s1) as [s2 wn]. cbn [fst snd] in *.
    pose proof K2 as (E2 & H2 & G2).
    pose proof (kept_has H2) as K3. pose proof (read_has_val H2) as V3. destruct (read_has s2) as [s3 has]. cbn [fst snd] in *.
    assert (K : kept s s3) by (eapply kept_trans; [|exact K3]; eapply kept_trans; eauto).
    eexists _, _; split; [reflexivity|]. split; [exact K|]. intros o Ho.
    assert (W1 : tv_weights s1 = tv_weights s) by (unfold tv_weights; congruence).
    assert (C1 : tv_clusters s1 = tv_clusters s) by (unfold tv_clusters; congruence).
    assert (C2 : tv_clusters s2 = tv_clusters s) by (unfold tv_clusters; congruence).
    assert (W3 : tv_weights s3 = tv_weights s) by (unfold tv_weights; destruct K as (-> & _); auto).
    assert (X3 : tv_ce s3 = tv_ce s) by (unfold tv_ce; destruct K as (-> & _); auto).
    rewrite V1, V2, V3, W1, C1, C2, W3, X3.
    assert (Em : forall pr : option (list Q) * option (list Q) -> option (list Q),
      marginal_of su (tv_ce s) (component_lhs (env_at s) (tv_clusters s)) i o
        (fun f => pr (z01_of (tv_weights s) (normalize_weights (tv_weights s) (all_has (tv_clusters s))) (all_has (tv_clusters s)) o f)) =
      marginal_lh (env_at s) (tv_clusters s) i o (fun f => pr (weights_z01 (env_at s) (tv_clusters s) o f))).
    { intros pr. unfold marginal_of, marginal_lh. apply fold_omult_ext. intros f. rewrite z01_spec by auto. reflexivity. }
    unfold member_posterior. rewrite (Em fst), (Em snd). reflexivity.
Qed.
Lemma posteriors_spec s post i : (forall o, o < su_n su -> post o = cluster_posterior (env_at s) (tv_clusters s) i o) ->
  map post (seq 0 (n_obj su)) = map (cluster_posterior (env_at s) (tv_clusters s) i) (seq 0 (M_operators.n_objects (env_at s))).
Proof.
  intros H. change (M_operators.n_objects (env_at s)) with (n_obj su). apply map_ext_in. intros o Ho. apply in_seq in Ho. apply H. unfold su_n, n_obj in *. lia.
Qed.

(** ** AlterClusterGibbsish *)
Lemma gibbsish_grow_at_sim s i : history M s -> disjoint_groups (tv_clusters s) ->
  dsim (out_sim s) (t_gibbsish_grow_at su M s i) (gibbsish_grow_at (env_at s) (fs_cstate (view s)) i).
Proof.
  intros H D. unfold t_gibbsish_grow_at, gibbsish_grow_at. cbv zeta.
  change (x_clusters (fs_cstate (view s))) with (tv_clusters s). change (M_operators.n_objects (env_at s)) with (n_obj su).
  cbn [env_of e_max].
  destruct (negb _); [apply reject_sim, kept_refl; auto|]. destruct (_ =? su_max su); [apply reject_sim, kept_refl; auto|].
  destruct (@read_posterior_spec s i H D) as (s1 & post & R & K & P). rewrite R. unfold posteriors. rewrite (posteriors_spec P).
  destruct (all_def _) as [l|]; [|apply dsim_ret; split; cbn; auto].
  apply choose_p_sim; auto. intros l0 a q Hl Ha Hq. rewrite edited_clusters. change (tv_clusters (copied M s)) with (tv_clusters s).
  change (upd i (upd a (fun _ => true)) (tv_clusters s)) with (add_object (tv_clusters s) i a).
  destruct (normalize_zero Hl Ha Hq) as (r & Hr & Hr0). pose proof (bmask_zero Hr Hr0) as Hc. apply free_true in Hc as [H1 H2].
  apply finish_sim; auto.
  - apply edit_clusters_history, hi_copy; auto.
  - apply edited_clusters.
  - apply disjoint_add; auto.
Qed.
Lemma gibbsish_shrink_at_sim s i : history M s -> disjoint_groups (tv_clusters s) -> cluster_shape (su_k su) (su_n su) (tv_clusters s) ->
  i < length (tv_clusters s) ->
  dsim (out_sim s) (t_gibbsish_shrink_at su M s i) (gibbsish_shrink_at (env_at s) (fs_cstate (view s)) i).
Proof.
  intros H D Sh Hi. unfold t_gibbsish_shrink_at, gibbsish_shrink_at. cbv zeta.
  change (x_clusters (fs_cstate (view s))) with (tv_clusters s). change (M_operators.n_objects (env_at s)) with (n_obj su).
  cbn [env_of e_min].
  destruct (_ =? su_min su); [apply reject_sim, kept_refl; auto|].
  destruct (@read_posterior_spec s i H D) as (s1 & post & R & K & P). rewrite R. unfold posteriors. rewrite (posteriors_spec P).
  destruct (all_def _) as [l|]; [|apply dsim_ret; split; cbn; auto].
  apply choose_p_sim; auto. intros l0 a q Hl Ha Hq. rewrite edited_clusters. change (tv_clusters (copied M s)) with (tv_clusters s).
  change (upd i (upd a (fun _ => false)) (tv_clusters s)) with (remove_object (tv_clusters s) i a).
  destruct (normalize_zero Hl Ha Hq) as (r & Hr & Hr0). pose proof (bmask_zero Hr Hr0) as Hc.
  apply finish_sim; auto.
  - apply edit_clusters_history, hi_copy; auto.
  - apply edited_clusters.
  - eapply disjoint_sub; [exact D|]. intros; eapply remove_sub; eauto.
  - repeat constructor. eapply in_range; eauto.
Qed.
Lemma gibbsish_sim s : history M s -> disjoint_groups (tv_clusters s) -> cluster_shape (su_k su) (su_n su) (tv_clusters s) ->
  dsim (out_sim s) (t_gibbsish su M s) (gibbsish (env_at s) (fs_cstate (view s))).
Proof.
  intros H D Sh. unfold t_gibbsish, gibbsish. apply dsim_bind. intros [] _; unfold gibbsish_shrink, gibbsish_grow.
  - apply choose_sim; [apply kept_refl; auto|]. intros z Hz. apply gibbsish_shrink_at_sim; auto. unfold t_ids in Hz. apply in_seq in Hz. exact (proj2 Hz).
  - apply choose_sim; [apply kept_refl; auto|]. intros z Hz. apply gibbsish_grow_at_sim; auto.
Qed.

(** ** AlterClusterGibbsish2 *)
Lemma gibbsish2_at_sim s i : history M s -> disjoint_groups (tv_clusters s) -> cluster_shape (su_k su) (su_n su) (tv_clusters s) ->
  i < length (tv_clusters s) ->
  dsim (out_sim s) (t_gibbsish2_at su M s i) (gibbsish2_at (env_at s) (fs_cstate (view s)) i).
Proof.
  intros H D Sh Hi. unfold t_gibbsish2_at, gibbsish2_at. cbv zeta.
  change (x_clusters (fs_cstate (view s))) with (tv_clusters s).
  change (available (env_at s) (tv_clusters s) i) with (t_available su s i). cbn [env_of e_min e_max].
  destruct (@read_posterior_spec s i H D) as (s1 & post & R & K & P). rewrite R. rewrite (posteriors_spec P).
  change (M_operators.n_objects (env_at s)) with (n_obj su).
  apply dsim_bind. intros new Hnew.
  destruct (negb _) eqn:Eb; [apply reject_sim; auto|]. destruct (forallb _ _); [apply reject_sim; auto|].
  set (r := scatter (t_available su s i) (nth i (tv_clusters s) []) new).
  assert (Ec : tv_clusters (edited (EdClusters (EditGroup i (fun c => scatter (t_available su s i) c new))) (copied M s)) = upd i (fun _ => r) (tv_clusters s)).
  { rewrite edited_clusters. change (tv_clusters (copied M s)) with (tv_clusters s). unfold r. clear.
    generalize (t_available su s i). intros av. revert i. induction (tv_clusters s) as [|c cl IH]; intros [|i]; cbn; auto. f_equal. apply IH. }
  rewrite Ec. pose proof Sh as [Hk Hn].
  assert (Hrow : length (nth i (tv_clusters s) []) = su_n su).
  { rewrite Forall_forall in Hn. apply Hn. apply nth_In; auto. }
  assert (Hal : length (t_available su s i) = su_n su).
  { unfold t_available, any_cluster. rewrite map2_length, map_length, seq_length, Hrow. unfold n_obj, su_n. apply Nat.min_id. }
  apply finish_sim; auto.
  - apply edit_clusters_history, hi_copy; auto.
  - assert (Hav : forall o, o < su_n su -> nth_error (t_available su s i) o = Some (negb (any_group (tv_clusters s) o) || nth o (nth i (tv_clusters s) []) false)).
    { intros o Ho. unfold t_available. rewrite available_nth; auto. }
    assert (Hin : forall o, nth o r false = true -> any_group (tv_clusters s) o = false \/ nth o (nth i (tv_clusters s) []) false = true).
    { intros o Ho. destruct (any_group (tv_clusters s) o) eqn:Eo; auto. right.
      destruct (nth o (nth i (tv_clusters s) []) false) eqn:Ez; auto.
      destruct (Nat.lt_ge_cases o (su_n su)) as [Hlt|Hge].
      - pose proof (Hav o Hlt) as Ha. rewrite Eo, Ez in Ha. cbn in Ha.
        pose proof (@scatter_outside _ (nth i (tv_clusters s) []) new o Ha) as Hs.
        rewrite (nth_error_nth' (nth i (tv_clusters s) []) false), Ez in Hs by congruence.
        unfold r in Ho. rewrite (nth_error_nth _ _ false (Hs ltac:(congruence))) in Ho. discriminate.
      - unfold r in Ho. rewrite nth_overflow in Ho; [discriminate|]. rewrite scatter_length; lia. }
    revert Hin D. clear. intros Hin D o a b Ha Hb. unfold disjoint_groups in D.
    assert (Hx : forall k, nth o (nth k (upd i (fun _ => r) (tv_clusters s)) []) false = true ->
               (k = i /\ nth o r false = true) \/ (k <> i /\ nth o (nth k (tv_clusters s) []) false = true)).
    { intros k Hk. destruct (Nat.eq_dec k i) as [->|Hne].
      - left. split; auto. destruct (Nat.lt_ge_cases i (length (tv_clusters s))) as [L|L].
        + rewrite L_operators.nth_upd_same in Hk by auto. exact Hk.
        + exfalso. rewrite upd_out in Hk by exact L. rewrite (@nth_overflow _ (tv_clusters s)) in Hk by exact L. destruct o; discriminate.
      - right. split; auto. rewrite L_operators.nth_upd_other in Hk; auto. }
    apply Hx in Ha, Hb. destruct Ha as [[-> Ha]|[Na Ha]], Hb as [[-> Hb]|[Nb Hb]]; auto.
    + destruct (Hin _ Ha) as [E|E]; [|eapply D; eauto].
      exfalso. assert (any_group (tv_clusters s) o = true); [|congruence].
      unfold any_group. apply existsb_exists. exists (nth b (tv_clusters s) []). split; auto. apply nth_In. eapply in_group_lt; eauto.
    + destruct (Hin _ Hb) as [E|E]; [|eapply D; eauto].
      exfalso. assert (any_group (tv_clusters s) o = true); [|congruence].
      unfold any_group. apply existsb_exists. exists (nth a (tv_clusters s) []). split; auto. apply nth_In. eapply in_group_lt; eauto.
    + eapply D; eauto.
  - apply Forall_forall. intros o Ho. apply in_nonzero in Ho.
    assert (Hl : o < length (map2 xorb (nth i (tv_clusters s) []) (nth i (upd i (fun _ => r) (tv_clusters s)) []))) by (apply nth_error_Some; congruence).
    rewrite map2_length in Hl. lia.
Qed.
Lemma gibbsish2_sim s : history M s -> disjoint_groups (tv_clusters s) -> cluster_shape (su_k su) (su_n su) (tv_clusters s) ->
  dsim (out_sim s) (t_gibbsish2 su M s) (gibbsish2 (env_at s) (fs_cstate (view s))).
Proof.
  intros H D Sh. unfold t_gibbsish2, gibbsish2.
  apply choose_sim; [apply kept_refl; auto|]. intros z Hz. apply gibbsish2_at_sim; auto. unfold t_ids in Hz. apply in_seq in Hz. exact (proj2 Hz).
Qed.

(** ** GibbsSampleSource *)
Definition src_sim (s : tsample) (x : tsample * tout) (out : outcome) : Prop :=
  match snd x, out with
  | TFail, Fail => kept s (fst x)
  | TPropose s' q qb, Propose y q' qb' =>
      fst x = s' /\ q = q' /\ qb = qb' /\ fs_cstate (view s') = y /\ fs_params (view s') = fs_params (view s) /\
      tv_clusters s' = tv_clusters s /\ history M s' /\ k_geo (s_cache s') = k_geo (s_cache s) /\ tv_source s' <> None
  | _, _ => False
  end.
Lemma source_sim s : history M s -> disjoint_groups (tv_clusters s) ->
  dsim (src_sim s) (t_gibbs_source su M s) (gibbs_source (env_at s) (fs_cstate (view s))).
Proof.
  intros H D. unfold t_gibbs_source, gibbs_source. change (x_source (fs_cstate (view s))) with (tv_source s).
  change (x_clusters (fs_cstate (view s))) with (tv_clusters s). change (M_operators.n_objects (env_at s)) with (n_obj su).
  destruct (tv_source s) as [src|] eqn:Es; [|apply dsim_ret; cbn; apply kept_refl; auto].
  destruct (@read_probs_source_spec s H D) as (s1 & p & R & (A1 & A2 & A3) & P). rewrite R. cbv zeta.
  rewrite (@draw_rows_spec s (tv_clusters s) p _); auto.
  2: { apply Forall_forall. intros o Ho. apply in_seq in Ho. unfold su_n, n_obj in *. lia. }
  apply dsim_bind. intros rows _. apply dsim_ret. unfold src_sim. cbn [fst snd].
  set (s3 := edited _ s1).
  assert (E3 : tv_source s3 = Some (set_rows src (seq 0 (n_obj su)) rows)).
  { unfold s3, tv_source, edited, do_edit_pars, with_source. cbn [s_pars source]. rewrite A1. unfold tv_source in Es.
    destruct (source (s_pars s)); cbn in *; [injection Es as ->; reflexivity|discriminate]. }
  assert (C3 : tv_clusters s3 = tv_clusters s) by (unfold s3, tv_clusters, edited; cbn; rewrite A1; reflexivity).
  conj; auto.
  - unfold fs_cstate, view. cbn [fs_clusters fs_source]. rewrite E3, C3. reflexivity.
  - unfold view, s3, tv_weights, tv_ce, tv_cf, edited. cbn. rewrite A1. reflexivity.
  - apply hi_edit; [exact I|exact A2].
  - rewrite E3. discriminate.
Qed.
End Ops.
