(** Lemmas for C98 and C99: operators on weights and effects, evaluation, and the loop. *)
From Verif Require Import S_tracked L_cache L_operators L_sampler L_source L_params L_tracked.
From Verif Require Import M_dist M_operators.
From Coq Require Import Lqa.
Set Implicit Arguments.
Unset Strict Implicit.
Close Scope R_scope.
Close Scope Q_scope.
Open Scope nat_scope.

(** The remembered geo-prior of a sample object. *)
Definition geo_memory (s : tsample) : option xf :=
  match n_ver (k_geo (s_cache s)) with Some [] => Some (n_val (k_geo (s_cache s))) | _ => None end.
Definition mview (s : tsample) : memory := (view s, geo_memory s).
Lemma geo_memory_eq s s' : k_geo (s_cache s') = k_geo (s_cache s) -> geo_memory s' = geo_memory s.
Proof. unfold geo_memory. intros ->. reflexivity. Qed.

(** * Plain proposals are proposals *)
Section Plain.
Variable su : setup.
Variables (bpdf : R -> R -> R -> R) (dpdf : list Q -> list Q -> R).

Lemma alter_pair_any D D' (l : list Q -> list Q -> D) (l' : list Q -> list Q -> D') prec row i j draw :
  match alter_pair l prec row i j draw, alter_pair l' prec row i j draw with
  | Some (r, _, _), Some (r', _, _) => r = r'
  | None, None => True
  | _, _ => False
  end.
Proof. unfold alter_pair. cbv zeta. destruct (Qeq_bool _ 0); auto. destruct draw; cbn; auto. Qed.

Lemma set2_sum i j a b (w : list Q) : i < length w -> j < length w -> i <> j ->
  (Qsum (set2 i j a b w) == Qsum w - nth i w 0 - nth j w 0 + a + b)%Q.
Proof.
  intros Hi Hj Hij. unfold set2.
  assert (U : forall k c (v : list Q), k < length v -> (Qsum (upd k (fun _ => c) v) == Qsum v - nth k v 0 + c)%Q).
  { clear. induction k as [|k IH]; intros c [|x v] H; cbn in H; try lia; cbn [upd nth]; rewrite !Qsum_cons; [ring|].
    rewrite IH by lia. ring. }
  rewrite U by (rewrite upd_length; auto). rewrite U by auto. rewrite L_operators.nth_upd_other by auto. ring.
Qed.
Lemma resample_some i j a (w : list Q) : (Qsum w == 1)%Q -> i < length w -> j < length w -> i <> j ->
  exists w', resample_row i j a w = Some w'.
Proof.
  intros Hs Hi Hj Hij. unfold resample_row. cbv zeta. unfold M_operators.normalize.
  match goal with |- context [Qeq_bool ?x 0] => destruct (Qeq_bool x 0) eqn:E end; eauto.
  exfalso. apply Qeq_bool_iff in E. rewrite set2_sum in E by auto. lra.
Qed.
Lemma gibbs_rows has src i j a2 u W nc : length a2 = length W -> i < nc -> j < nc -> i <> j ->
  Forall (fun w => length w = nc /\ simplex w) W ->
  gibbs_sample_weights bpdf has src i j a2 u W =
  map2 (gibbs_weights_row i j) (mapi (fun f a => (a, below_exp (nth f u 0%R) (log_p_accept bpdf has src i j a2 W f))) a2) W.
Proof.
  intros L Hi Hj Hij HW. unfold gibbs_sample_weights. apply nth_error_ext. intros f.
  rewrite nth_error_mapi, nth_error_map2, nth_error_mapi.
  destruct (nth_error W f) as [w|] eqn:Ew; [|destruct (nth_error a2 f); reflexivity].
  assert (Hf : f < length a2) by (rewrite L; apply nth_error_Some; congruence).
  destruct (nth_error a2 f) as [a|] eqn:Ea; [|apply nth_error_None in Ea; lia]. cbn [option_map]. f_equal.
  rewrite Forall_forall in HW. destruct (HW w) as [Lw [_ Sw]]; [eapply nth_error_In; eauto|].
  unfold gibbs_weights_row. cbn [fst snd]. destruct (@resample_some i j a w Sw) as [w' E]; try congruence.
  rewrite E. destruct (below_exp _ _); auto. unfold new_weights. rewrite L_cache.nth_of_error, nth_error_map2, Ea, Ew, E. reflexivity.
Qed.

Lemma plain_proposal k ch s r : valid_sample su s -> choice_ok su k ch -> plain_kind su bpdf dpdf k ch s = Some r -> proposal su s k r.
Proof.
  intros V C H.
  assert (N : forall n, nth_plain su k n s = Some r -> (exists out, supp (run_plain su k s) out /\
     match k with KSource => source_result s out | _ => cluster_result s out end = Some r)).
  { intros n. unfold nth_plain. destruct (nth_error _ n) as [[out q]|] eqn:E; [|discriminate]. intros Hr. exists out. split; auto.
    eapply possible_supp, nth_error_In; eauto. }
  destruct k, ch; cbn [plain_kind] in H; try discriminate.
  - destruct (N _ H) as (out & H1 & H2). eapply pr_alter; eauto.
  - destruct (N _ H) as (out & H1 & H2). eapply pr_gibbsish; eauto.
  - destruct (N _ H) as (out & H1 & H2). eapply pr_gibbsish2; eauto.
  - destruct (N _ H) as (out & H1 & H2). eapply pr_source; eauto.
  - destruct (fs_source s) as [src|]; [|discriminate]. cbn [option_map] in H. injection H as <-.
    destruct C as (C1 & C2 & C3 & C4 & C5). rewrite map_length in C4.
    destruct (vs_params V) as (P1 & P2 & _).
    erewrite gibbs_rows with (nc := su_nc su); eauto; [|congruence].
    eapply pr_gibbs_weights; [|reflexivity]. split; [|split; [|split; [|split]]]; auto.
    + rewrite mapi_length. auto.
    + apply Forall_forall. intros [a b] Hin. apply In_nth_error in Hin as [f Hf]. rewrite nth_error_mapi in Hf.
      destruct (nth_error a2 f) as [a'|] eqn:Ea; [|discriminate]. injection Hf as <- _. cbn [fst].
      rewrite Forall_map, Forall_forall in C5. apply (C5 a'). eapply nth_error_In; eauto.
  - injection H as <-. eapply pr_gibbs_effect; eauto. reflexivity.
  - destruct (propose_params _ _ _) as [p|] eqn:E.
    + destruct (alter_pair _ _ _ _ _ _) as [[[row q] qb]|]; injection H as <-; [eapply pr_alter_weights; eauto|apply pr_no_weights].
    + injection H as <-. apply pr_no_weights.
  - destruct (propose_params _ _ _) as [p|] eqn:E.
    + destruct (alter_pair _ _ _ _ _ _) as [[[row q] qb]|]; injection H as <-; [eapply pr_alter_effect; eauto|apply pr_no_effect].
    + injection H as <-. apply pr_no_effect.
Qed.
End Plain.

Section Ops2.
Variable su : setup.
Variable M : mdl xf.
Hypothesis F : fits su M.
Variables (bpdf : R -> R -> R -> R) (dpdf : list Q -> list Q -> R).

(** * Operators on weights and effects *)
Lemma edited_weights o s : tv_weights (edited (EdWeights o) s) = v_value (spec_pop o (weights (s_pars s))).
Proof. reflexivity. Qed.
Lemma view_weights w s : view (edited (EdWeights (SetValue w)) s) = with_weights_of (view s) w.
Proof. reflexivity. Qed.
Lemma edited_group A g (h : A -> A) (x : pval A) : v_value (spec_pop (EditGroup g h) x) = upd g h (v_value x).
Proof.
  cbn [spec_pop]. destruct (Nat.ltb_spec g (length (v_value x))) as [Hlt|Hge]; cbn [v_value]; auto. symmetry. apply upd_out; auto.
Qed.
Lemma view_effect which g h s : view (edited (ed_effect which g h) s) = with_params (view s) (edit_effect which g h (fs_params (view s))).
Proof.
  unfold view, with_params. destruct which as [k|]; cbn [ed_effect edit_effect fs_params fs_clusters fs_source p_weights p_ce p_cf].
  - f_equal. f_equal. unfold tv_cf, edited, do_edit_pars, with_conf. cbn [s_pars confounding_effects].
    apply nth_error_ext. intros i. rewrite nth_error_map, !nth_error_upd, nth_error_map.
    destruct (k =? i); destruct (nth_error _ i); cbn [option_map]; auto. rewrite edited_group. reflexivity.
  - f_equal. f_equal. unfold tv_ce, edited, do_edit_pars, with_ce. cbn [s_pars cluster_effect]. apply edited_group.
Qed.
Lemma t_effect_view which g s : t_effect which g s = get_effect which g (fs_params (view s)).
Proof. destruct which; reflexivity. Qed.
Lemma effect_history which g h s : history M s -> history M (edited (ed_effect which g h) s).
Proof. intros H. apply hi_edit; auto. destruct which; exact I. Qed.

Lemma gibbs_weights_sim i j a2 u s : history M s ->
  match t_gibbs_weights bpdf i j a2 u s with
  | None => tv_source s = None
  | Some s' => history M s' /\ k_geo (s_cache s') = k_geo (s_cache s) /\
      exists src, tv_source s = Some src /\
        view s' = with_weights_of (view s) (gibbs_sample_weights bpdf (all_has su (tv_clusters s)) src i j a2 u (tv_weights s))
  end.
Proof.
  intros H. unfold t_gibbs_weights.
  pose proof (kept_weights H) as K1. pose proof (read_weights_val F H) as V1. destruct (read_weights s) as [s1 wn1]. cbn [fst snd] in *.
  pose proof (kept_view K1) as E1. pose proof K1 as (P1 & H1 & G1).
  change (tv_source s1) with (fs_source (view s1)). rewrite E1. change (fs_source (view s)) with (tv_source s).
  destruct (tv_source s) as [src|] eqn:Es; [|reflexivity].
  pose proof (kept_has H1) as K2. pose proof (read_has_val F H1) as V2. destruct (read_has s1) as [s2 has]. cbn [fst snd] in *.
  pose proof (kept_view K2) as E2. pose proof K2 as (P2 & H2 & G2).
  set (w := tv_weights s). set (wnew := new_weights i j a2 w).
  assert (H3 : history M (edited (EdWeights (SetValue wnew)) s2)) by (apply hi_edit; auto; exact I).
  set (s3 := edited (EdWeights (SetValue wnew)) s2) in *.
  pose proof (kept_weights H3) as K4. pose proof (read_weights_val F H3) as V4. destruct (read_weights s3) as [s4 wn4]. cbn [fst snd] in *.
  pose proof (kept_view K4) as E4. pose proof K4 as (P4 & H4 & G4).
  split; [apply hi_edit; auto; exact I|]. split; [cbn [edited s_cache]; rewrite G4; cbn [s3 edited s_cache]; congruence|].
  exists src. split; auto. rewrite view_weights, E4. unfold s3. rewrite view_weights, E2, E1.
  unfold with_weights_of, with_params. cbn [fs_params p_weights p_ce p_cf fs_clusters fs_source]. f_equal. f_equal.
  unfold gibbs_sample_weights, log_p_accept. cbv zeta.
  assert (C1 : tv_clusters s1 = tv_clusters s) by exact (f_equal fs_clusters E1).
  assert (C3 : tv_clusters s3 = tv_clusters s).
  { unfold s3. change (tv_clusters (edited (EdWeights (SetValue wnew)) s2)) with (tv_clusters s2).
    change (tv_clusters s2) with (fs_clusters (view s2)). rewrite E2, E1. reflexivity. }
  rewrite V4, V2, V1, C1, C3. reflexivity.
Qed.

(** * One proposal *)
Definition P (s : tsample) : Prop := history M s /\ valid_sample su (view s).
Definition prop_sim (s : tsample) (x : option (tsample * result tsample)) (r : option (result fsample)) : Prop :=
  match x, r with
  | None, None => True
  | Some (c, r), Some r' =>
      map_result view r = r' /\ history M (res_content c r) /\ geo_memory (res_content c r) = geo_memory s /\
      (match r with RReject _ => kept M s c | RCopy _ _ _ => kept M s c | _ => True end)
  | _, _ => False
  end.
Lemma nth_sim s (d : dist (tsample * tout)) (d' : dist outcome) n : dsim (out_sim M s) d d' ->
  prop_sim s (nth_result false d n) (match nth_error (possible d') n with Some (out, _) => cluster_result (view s) out | None => None end).
Proof.
  intros H. pose proof (dsim_nth n H) as Hn. unfold nth_result.
  destruct (nth_error (possible d) n) as [[[c o] q]|], (nth_error (possible d') n) as [[out q']|]; try contradiction; cbn; auto.
  destruct Hn as [[K Ho] _]. cbn [fst snd] in *. pose proof K as (_ & K2 & K3).
  destruct o as [|s' qf qb|], out as [|y qf' qb'|]; try contradiction; cbn [t_result cluster_result prop_sim map_result res_content]; auto.
  - conj; auto. apply geo_memory_eq; auto.
  - destruct Ho as (-> & -> & Ey & Ep & Hs & Hg). conj; auto.
    + f_equal. subst y. destruct (view s') as [a b c']. cbn in *. subst. reflexivity.
    + apply geo_memory_eq; auto.
Qed.
Lemma nth_source_sim s (d : dist (tsample * tout)) (d' : dist outcome) n : dsim (src_sim M s) d d' ->
  prop_sim s (nth_result true d n) (match nth_error (possible d') n with Some (out, _) => source_result (view s) out | None => None end).
Proof.
  intros H. pose proof (dsim_nth n H) as Hn. unfold nth_result.
  destruct (nth_error (possible d) n) as [[[c o] q]|], (nth_error (possible d') n) as [[out q']|]; try contradiction; cbn; auto.
  destruct Hn as [Ho _]. unfold src_sim in Ho. cbn [fst snd] in *.
  destruct o as [|s' qf qb|], out as [|y qf' qb'|]; try contradiction; cbn [t_result source_result prop_sim map_result res_content]; auto.
  destruct Ho as (-> & -> & -> & Ey & Ep & Ec & Hs & Hg & _). conj; auto.
  - f_equal. subst y. change (fs_clusters (view s)) with (tv_clusters s). rewrite <- Ec. destruct (view s') as [a b c'] eqn:E. cbn in *. subst.
    f_equal. change (tv_clusters s') with (fs_clusters (view s')). rewrite E. reflexivity.
  - apply geo_memory_eq; auto.
Qed.
Lemma kind_sim k ch s : P s -> choice_ok su k ch ->
  prop_sim s (t_propose su M bpdf dpdf k ch s) (plain_kind su bpdf dpdf k ch (view s)).
Proof.
  intros [H V] C. pose proof (vs_disjoint V) as D. pose proof (vs_shape V) as Sh. cbn [view fs_clusters] in D, Sh.
  destruct k, ch; try exact I; cbn [t_propose plain_kind].
  - apply nth_sim. apply alter_sim; auto.
  - apply nth_sim. apply gibbsish_sim; auto.
  - apply nth_sim. apply gibbsish2_sim; auto.
  - apply nth_source_sim. apply source_sim; auto.
  - pose proof (@gibbs_weights_sim i j a2 u s H) as G. change (fs_source (view s)) with (tv_source s).
    destruct (t_gibbs_weights bpdf i j a2 u s) as [s'|]; cbn [option_map prop_sim].
    + destruct G as (H' & Hg & src & -> & Ev). cbn [option_map map_result res_content]. conj; auto.
      * f_equal. exact Ev.
      * apply geo_memory_eq; auto.
    + rewrite G. exact I.
  - cbn [propose_params option_map prop_sim map_result res_content]. conj; auto.
    + f_equal. unfold t_gibbs_effect. apply view_effect.
    + apply effect_history; auto.
  - unfold t_alter_weights. cbn [propose_params]. change (p_weights (fs_params (view s))) with (tv_weights s).
    pose proof (alter_pair_any (fun _ _ => tt) dpdf prec_weights (nth f (tv_weights s) []) i j draw) as A.
    destruct (alter_pair (fun _ _ => tt) _ _ _ _ _) as [[[row ?] ?]|], (alter_pair dpdf _ _ _ _ _) as [[[row' q] qb]|]; try contradiction;
      cbn [option_map prop_sim map_result res_content]; conj; try (apply kept_refl; auto); try (apply hi_edit; [exact I|apply hi_copy; auto]); auto.
    subst row'. reflexivity.
  - unfold t_alter_effect. cbn [propose_params]. rewrite t_effect_view.
    pose proof (alter_pair_any (fun _ _ => tt) dpdf (prec_effect which) (nth f (get_effect which g (fs_params (view s))) []) i j draw) as A.
    destruct (alter_pair (fun _ _ => tt) _ _ _ _ _) as [[[row ?] ?]|], (alter_pair dpdf _ _ _ _ _) as [[[row' q] qb]|]; try contradiction;
      cbn [option_map prop_sim map_result res_content]; conj; try (apply kept_refl; auto); try (apply effect_history, hi_copy; auto); auto.
    + subst row'. f_equal. rewrite view_effect. reflexivity.
    + f_equal. rewrite view_effect. rewrite copied_view. unfold with_params, edit_effect.
      destruct which; destruct (view s) as [cl [w ce cf] src]; cbn; repeat f_equal.
      * apply nth_error_ext. intros x. rewrite nth_error_upd. destruct (n =? x); destruct (nth_error cf x); cbn; auto. f_equal.
        apply nth_error_ext. intros y. rewrite nth_error_upd. destruct (g =? y); destruct (nth_error l y); reflexivity.
      * apply nth_error_ext. intros x. rewrite nth_error_upd. destruct (g =? x); destruct (nth_error ce x); reflexivity.
Qed.

(** * Evaluation *)
Lemma map2_new A B C (f : A -> list B -> C) gs (l : list (pval B)) :
  map2 (fun g e => f g (v_value e)) gs (map (@new_pval B) (map (@v_value B) l)) = map2 (fun g e => f g (v_value e)) gs l.
Proof. revert gs. induction l as [|x l IH]; intros [|g gs]; cbn; auto. f_equal. apply IH. Qed.
Lemma spec_lik_view s : spec_likelihood M (fresh_pars (view s)) = spec_likelihood M (s_pars s).
Proof.
  unfold spec_likelihood, spec_components, spec_weights, fresh_pars. cbn [view fs_params fs_clusters fs_source p_weights p_ce p_cf clusters weights cluster_effect confounding_effects source new_pval v_value].
  f_equal; [f_equal|].
  - unfold tv_cf. generalize (m_conf M). induction (confounding_effects (s_pars s)) as [|x l IH]; intros [|g gs]; cbn; auto. f_equal. apply IH.
  - unfold tv_source. destruct (source (s_pars s)); reflexivity.
Qed.
Lemma spec_prior_view s : spec_prior M (fresh_pars (view s)) = spec_prior M (s_pars s).
Proof.
  unfold spec_prior, spec_weights, fresh_pars. cbn [view fs_params fs_clusters fs_source p_weights p_ce p_cf clusters weights cluster_effect confounding_effects source new_pval v_value].
  f_equal.
  - unfold tv_cf. apply nth_error_ext. intros i. rewrite !nth_error_mapi, !nth_error_map. destruct (nth_error _ i); reflexivity.
  - unfold tv_source. destruct (source (s_pars s)); reflexivity.
Qed.

Definition used (s : tsample) : xf := match geo_memory s with Some g => g | None => geo_fn M (tv_clusters s) end.
Lemma prior_true s : history M s ->
  log_prior (snd (prior M true s)) = prior_with M (used s) (view s) /\ history M (fst (prior M true s)) /\
  view (fst (prior M true s)) = view s /\ geo_memory (fst (prior M true s)) = Some (used s).
Proof.
  intros H. destruct (prior_correct true (history_inv F H)) as [(E1 & E2 & E3 & E4 & E5) _].
  assert (Eg : t_geo (snd (prior M true s)) = used s).
  { unfold prior. cbn [snd t_geo]. unfold used, geo_memory, eval_node, is_outdated, ver_geo. cbn [n_val].
    destruct (n_ver (k_geo (s_cache s))) as [[|z l]|] eqn:E; cbn; try reflexivity.
    all: destruct (list_eq_dec _ _ _); try discriminate; try contradiction; reflexivity. }
  conj.
  - unfold prior_with. rewrite spec_prior_view. unfold log_prior. cbn [t_size t_geo t_weights t_ce t_conf t_src].
    rewrite E1, E2, E3, E4, E5, Eg. reflexivity.
  - apply hi_prior; auto.
  - reflexivity.
  - destruct (@geo_after_prior _ M true s) as [A B]. unfold geo_memory. rewrite A, B, Eg. reflexivity.
Qed.
Lemma prior_false s : history M s ->
  log_prior (snd (prior M false s)) = prior_with M (geo_fn M (tv_clusters s)) (view s) /\ history M (fst (prior M false s)) /\
  view (fst (prior M false s)) = view s /\ geo_memory (fst (prior M false s)) = Some (geo_fn M (tv_clusters s)).
Proof.
  intros H. destruct (prior_correct false (history_inv F H)) as [(E1 & E2 & E3 & E4 & E5) _].
  conj.
  - unfold prior_with. rewrite spec_prior_view. unfold log_prior. cbn [t_size t_geo t_weights t_ce t_conf t_src].
    rewrite E1, E2, E3, E4, E5. reflexivity.
  - apply hi_prior; auto.
  - reflexivity.
  - destruct (@geo_after_prior _ M false s) as [A B]. unfold geo_memory. rewrite A, B. reflexivity.
Qed.
Lemma likelihood_true s : history M s -> disjoint_groups (tv_clusters s) -> let x := likelihood M true s in
  log_sum (snd x) = scratch_ll M (view s) /\ history M (fst x) /\ view (fst x) = view s /\ geo_memory (fst x) = geo_memory s.
Proof.
  intros H D x. conj.
  - unfold scratch_ll. rewrite spec_lik_view. f_equal. apply likelihood_correct; auto; [apply (conf_disjoint F)|apply (history_inv F H)].
  - apply hi_likelihood; auto.
  - reflexivity.
  - apply geo_memory_eq. unfold x, likelihood. cbn [fst s_cache].
    match goal with |- context [update_weights true ?p ?k] => destruct (update_weights_other true p k) as (_ & _ & -> & _) end. reflexivity.
Qed.
Lemma likelihood_false s : history M s -> disjoint_groups (tv_clusters s) -> let x := likelihood M false s in
  log_sum (snd x) = scratch_ll M (view s) /\ history M (fst x) /\ view (fst x) = view s /\ geo_memory (fst x) = None.
Proof.
  intros H D x. conj.
  - unfold scratch_ll. rewrite spec_lik_view. f_equal. apply likelihood_correct; auto; [apply (conf_disjoint F)|apply (history_inv F H)].
  - apply hi_likelihood; auto.
  - reflexivity.
  - unfold geo_memory, x, likelihood. cbn [fst s_cache].
    match goal with |- context [update_weights false ?p ?k] => destruct (update_weights_other false p k) as (_ & _ & -> & _) end. reflexivity.
Qed.
Lemma xeqb_refl x : xeqb x x = match x with NaN => false | _ => true end.
Proof. destruct x; cbn; auto. destruct (Req_EM_T r r); congruence. Qed.

Lemma eval_sim checks i s : P s ->
  memory_eval su M checks i (mview s) = ext_map (fun '(s, ll, p) => (mview s, ll, p)) (t_eval su M checks i s) /\
  (forall s' ll p, t_eval su M checks i s = Done (s', ll, p) -> P s').
Proof.
  intros [H V]. pose proof (vs_disjoint V) as D. cbn [view fs_clusters] in D.
  unfold memory_eval, t_eval, mview, t_likelihood.
  destruct (su_from_prior su) eqn:Efp.
  - rewrite andb_false_r. assert (Ec : checked checks i (Fin 0) = true) by (unfold checked; apply orb_true_r). rewrite Ec. cbn [negb ebind].
    unfold t_prior. pose proof (prior_true H) as (A1 & A2 & A3 & A4). destruct (prior M true s) as [s1 t1]. cbn [fst snd] in *.
    change (match geo_memory s with Some g => g | None => geo_fn M (fs_clusters (view s)) end) with (used s).
    destruct (due checks i) eqn:Ed.
    + pose proof (prior_false A2) as (B1 & B2 & B3 & B4). destruct (prior M false s1) as [s2 t2]. cbn [fst snd] in *.
      rewrite A3 in *. change (tv_clusters s1) with (fs_clusters (view s1)) in *. rewrite A3 in *. rewrite A1, B1.
      destruct (xeqb _ _); cbn [ebind ext_map]; [|split; [reflexivity|discriminate]]. split.
      * rewrite B3, B4. reflexivity.
      * intros s' ll p [= <- <- <-]. split; auto. rewrite B3. auto.
    + cbn [ebind ext_map]. rewrite A1, A3, A4. split; auto. intros s' ll p [= <- <- <-]. split; auto. rewrite A3. auto.
  - pose proof (likelihood_true H D) as (A1 & A2 & A3 & A4). cbv zeta in *. destruct (likelihood M true s) as [s1 obs]. cbn [fst snd] in *.
    cbn [negb]. rewrite andb_true_r. unfold checked.
    destruct (due checks i) eqn:Ed.
    + assert (D1 : disjoint_groups (tv_clusters s1)) by (change (disjoint_groups (fs_clusters (view s1))); rewrite A3; auto).
      pose proof (likelihood_false A2 D1) as (B1 & B2 & B3 & B4). cbv zeta in *. destruct (likelihood M false s1) as [s2 obs2]. cbn [fst snd] in *.
      rewrite A3 in *. rewrite A1, B1, (xeqb_refl (scratch_ll M (view s))). cbn [negb orb].
      destruct (scratch_ll M (view s)) eqn:El; cbn [negb ebind ext_map]; (try (split; [reflexivity|discriminate])).
      all: unfold t_prior; pose proof (prior_true B2) as (C1 & C2 & C3 & C4); destruct (prior M true s2) as [s3 t3]; cbn [fst snd] in *.
      all: try rewrite Ed; pose proof (prior_false C2) as (E1 & E2 & E3 & E4); destruct (prior M false s3) as [s4 t4]; cbn [fst snd] in *.
      all: unfold used in C1, C4; rewrite B4 in C1, C4; rewrite C3 in *; rewrite B3 in *.
      all: change (tv_clusters s3) with (fs_clusters (view s3)) in *; rewrite C3 in *.
      all: change (tv_clusters s2) with (fs_clusters (view s2)) in *; rewrite B3 in *.
      all: rewrite C1, E1; destruct (xeqb _ _); cbn [ebind ext_map]; (split; [try rewrite E3, E4; reflexivity|]); try discriminate.
      all: intros s' ll p [= <- <- <-]; split; auto; rewrite E3; auto.
    + cbn [negb orb ebind ext_map]. unfold t_prior. pose proof (prior_true A2) as (C1 & C2 & C3 & C4). destruct (prior M true s1) as [s3 t3]. cbn [fst snd] in *.
      rewrite Ed. cbn [ebind ext_map]. unfold used in C1, C4. rewrite A4 in C1, C4. rewrite A3 in *.
      change (tv_clusters s1) with (fs_clusters (view s1)) in *. rewrite A3 in *. rewrite C3, C4, A1, C1.
      split; auto. intros s' ll p [= <- <- <-]. split; auto. rewrite C3. auto.
Qed.
End Ops2.
