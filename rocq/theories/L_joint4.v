(** Lemmas for C95: detailed balance of the Gibbs operators on effects, and the moves back. *)
From Coq Require Import Lra.
From Verif Require Import M_source M_conj M_gweights S_model S_operators S_source S_params S_mcmc S_honest S_gsource S_ergodic S_collapsed
  S_sampler S_progress P_conj P_gweights L_model L_operators L_source L_params L_balance L_honest L_honest2 L_gsource L_gsource2 L_collapsed L_sampler L_progress P_honest P_gsource S_joint L_joint L_joint2 L_joint3.
From Coq Require Lqa.
Set Implicit Arguments.
Unset Strict Implicit.
Open Scope R_scope.

Lemma positive_effect_of applicable q : pos_effect applicable q -> positive_effect (length applicable) applicable q.
Proof. intros H. split; [symmetry; eapply Forall2_len; eauto|]. intros f s Hs. eapply pos_effect_at; eauto. Qed.
Lemma get_in which g p : (g < length (effect_list which p))%nat -> In (get_effect which g p) (p_ce p) \/ exists ps, In ps (p_cf p) /\ In (get_effect which g p) ps.
Proof.
  destruct which as [k|]; unfold effect_list, get_effect; intros H; [right|left; apply nth_In; auto].
  exists (nth k (p_cf p) []). split; [|apply nth_In; auto]. apply nth_In. destruct (Nat.lt_ge_cases k (length (p_cf p))); auto. rewrite (nth_overflow (p_cf p)) in H by auto. simpl in H. lia.
Qed.
(** The entries at applicable states of a probability vector. *)
Lemma applicable_sum app : forall row : list Q, length row = length app -> (forall s, nth s app false = false -> (nth s row 0 == 0)%Q) ->
  (Qsum (map (fun s => nth s row 0%Q) (M_operators.nonzero app)) == Qsum row)%Q.
Proof.
  induction app as [|b app IH]; intros [|x row] L Z; try discriminate; [reflexivity|]. rewrite nonzero_cons.
  assert (E : (Qsum (map (fun s => nth s (x :: row) 0%Q) (map Datatypes.S (M_operators.nonzero app))) == Qsum row)%Q).
  { rewrite map_map. cbn [nth]. apply IH; [simpl in L; lia|]. intros s Hs. apply (Z (Datatypes.S s)). exact Hs. }
  destruct b; cbn [map nth]; unfold Qsum in *; cbn [fold_right]; rewrite E; [reflexivity|]. pose proof (Z 0%nat eq_refl) as Z0. cbn [nth] in Z0. rewrite Z0. ring.
Qed.
Lemma applicable_simplex app row : simplex_on app row -> dirichlet_draw (n_true app) (map (fun s => nth s row 0%Q) (M_operators.nonzero app)).
Proof.
  intros (L & (N & S) & Z). split; [rewrite map_length; apply n_true_nonzero|]. split.
  - rewrite Forall_map. apply Forall_forall. intros s _. apply Forall_nth_Q; auto. Lqa.lra.
  - rewrite applicable_sum by auto. exact S.
Qed.
Definition entries_of (applicable : list (list bool)) (q : effect) : list (list Q) :=
  mapi (fun f app => map (fun s => nth s (nth f q []) 0%Q) (M_operators.nonzero app)) applicable.
Lemma entries_draw applicable q : effect_ok applicable q -> Forall2 (fun app d => dirichlet_draw (n_true app) d) applicable (entries_of applicable q).
Proof.
  intros H. unfold entries_of, mapi. assert (G : forall k (q0 : effect), (forall f, nth (k + f) q0 [] = nth f q []) ->
    Forall2 (fun app d => dirichlet_draw (n_true app) d) applicable (mapi_from k (fun f app => map (fun s => nth s (nth f q0 []) 0%Q) (M_operators.nonzero app)) applicable)).
  { induction H as [|app row applicable q Hr H IH]; intros k q0 E; cbn [mapi_from]; constructor.
    - specialize (E 0%nat). rewrite Nat.add_0_r in E. rewrite E. apply applicable_simplex. exact Hr.
    - apply IH. intros f. specialize (E (Datatypes.S f)). cbn [nth] in E. rewrite <- E. f_equal. lia. }
  apply G. reflexivity.
Qed.
Lemma entries_pos applicable q : pos_effect applicable q -> Forall (Forall (fun x => 0 < x)%Q) (entries_of applicable q).
Proof.
  intros H. unfold entries_of. apply Forall_forall. intros d Hd. apply In_nth_error in Hd as (f & Hd). rewrite nth_error_mapi in Hd. destruct (nth_error applicable f) as [app|] eqn:E; [|discriminate].
  injection Hd as <-. rewrite Forall_map. apply Forall_forall. intros s Hs. eapply pos_effect_at; eauto. rewrite (nth_error_nth _ _ [] E).
  unfold M_operators.nonzero in Hs. apply filter_In in Hs as [_ Hs]. exact Hs.
Qed.
Lemma entries_nth applicable q f : (f < length applicable)%nat -> nth f (entries_of applicable q) [] = map (fun s => nth s (nth f q []) 0%Q) (M_operators.nonzero (nth f applicable [])).
Proof. intros Hf. apply nth_error_nth. unfold entries_of. rewrite nth_error_mapi, (nth_error_nth' applicable []) by auto. reflexivity. Qed.
Lemma draws_shape applicable (q : effect) draws : effect_ok applicable q -> Forall2 (fun app d => dirichlet_draw (n_true app) d) applicable draws ->
  length q = length applicable /\ length draws = length applicable /\
  forall f, (f < length applicable)%nat -> length (nth f q []) = length (nth f applicable []) /\ length (nth f draws []) = size (nth f applicable []).
Proof.
  intros H D. split; [symmetry; eapply Forall2_len; eauto|]. split; [symmetry; eapply Forall2_len; eauto|]. intros f Hf.
  assert (Ea : nth_error applicable f = Some (nth f applicable [])) by (apply nth_error_nth'; auto).
  destruct (L_params.Forall2_nth H Ea) as (row & Hr & L & _). destruct (L_params.Forall2_nth D Ea) as (d & Hd & Ld & _).
  rewrite (nth_error_nth _ _ [] Hr), (nth_error_nth _ _ [] Hd). split; auto. rewrite Ld, size_count. reflexivity.
Qed.
(** Drawing the old entries restores the effect. *)
Lemma gibbs_back applicable (q : effect) draws : effect_ok applicable q -> Forall2 (fun app d => dirichlet_draw (n_true app) d) applicable draws ->
  Forall2 vec_eq (gibbs_effect applicable (gibbs_effect applicable q draws) (entries_of applicable q)) q.
Proof.
  intros H D. pose proof (gibbs_effect_ok H D) as H'. pose proof (entries_draw H) as D'. pose proof (gibbs_effect_ok H' D') as H''.
  destruct (draws_shape H D) as (L1 & L2 & L3). destruct (draws_shape H' D') as (L1' & L2' & L3'). destruct (draws_shape H'' D') as (L1'' & _ & L3'').
  set (q1 := gibbs_effect applicable q draws) in *. set (q2 := gibbs_effect applicable q1 (entries_of applicable q)) in *.
  assert (G : forall A B : list (list Q), length A = length B -> (forall f, (f < length A)%nat -> vec_eq (nth f A []) (nth f B [])) -> Forall2 vec_eq A B).
  { clear. induction A as [|a A IH]; intros [|b B] Hl H; try discriminate; constructor.
    - apply (H 0%nat). simpl; lia.
    - apply IH; [simpl in Hl; lia|]. intros f Hf. apply (H (Datatypes.S f)). simpl; lia. }
  apply G; [lia|]. intros f Hf. rewrite L1'' in Hf. destruct (L3 f Hf) as [L4 _]. destruct (L3'' f Hf) as [L5 _].
  apply vec_eq_nth; [lia|]. intros s.
  destruct (C27_draws L1' L2' L3' Hf) as [E1 E2]. destruct (C27_draws L1 L2 L3 Hf) as [_ E4]. fold q1 q2 in E1, E2, E4.
  destruct (nth s (nth f applicable []) false) eqn:Es.
  - rewrite entries_nth in E1 by auto. assert (Hin : In s (M_operators.nonzero (nth f applicable []))).
    { unfold M_operators.nonzero. apply filter_In. split; auto. apply in_seq. split; [lia|]. simpl. destruct (Nat.lt_ge_cases s (length (nth f applicable []))); auto. rewrite nth_overflow in Es by auto. discriminate. }
    revert E1 Hin. generalize (M_operators.nonzero (nth f applicable [])). clear. induction l as [|t l IH]; intros E Hin; [destruct Hin|]. cbn [map] in E. injection E as E1 E2. destruct Hin as [->|Hin]; auto. rewrite E1. reflexivity.
  - rewrite E2, E4 by auto. reflexivity.
Qed.

Section Joint.
Variable su : setup.
Variable lnB : list R -> R.
Variable dpdf : list Q -> list Q -> R.
Variable bpdf : R -> R -> R -> R.
Variable prs : nat -> nat -> effect_prior.
Variable r : bmat -> R.
Hypothesis JS : joint_setting su dpdf prs r.
Notation env p := (env_of su p).
Notation joint_ := (joint_density su lnB prs r).
Notation app := (su_applicable su).

Lemma sample_effect s which g : positive_sample su s -> (g < length (effect_list which (fs_params s)))%nat ->
  effect_ok app (get_effect which g (fs_params s)) /\ pos_effect app (get_effect which g (fs_params s)).
Proof.
  intros [[_ _ _ (_ & _ & P3 & P4) _ _ _] (_ & Q2 & Q3)] Hg. rewrite Forall_forall in *. destruct (get_in Hg) as [H|(ps & H1 & H2)]; auto.
  specialize (P4 _ H1). specialize (Q3 _ H1). rewrite Forall_forall in *. auto.
Qed.
Lemma sample_conj s src which g : positive_sample su s -> fs_source s = Some src -> (g < length (effect_list which (fs_params s)))%nat ->
  conj_setting (env (fs_params s)) (fs_clusters s) src which g.
Proof.
  intros PS Es Hg. pose proof (sample_source PS Es) as [V1 V2]. pose proof (env_positive (js_setup JS) PS) as P.
  destruct PS as [[S1 S2 S3 (P1 & P2 & P3 & P4) S5 S6 S7] _]. destruct (js_setup JS) as [_ [_ Hrows] [_ Hc] _ _].
  assert (Hlen : forall q, effect_ok app q -> length q = su_nf su) by (intros q Hq; symmetry; exact (Forall2_len Hq)).
  constructor; cbn [e_features e_nf e_conf e_cf e_ce env_of]; auto.
  - intros o Ho. rewrite Forall_forall in V2. apply V2. apply nth_In. rewrite V1. exact Ho.
  - destruct which as [k|]; cbn [groups_of e_conf env_of]; auto. destruct (Nat.lt_ge_cases k (length (su_conf su))) as [Hk|Hk].
    + rewrite Forall_forall in Hc. apply Hc. apply nth_In. auto.
    + rewrite nth_overflow by auto. intros o i j Hi. destruct i; destruct o; discriminate.
  - destruct which as [k|]; cbn [groups_of e_conf env_of effect_list] in *; [|destruct S1 as [S1 _]; lia].
    destruct (nth_error (p_cf (fs_params s)) k) as [ps|] eqn:E.
    + destruct (L_params.Forall2_nth S6 E) as (gs & Hgs & L). rewrite (nth_error_nth _ _ [] E) in Hg. rewrite (nth_error_nth (su_conf su) k [] Hgs). lia.
    + apply nth_error_None in E. rewrite nth_overflow in Hg by auto. simpl in Hg. lia.
  - intros k ->. cbn [effect_list] in Hg. assert (L := Forall2_len S6). split; [|exact L]. destruct (Nat.lt_ge_cases k (length (su_conf su))); auto. rewrite nth_overflow in Hg by (eapply Nat.le_trans; [apply Nat.eq_le_incl; exact L|eassumption]). simpl in Hg. lia.
  - cbv zeta. destruct which as [k|]; cbn [groups_of e_conf env_of effect_list] in *.
    + destruct (nth_error (p_cf (fs_params s)) k) as [ps|] eqn:E.
      * destruct (L_params.Forall2_nth S6 E) as (gs & Hgs & L). rewrite (nth_error_nth _ _ [] E), (nth_error_nth (su_conf su) k [] Hgs). split; auto.
        rewrite Forall_forall in P4. specialize (P4 _ (nth_error_In _ _ E)). eapply Forall_impl; [|exact P4]. exact Hlen.
      * apply nth_error_None in E. rewrite nth_overflow in Hg by auto. simpl in Hg. lia.
    + split; [destruct S1 as [S1 _]; rewrite S1; exact S5|]. eapply Forall_impl; [|exact P3]. exact Hlen.
Qed.
Lemma prior_edit which g h p : (g < length (effect_list which p))%nat ->
  log_prior_effects su lnB prs (edit_effect which g h p) =
  log_prior_effects su lnB prs p - log_prior_effect lnB app (prior_of prs which g) (get_effect which g p) + log_prior_effect lnB app (prior_of prs which g) (h (get_effect which g p)).
Proof.
  destruct which as [k|]; unfold log_prior_effects, edit_effect, get_effect, effect_list; cbn [p_cf prior_of log_prior_effect]; intros Hg; [|lra].
  assert (Hk : (k < length (p_cf p))%nat) by (destruct (Nat.lt_ge_cases k (length (p_cf p))); auto; rewrite (nth_overflow (p_cf p)) in Hg by auto; simpl in Hg; lia).
  rewrite (@upd_sum _ _ _ []) by auto. rewrite (@upd_sum _ _ _ [] (nth k (p_cf p) [])) by auto. match goal with |- ?A - ?B + (?B' - ?C + ?D) = ?A' - ?C' + ?D' => change B' with B; change C' with C; change D' with D; change A' with A; ring end.
Qed.
(** The joint density as a function of the effect of one group. *)
Lemma effect_factor s src which g : positive_sample su s -> fs_source s = Some src -> (g < length (effect_list which (fs_params s)))%nat ->
  exists C, forall h, positive_effect (su_nf su) app (h (get_effect which g (fs_params s))) ->
    joint_ (with_params s (edit_effect which g h (fs_params s))) =
    C * exp (gibbs_logpdf lnB (env (fs_params s)) (fs_clusters s) src app (prior_of prs which g) which g (h (get_effect which g (fs_params s)))).
Proof.
  intros PS Es Hg. set (p := fs_params s) in *. set (cl := fs_clusters s).
  assert (HC : concentration_shape (e_nf (env p)) app (prior_of prs which g)).
  { destruct which as [k|]; cbn [prior_of]; [apply (js_conc JS)|]. split; [reflexivity|exact I]. }
  destruct (@C27_conjugate lnB (env p) cl src which g app (prior_of prs which g) (sample_conj PS Es Hg) (js_coded JS) HC) as (K & HK).
  { intros ->. reflexivity. }
  set (A := match oprod (source_weights (state_weights (env p) cl) src) with Some a => Q2R a | None => 0 end).
  exists (A * r cl * exp (log_prior_effects su lnB prs p - log_prior_effect lnB app (prior_of prs which g) (get_effect which g p)) * K). intros h Hh.
  destruct (HK _ Hh) as (L & HL & E & _). set (q := h (get_effect which g p)) in *.
  assert (SD : Q2R (source_density (env (edit_effect which g h p)) {| x_clusters := cl; x_source := Some src |}) = A * Q2R L).
  { rewrite env_edit. fold q. unfold source_density, source_likelihood in *. cbn [x_source x_clusters]. change (e_from_prior (with_effect (env p) which g q)) with (su_from_prior su) in *.
    change (state_weights (with_effect (env p) which g q) cl) with (state_weights (env p) cl). unfold joint, A. destruct (su_from_prior su).
    - injection HL as <-. rewrite RMicromega.Q2R_1. destruct (oprod _); [lra|]. rewrite RMicromega.Q2R_0. lra.
    - rewrite HL. destruct (oprod _); [apply Q2R_mult|]. rewrite RMicromega.Q2R_0. lra. }
  unfold joint_density, data_density, fs_cstate. cbn [x_source x_clusters fs_clusters fs_params fs_source with_params]. rewrite Es. fold cl. rewrite SD, prior_edit by auto. fold q.
  rewrite exp_plus. transitivity (A * r cl * exp (log_prior_effects su lnB prs p - log_prior_effect lnB app (prior_of prs which g) (get_effect which g p)) * (exp (log_prior_effect lnB app (prior_of prs which g) q) * Q2R L)); [ring|].
  rewrite E. ring.
Qed.
Lemma draw_density p cl src which g q draws : (forall f, (f < su_nf su)%nat -> map (fun s => nth s (nth f q []) 0%Q) (M_operators.nonzero (nth f app [])) = nth f draws []) ->
  M_conj.Rsum (map (fun f => dirichlet_logpdf lnB (map Q2R (nth f draws [])) (gibbs_alpha (env p) cl src app (prior_of prs which g) which g f)) (seq 0 (su_nf su))) =
  gibbs_logpdf lnB (env p) cl src app (prior_of prs which g) which g q.
Proof.
  intros H. unfold gibbs_logpdf. apply P_conj.Rsum_ext. intros f Hf. apply in_seq in Hf. f_equal. unfold applicable_probs. rewrite <- (H f) by (destruct Hf as [_ Hf]; exact Hf). rewrite map_map. reflexivity.
Qed.
Lemma effect_balance s which g draws : positive_sample su s -> draws_ok (su_nc su) app (GibbsEffect which g draws) -> interior (GibbsEffect which g draws) ->
  fs_source s <> None -> (g < length (effect_list which (fs_params s)))%nat ->
  let s' := target su (Param (GibbsEffect which g draws)) s in
  joint_ s * density su lnB dpdf bpdf prs r (Param (GibbsEffect which g draws)) s = joint_ s' * density su lnB dpdf bpdf prs r (reverse su (Param (GibbsEffect which g draws)) s) s'.
Proof.
  intros PS D I Hs Hg s'. destruct (fs_source s) as [src|] eqn:Es; [|contradiction]. set (p := fs_params s) in *.
  destruct (sample_effect PS Hg) as [O P]. fold p in O, P. set (q := get_effect which g p) in *. cbn [draws_ok interior] in D, I.
  pose proof (gibbs_effect_pos O D I) as P'. set (q' := gibbs_effect app q draws) in *.
  destruct (effect_factor PS Es Hg) as (C & HC). fold p q in HC.
  assert (Js : joint_ s = C * exp (gibbs_logpdf lnB (env p) (fs_clusters s) src app (prior_of prs which g) which g q)).
  { rewrite <- (HC (fun x => x)) by (apply positive_effect_of; exact P). f_equal. destruct s as [cl [w ce cf] sc]. unfold with_params. cbn [fs_clusters fs_params fs_source p] in *. f_equal.
    destruct which as [k|]; unfold edit_effect; cbn [p_weights p_ce p_cf]; f_equal; symmetry; apply upd_id; auto. intros x _. apply upd_id. auto. }
  assert (Js' : joint_ s' = C * exp (gibbs_logpdf lnB (env p) (fs_clusters s) src app (prior_of prs which g) which g q')).
  { exact (HC (fun x => gibbs_effect app x draws) (positive_effect_of P')). }
  destruct (draws_shape O D) as (L1 & L2 & L3).
  cbn [density reverse]. replace (fs_source s') with (Some src) by (symmetry; exact Es). rewrite Es. fold p.
  change (mapi (fun (f : nat) (app : list bool) => map (fun s0 => nth s0 (nth f (get_effect which g p) []) 0%Q) (M_operators.nonzero app)) app) with (entries_of app q).
  rewrite (@draw_density p (fs_clusters s) src which g q' draws) by (intros f Hf; apply (C27_draws L1 L2 L3 Hf)).
  replace (fs_clusters s') with (fs_clusters s) by reflexivity.
  assert (EA : forall f, gibbs_alpha (env (fs_params s')) (fs_clusters s) src app (prior_of prs which g) which g f = gibbs_alpha (env p) (fs_clusters s) src app (prior_of prs which g) which g f).
  { intros f. destruct which; reflexivity. }
  rewrite (@P_conj.Rsum_ext _ _ _ (fun f => dirichlet_logpdf lnB (map Q2R (nth f (entries_of app q) [])) (gibbs_alpha (env p) (fs_clusters s) src app (prior_of prs which g) which g f))) by (intros f _; rewrite EA; reflexivity).
  rewrite (@draw_density p (fs_clusters s) src which g q (entries_of app q)) by (intros f Hf; symmetry; apply entries_nth; exact Hf).
  rewrite Js, Js'. ring.
Qed.
End Joint.
