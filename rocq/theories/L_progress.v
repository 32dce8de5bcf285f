(** Lemmas for C74. *)
From Coq Require Import Lqa.
From Verif Require Import L_model L_operators L_init L_source L_params L_honest L_honest2 L_gsource L_gsource2 L_mcmc S_honest L_sampler S_progress.
Set Implicit Arguments.
Unset Strict Implicit.
Close Scope R_scope.
Open Scope Q_scope.

(** * Positive parameters give a positive environment *)
Lemma Forall2_len A B (P : A -> B -> Prop) l r : Forall2 P l r -> length l = length r.
Proof. induction 1; simpl; auto. Qed.
Lemma effect_nonneg applicable p f s : effect_ok applicable p -> 0 <= nth s (nth f p []) 0.
Proof.
  intros H. destruct (nth_error p f) as [r|] eqn:E.
  2:{ apply nth_error_None in E. rewrite (nth_overflow p) by auto. destruct s; simpl; lra. }
  rewrite (nth_error_nth _ _ [] E). apply Forall_nth_Q; [|lra]. revert f E. induction H as [|app row l l' [_ [[N _] _]] H IH]; intros [|f] E; try discriminate.
  - injection E as <-. exact N.
  - eapply IH; eauto.
Qed.
Lemma pos_effect_at applicable p f s : pos_effect applicable p -> nth s (nth f applicable []) false = true -> 0 < nth s (nth f p []) 0.
Proof.
  intros H. revert f. induction H as [|app row l l' P H IH]; intros [|f] E; try (destruct s; discriminate).
  - apply P. exact E.
  - apply (IH f). exact E.
Qed.
Lemma env_positive su s : complete_setup su -> positive_sample su s -> positive_env (env_of su (fs_params s)).
Proof.
  intros [[_ _ _ Vo _] [Hnf Hrows] [Hc1 Hc2] Hg _] [[_ _ _ (P1 & P2 & P3 & P4) _ P6 _] (Q1 & Q2 & Q3)].
  constructor; cbn [env_of e_weights e_nf e_features e_conf e_cf e_ce]; auto.
  - apply Forall_forall. intros w Hw. rewrite Forall_forall in P2, Q1. split; [apply (P2 w Hw)|apply (Q1 w Hw)].
  - eapply Forall2_len; eauto.
  - intros k gs ps H1 H2. destruct (Forall2_nth P6 H2) as (gs' & Hgs & L). assert (E : Some gs' = Some gs) by (rewrite <- Hgs; exact H1). injection E as <-. exact L.
  - intros p Hp. assert (E : effect_ok (su_applicable su) p /\ pos_effect (su_applicable su) p).
    { rewrite Forall_forall in P3, Q2, P4, Q3. destruct Hp as [Hp|(ps & Hps & Hp)]; [auto|].
      specialize (P4 _ Hps). specialize (Q3 _ Hps). rewrite Forall_forall in P4, Q3. auto. }
    destruct E as [E1 E2]. conj.
    + symmetry. eapply Forall2_len; exact E1.
    + intros f s0. eapply effect_nonneg; eauto.
    + intros o f s0 Ho. eapply pos_effect_at; eauto.
  - eapply Forall_impl; [|exact Hc2]. intros gs [_ D]. exact D.
Qed.

(** * Cluster posteriors *)
Definition calm (e : env) : env :=
  {| e_features := e_features e; e_nf := e_nf e; e_conf := e_conf e; e_weights := e_weights e; e_ce := e_ce e; e_cf := e_cf e; e_adj := e_adj e;
     e_pconn := 0; e_min := e_min e; e_max := e_max e; e_resample := e_resample e; e_from_prior := e_from_prior e |}.
Lemma calm_valid e : positive_env e -> valid_env (calm e).
Proof.
  intros P. apply positive_valid; [|split; discriminate]. destruct P as [P1 P2 P3 P4 P5 P6 P7 P8]. constructor; assumption.
Qed.
Section Posterior.
Variable e : env.
Hypothesis P : positive_env e.
Lemma row_positive cl i o f b : (o < n_objects e)%nat -> (f < e_nf e)%nat ->
  exists w, normalize_row (nth f (e_weights e) []) (b :: tl (has_row e cl o)) = Some w /\
    0 < Qsum (mapi (fun c q => all_lh e cl i o f c * q) w).
Proof.
  intros Ho Hf. destruct (nth_error (e_weights e) f) as [w|] eqn:Ew; [|apply nth_error_None in Ew; rewrite (pe_weights P) in Ew; lia].
  rewrite (nth_error_nth _ _ [] Ew). pose proof (pe_weights_c P) as W. rewrite Forall_forall in W.
  destruct (W w) as [Wl Wp]; [eapply nth_error_In; eauto|].
  destruct (pe_group P Ho) as (gs & g & Hgs & Hg & Hog). apply In_nth_error in Hgs as (k & Hgs).
  set (h := b :: tl (has_row e cl o)). assert (Hh : nth_error h (S k) = Some true).
  { unfold h, has_row. cbn [map tl nth_error]. rewrite nth_error_map, Hgs. simpl. f_equal. apply any_group_in. eauto. }
  assert (Hlen : length h = length w).
  { unfold h, has_row. rewrite Wl. unfold n_comps. cbn [map tl length]. rewrite map_length. reflexivity. }
  destruct (normalize_row w h) as [l|] eqn:En; [|exfalso; exact (proj1 (normalize_row_defined Wp Hlen) En (S k) Hh)].
  exists l. split; auto. pose proof (normalize_row_distribution Wp Hlen En) as (D1 & D2 & D3 & D4 & _).
  destruct (nth_error l (S k)) as [r|] eqn:Er.
  2:{ exfalso. apply nth_error_None in Er. assert (S k < length h)%nat by (apply nth_error_Some; congruence). lia. }
  apply (@Qsum_pos_term _ (S k) (all_lh e cl i o f (S k) * r)).
  - apply mapi_nn; [|exact D2]. intros [|c]; [exact (@cluster_lh_nn _ (calm_valid P) i o f)|exact (@component_lhs_nn _ (calm_valid P) cl o f (S c))].
  - rewrite nth_error_mapi, Er. reflexivity.
  - apply Qmult_lt_0_compat.
    + cbn [all_lh]. eapply lh_pos; eauto. apply any_group_in; eauto.
    + specialize (D4 _ _ _ Er Hh). rewrite Forall_forall in D2. specialize (D2 r (nth_error_In _ _ Er)).
      destruct (Qlt_le_dec 0 r); auto. exfalso. assert (r == 0) by lra. apply D4 in H. discriminate.
Qed.
Lemma marginal_positive cl i o wt : (o < n_objects e)%nat ->
  (forall f, exists b, wt f = normalize_row (nth f (e_weights e) []) (b :: tl (has_row e cl o))) ->
  exists m, marginal_lh e cl i o wt = Some m /\ 0 < m.
Proof.
  intros Ho Hw. unfold marginal_lh.
  assert (G : forall fs, (forall f, In f fs -> (f < e_nf e)%nat) -> exists m, fold_right omult (Some 1)
    (map (fun f => option_map (fun w => Qsum (mapi (fun c q => all_lh e cl i o f c * q) w)) (wt f)) fs) = Some m /\ 0 < m).
  { induction fs as [|f fs IH]; intros H; [exists 1; split; [reflexivity|lra]|].
    destruct IH as (m & Em & Hm); [intros; apply H; right; auto|]. destruct (Hw f) as [b Eb].
    destruct (@row_positive cl i o f b Ho (H f (or_introl eq_refl))) as (w & Ew & Hpos).
    cbn [map fold_right]. rewrite Em, Eb, Ew. cbn [option_map omult]. eexists. split; [reflexivity|]. apply Qmult_lt_0_compat; auto. }
  apply G. intros f Hf. apply in_seq in Hf. lia.
Qed.
Lemma posterior_inner cl i o : (o < n_objects e)%nat -> exists p, cluster_posterior e cl i o = Some p /\ 0 < p < 1.
Proof.
  intros Ho. unfold cluster_posterior. destruct (e_from_prior e); [exists (1#2); split; [reflexivity|lra]|].
  assert (Z : forall f, (exists b, fst (weights_z01 e cl o f) = normalize_row (nth f (e_weights e) []) (b :: tl (has_row e cl o))) /\
                        (exists b, snd (weights_z01 e cl o f) = normalize_row (nth f (e_weights e) []) (b :: tl (has_row e cl o)))).
  { intros f. unfold weights_z01, has_row. cbn [map tl]. destruct (negb (any_group cl o)); cbn [fst snd]; split; eexists; reflexivity. }
  destruct (@marginal_positive cl i o (fun f => fst (weights_z01 e cl o f)) Ho (fun f => proj1 (Z f))) as (m0 & -> & H0).
  destruct (@marginal_positive cl i o (fun f => snd (weights_z01 e cl o f)) Ho (fun f => proj2 (Z f))) as (m1 & -> & H1).
  destruct (Qeq_bool (m0 + m1) 0) eqn:E; [apply Qeq_bool_iff in E; lra|]. eexists. split; [reflexivity|].
  split; [apply Qlt_shift_div_l; lra|apply Qlt_shift_div_r; lra].
Qed.
Lemma posteriors_inner cl i : exists post, posteriors e cl i = Some post /\ length post = n_objects e /\ Forall (fun p => 0 < p < 1) post.
Proof.
  unfold posteriors. assert (G : forall os, (forall o, In o os -> (o < n_objects e)%nat) ->
    exists post, all_def (map (cluster_posterior e cl i) os) = Some post /\ length post = length os /\ Forall (fun p => 0 < p < 1) post).
  { induction os as [|o os IH]; intros H; [exists []; auto|].
    destruct IH as (post & E & L & F); [intros; apply H; right; auto|]. destruct (@posterior_inner cl i o (H o (or_introl eq_refl))) as (p & Ep & Hp).
    exists (p :: post). cbn [map all_def]. rewrite Ep, E. cbn. auto. }
  destruct (G (seq 0 (n_objects e))) as (post & E & L & F); [intros o Ho; apply in_seq in Ho; lia|].
  exists post. rewrite seq_length in L. auto.
Qed.
Lemma bmask_pos v m o : Forall (fun q => 0 < q) v -> length m = length v -> nth_error m o = Some true -> exists l, normalize (bmask v m) = Some l.
Proof.
  intros Hv Hl Ho. unfold normalize. cbv zeta. destruct (Qeq_bool (Qsum (bmask v m)) 0) eqn:E; [|eauto]. exfalso.
  apply Qeq_bool_iff in E. destruct (nth_error v o) as [q|] eqn:Eq.
  2:{ apply nth_error_None in Eq. assert (o < length m)%nat by (apply nth_error_Some; congruence). lia. }
  assert (0 < Qsum (bmask v m)); [|lra]. apply (@Qsum_pos_term _ o q).
  - unfold bmask. clear -Hv. revert m. induction Hv; intros [|b m]; simpl; constructor; [destruct b; lra|apply IHHv].
  - unfold bmask. rewrite nth_error_map2, Eq, Ho. reflexivity.
  - rewrite Forall_forall in Hv. apply Hv. eapply nth_error_In; eauto.
Qed.

(** * The cluster and source operators *)
Lemma finish_no_fail x cl objs q qb : ~ supp (finish e false x cl objs q qb) Fail.
Proof.
  unfold finish. intros H. destruct (e_resample e); [|apply supp_ret in H; discriminate].
  destruct (x_source x); [|apply supp_ret in H; discriminate]. apply supp_bind in H as (rows & _ & H). apply supp_ret in H. discriminate.
Qed.
Lemma any_length n cl : length (any_cluster n cl) = n.
Proof. unfold any_cluster. rewrite map_length, seq_length. reflexivity. Qed.
Lemma gibbsish_no_fail k x : (0 < k)%nat -> cluster_shape k (n_objects e) (x_clusters x) -> sizes_in (e_min e) (e_max e) (x_clusters x) ->
  ~ supp (gibbsish e x) Fail.
Proof.
  intros Hk [S1 S2] Hz H. unfold gibbsish in H. apply supp_bind in H as (b & _ & H).
  assert (Hids : ids x <> []) by (unfold ids; rewrite S1; destruct k; [lia|discriminate]).
  destruct b; apply supp_choose in H as [[_ H]|(i & Hi & H)]; try contradiction; unfold ids in Hi; apply in_seq in Hi.
  - unfold gibbsish_shrink_at in H. destruct (Nat.eqb_spec (size (nth i (x_clusters x) [])) (e_min e)) as [|Hne]; [apply supp_ret in H; discriminate|].
    destruct (@posteriors_inner (x_clusters x) i) as (post & Ep & L & F). rewrite Ep in H. apply supp_choose_p in H as [[_ H]|(l & a & q & _ & _ & _ & H)].
    2:{ eapply finish_no_fail; eauto. }
    assert (Hin : In (nth i (x_clusters x) []) (x_clusters x)) by (apply nth_In; lia).
    assert (Hlen : length (nth i (x_clusters x) []) = n_objects e) by (rewrite Forall_forall in S2; auto).
    assert (Hex : exists o, nth_error (nth i (x_clusters x) []) o = Some true).
    { unfold sizes_in in Hz. rewrite Forall_forall in Hz. specialize (Hz _ Hin). rewrite <- size_count in Hz.
      destruct (nonzero (nth i (x_clusters x) [])) as [|o r] eqn:En; [pose proof (nonzero_length (nth i (x_clusters x) [])) as N; rewrite En in N; cbn [length] in N; lia|].
      exists o. apply in_nonzero. rewrite En. left; auto. }
    destruct Hex as [o Ho]. unfold p_remove in H.
    destruct (@bmask_pos (map (fun q => 1 - q) post) (nth i (x_clusters x) []) o) as [l El]; auto; [| |congruence].
    + apply Forall_map. eapply Forall_impl; [|exact F]. cbv beta. intros q Hq. lra.
    + rewrite map_length. lia.
  - unfold gibbsish_grow_at in H. destruct (existsb _ _) eqn:Ex; cbn [negb] in H; [|apply supp_ret in H; discriminate].
    destruct (Nat.eqb _ _); [apply supp_ret in H; discriminate|].
    destruct (@posteriors_inner (x_clusters x) i) as (post & Ep & L & F). rewrite Ep in H. apply supp_choose_p in H as [[_ H]|(l & a & q & _ & _ & _ & H)].
    2:{ eapply finish_no_fail; eauto. }
    apply existsb_exists in Ex as (t & Hin & ->). apply In_nth_error in Hin as (o & Ho).
    destruct (@bmask_pos post (bnot (any_cluster (n_objects e) (x_clusters x))) o) as [l El]; auto; [| |unfold p_add in H; congruence].
    + eapply Forall_impl; [|exact F]. cbv beta. intros q Hq. lra.
    + unfold bnot. rewrite map_length, any_length. lia.
Qed.
Lemma gibbsish2_no_fail k x : (0 < k)%nat -> length (x_clusters x) = k -> ~ supp (gibbsish2 e x) Fail.
Proof.
  intros Hk S1 H. unfold gibbsish2 in H. apply supp_choose in H as [[_ H]|(i & _ & H)]; [unfold ids in H; rewrite S1 in H; destruct k; [lia|discriminate]|].
  unfold gibbsish2_at in H. cbv zeta in H. apply supp_bind in H as (new & _ & H).
  destruct (negb _); [apply supp_ret in H; discriminate|]. destruct (forallb _ _); [apply supp_ret in H; discriminate|]. eapply finish_no_fail; eauto.
Qed.
Lemma source_no_fail x : x_source x <> None -> ~ supp (gibbs_source e x) Fail.
Proof.
  intros Hx H. unfold gibbs_source in H. destruct (x_source x); [|contradiction]. cbv zeta in H.
  apply supp_bind in H as (rows & _ & H). apply supp_ret in H. discriminate.
Qed.
Lemma alter_no_fail k x : e_resample e = false -> (0 < k)%nat -> length (x_clusters x) = k -> ~ supp (alter_cluster e x) Fail.
Proof.
  intros Hr Hk S1 H. unfold alter_cluster in H. apply supp_bind in H as (b & _ & H).
  assert (Hids : ids x <> []) by (unfold ids; rewrite S1; destruct k; [lia|discriminate]).
  assert (Hfin : forall must cl objs q qb, ~ supp (finish e must x cl objs q qb) Fail).
  { intros must cl objs q qb Hf. unfold finish in Hf. rewrite Hr in Hf. apply supp_ret in Hf. discriminate. }
  destruct b; apply supp_choose in H as [[_ H]|(i & _ & H)]; try contradiction.
  - unfold shrink_at in H. cbv zeta in H. destruct (Nat.leb_spec (size (nth i (x_clusters x) [])) (e_min e)) as [|Hs]; [apply supp_ret in H; discriminate|].
    apply supp_choose in H as [[_ H]|(a & _ & H)]; [|eapply Hfin; eauto].
    pose proof (nonzero_length (nth i (x_clusters x) [])) as N. rewrite H in N. cbn [length] in N. lia.
  - unfold grow_at in H. cbv zeta in H. destruct (Nat.leb _ _); [apply supp_ret in H; discriminate|].
    apply supp_bind in H as (c & _ & H). destruct (existsb _ _) eqn:Ex; cbn [negb] in H; [|apply supp_ret in H; discriminate].
    apply supp_choose in H as [[_ H]|(a & _ & H)]; [|eapply Hfin; eauto].
    apply existsb_exists in Ex as (t & Hin & ->). apply In_nth_error in Hin as (o & Ho). apply in_nonzero in Ho. rewrite H in Ho. destruct Ho.
Qed.
End Posterior.

(** * Progress *)
Lemma n_true_nonzero app : length (nonzero app) = n_true app.
Proof. rewrite nonzero_length, size_count. reflexivity. Qed.
Lemma no_exception su s k : complete_setup su -> positive_sample su s -> In k (operators su) -> ~ may_raise su s k.
Proof.
  intros C Hs Hk. pose proof (env_positive C Hs) as P. destruct C as [V [Hnf _] [Hc1 Hc2] _ Hst]. destruct Hs as [[S1 S2 S3 S4 S5 S6 S7] _].
  assert (Hk0 := va_k V). assert (Hnc : (2 <= su_nc su)%nat) by (unfold su_nc; destruct (su_conf su); [contradiction|simpl; lia]).
  assert (Hgr : forall which, (which = None \/ exists i, which = Some i /\ (i < length (su_conf su))%nat) -> n_groups su which <> 0%nat).
  { intros which [->|(i & -> & Hi)]; cbn [n_groups]; [lia|]. rewrite Forall_forall in Hc2. destruct (Hc2 (nth i (su_conf su) [])) as [A _]; [apply nth_In; auto|].
    destruct (nth i (su_conf su) []); [contradiction|discriminate]. }
  assert (Hsh : cluster_shape (su_k su) (n_objects (env_of su (fs_params s))) (x_clusters (fs_cstate s))) by exact S1.
  unfold operators in Hk. destruct (su_source su) eqn:Es.
  - destruct (fs_source s) as [src|] eqn:Ef; [|discriminate]. 
    apply in_app_or in Hk as [Hk|Hk].
    + destruct Hk as [<-|[<-|[<-|[<-|[<-|[]]]]]]; cbn [may_raise].
      * apply gibbsish_no_fail with (su_k su); auto.
      * apply gibbsish2_no_fail with (su_k su); auto. apply Hsh.
      * apply source_no_fail. cbn [fs_cstate x_source]. rewrite Ef. discriminate.
      * intros [H|H]; [congruence|lia].
      * intros [H|[_ H]]; [apply (Hgr None); auto|congruence].
    + apply in_mapi in Hk as (i & g & Hi & ->). cbn [may_raise]. intros [H|[_ H]]; [|congruence].
      apply (Hgr (Some i)); auto. right. exists i. split; auto. apply nth_error_Some. congruence.
  - specialize (Hst eq_refl). assert (Htwo : ~ exists app, In app (su_applicable su) /\ sample_two app = None).
    { intros (app & Hin & H). rewrite Forall_forall in Hst. specialize (Hst _ Hin). unfold sample_two in H. cbv zeta in H. rewrite n_true_nonzero in H.
      destruct (Nat.ltb_spec (n_true app) 2); [lia|discriminate]. }
    apply in_app_or in Hk as [Hk|Hk].
    + destruct Hk as [<-|[<-|[<-|[]]]]; cbn [may_raise].
      * apply alter_no_fail with (su_k su); auto. apply Hsh.
      * intros [H|H]; lia.
      * intros [H|[H|H]]; [apply (Hgr None); auto|lia|auto].
    + apply in_mapi in Hk as (i & g & Hi & ->). cbn [may_raise]. intros [H|[H|H]]; [|lia|auto].
      apply (Hgr (Some i)); auto. right. exists i. split; auto. apply nth_error_Some. congruence.
Qed.

(** * Operators keep the parameters positive *)
Lemma set2_pos i j a b v : Forall (fun q => 0 < q) v -> 0 < a -> 0 < b -> Forall (fun q => 0 < q) (set2 i j a b v).
Proof. intros H Ha Hb. unfold set2. apply L_params.Forall_upd; auto. apply L_params.Forall_upd; auto. Qed.
Lemma draw2_pos d : dirichlet_draw 2 d -> Forall (fun q => 0 < q) d -> 0 < nth 0 d 0 /\ 0 < nth 1 d 0.
Proof.
  intros D F. apply draw2 in D as (a & b & -> & _). inversion F as [|? ? F1 F2]; subst. inversion F2; subst. cbn. auto.
Qed.
Lemma Qsum_positive v : v <> [] -> Forall (fun q => 0 < q) v -> 0 < Qsum v.
Proof.
  intros Hv F. destruct F as [|q v Hq F]; [contradiction|]. rewrite L_params.Qsum_cons.
  assert (0 <= Qsum v) by (apply Qsum_nonneg; eapply Forall_impl; [|exact F]; cbv beta; intros; lra). lra.
Qed.
Lemma normalize_pos v u : Forall (fun q => 0 < q) v -> M_operators.normalize v = Some u -> Forall (fun q => 0 < q) u.
Proof.
  intros F H. apply normalize_inv in H as [-> H0]. destruct v as [|q v]; [constructor|].
  assert (P : 0 < Qsum (q :: v)) by (apply Qsum_positive; [discriminate|exact F]).
  apply Forall_map. eapply Forall_impl; [|exact F]. cbv beta. intros x Hx. apply Qlt_shift_div_l; lra.
Qed.
Lemma gibbs_weights_pos i j d w : (i < length w)%nat -> (j < length w)%nat -> Forall (fun q => 0 < q) w -> 0 < fst d < 1 ->
  Forall (fun q => 0 < q) (gibbs_weights_row i j d w).
Proof.
  intros Hi Hj F Hd. unfold gibbs_weights_row, resample_row. cbv zeta. destruct (M_operators.normalize _) as [u|] eqn:E; auto. destruct (snd d); auto.
  assert (P : forall i, (i < length w)%nat -> 0 < nth i w 0) by (intros k Hk; rewrite Forall_forall in F; apply F, nth_In, Hk).
  pose proof (P i Hi). pose proof (P j Hj).
  eapply normalize_pos; [|exact E]. apply set2_pos; auto; apply Qmult_lt_0_compat; lra.
Qed.
Lemma scatter_pos app : forall row draw, length row = length app -> length draw = n_true app -> Forall (fun q => 0 < q) draw ->
  pos_on app (scatter_q app row draw).
Proof.
  unfold n_true. induction app as [|[] app IH]; intros [|x row] draw L1 L2 F; try discriminate; intros s Hs; cbn [scatter_q count_occ] in *;
    repeat match type of L2 with context [if ?b then _ else _] => destruct b; try congruence end.
  - destruct s; discriminate.
  - destruct draw as [|d draw]; [discriminate|]. inversion F; subst. destruct s as [|s]; [exact H1|]. apply (IH row draw); auto.
  - destruct s as [|s]; [discriminate|]. apply (IH row draw); auto.
Qed.
Lemma gibbs_effect_pos applicable p draws : effect_ok applicable p -> Forall2 (fun app d => dirichlet_draw (n_true app) d) applicable draws ->
  Forall (Forall (fun q => 0 < q)) draws -> pos_effect applicable (gibbs_effect applicable p draws).
Proof.
  unfold pos_effect. intros H; revert draws. induction H as [|app row l l' [L _] H IH]; intros draws Hd F; inversion Hd as [|? d ? draws' H1 H2]; subst; cbn [gibbs_effect]; constructor.
  - inversion F; subst. apply scatter_pos; auto. apply H1.
  - inversion F; subst. apply IH; auto.
Qed.
Lemma edit_pos m applicable which g h p : params_ok m applicable p -> positive_params applicable p ->
  (forall e, effect_ok applicable e -> pos_effect applicable e -> get_effect which g p = e -> pos_effect applicable (h e)) ->
  positive_params applicable (edit_effect which g h p).
Proof.
  intros (_ & _ & O3 & O4) (P1 & P2 & P3) Hh. unfold positive_params. destruct which as [k|]; cbn [edit_effect p_weights p_ce p_cf get_effect] in *; conj; auto.
  - apply L_params.Forall_upd; auto. intros es Hes. rewrite (nth_error_nth _ _ [] Hes) in Hh. rewrite Forall_forall in O4, P3.
    assert (Hin : In es (p_cf p)) by (eapply nth_error_In; eauto). specialize (O4 _ Hin). specialize (P3 _ Hin). apply L_params.Forall_upd; auto.
    intros e He. rewrite Forall_forall in O4, P3. assert (In e es) by (eapply nth_error_In; eauto). apply Hh; auto. exact (nth_error_nth _ _ [] He).
  - apply L_params.Forall_upd; auto. intros e He. rewrite Forall_forall in O3, P2.
    assert (In e (p_ce p)) by (eapply nth_error_In; eauto). apply Hh; auto. exact (nth_error_nth _ _ [] He).
Qed.
Lemma propose_positive m applicable op p p' : params_ok m applicable p -> positive_params applicable p -> draws_ok m applicable op -> interior op ->
  propose_params applicable op p = Some p' -> positive_params applicable p'.
Proof.
  intros O P D I H. destruct op as [f i j draw|i j draws|which g f i j draw|which g draws]; cbn [propose_params draws_ok interior] in *.
  - destruct (alter_pair _ _ _ _ _ _) as [[[row q] qb]|] eqn:E; [|discriminate]. cbn [option_map] in H. injection H as <-.
    apply alter_pair_inv in E as (E0 & d & -> & -> & _). destruct D as (D1 & D2 & D3 & D4 & D5). cbn [opt_draw] in D5. destruct (draw2_pos D5 I) as [I1 I2].
    destruct P as (P1 & P2 & P3). unfold positive_params. cbn [p_weights p_ce p_cf]. conj; auto. apply L_params.Forall_upd; auto.
    intros w Hw. rewrite (nth_error_nth _ _ [] Hw). destruct O as (_ & O2 & _). rewrite Forall_forall in P1, O2. assert (Hin : In w (p_weights p)) by (eapply nth_error_In; eauto).
    specialize (P1 _ Hin). destruct (O2 _ Hin) as [O2' _]. rewrite Forall_forall in P1.
    assert (0 < nth i w 0) by (apply P1, nth_In; lia). assert (0 < nth j w 0) by (apply P1, nth_In; lia).
    assert (0 < Qsum [nth i w 0; nth j w 0]) by (rewrite Qsum2; lra).
    apply set2_pos; [apply Forall_forall; exact P1| |]; apply Qmult_lt_0_compat; auto.
  - injection H as <-. destruct D as (D1 & D2 & D3 & D4 & D5). destruct P as (P1 & P2 & P3). destruct O as (_ & O2 & _). unfold positive_params. cbn [p_weights p_ce p_cf]. conj; auto.
    clear -D1 D2 P1 O2 I. revert draws I. induction (p_weights p) as [|w ws IH]; intros [|d draws] I; cbn [map2]; constructor.
    + inversion P1; inversion O2 as [|? ? [L _] ?]; inversion I; subst. apply gibbs_weights_pos; auto.
    + inversion P1; inversion O2; inversion I; subst. apply IH; auto.
  - destruct (alter_pair _ _ _ _ _ _) as [[[row q] qb]|] eqn:E; [|discriminate]. cbn [option_map] in H. injection H as <-.
    apply alter_pair_inv in E as (E0 & d & -> & -> & _). destruct D as (D1 & D2 & D3 & D4 & D5). cbn [opt_draw] in D5. destruct (draw2_pos D5 I) as [I1 I2].
    apply (edit_pos O); auto. intros e He Hp Heq. rewrite Heq. unfold pos_effect. apply Forall2_upd; auto.
    intros app Happ. destruct (Forall2_nth Hp Happ) as (r & Hr & Pr). destruct (Forall2_nth He Happ) as (r' & Hr' & Lr & _). assert (r' = r) by congruence. subst r'.
    rewrite (nth_error_nth _ _ [] Hr). rewrite (nth_error_nth _ _ [] Happ) in D2, D3.
    assert (Hi : 0 < nth i r 0) by (apply Pr; auto). assert (Hj : 0 < nth j r 0) by (apply Pr; auto).
    assert (Hs : 0 < Qsum [nth i r 0; nth j r 0]) by (rewrite Qsum2; lra).
    assert (B : forall s, nth s app false = true -> (s < length r)%nat).
    { intros s Hs'. rewrite Lr. destruct (Nat.lt_ge_cases s (length app)); auto. rewrite nth_overflow in Hs' by auto. discriminate. }
    intros s Hs'. destruct (Nat.eq_dec s j) as [->|Nj]; [rewrite set2_j by auto; apply Qmult_lt_0_compat; auto|].
    destruct (Nat.eq_dec s i) as [->|Ni]; [rewrite set2_i by auto; apply Qmult_lt_0_compat; auto|]. rewrite set2_other by auto. auto.
  - injection H as <-. apply (edit_pos O); auto. intros e He Hp _. apply gibbs_effect_pos; auto.
Qed.
Lemma proposal_positive su s k r : positive_sample su s -> proposal_int su s k r -> positive_sample su (res_content s r).
Proof.
  intros [V P] H.
  assert (W : proposal su s k r) by (destruct H; auto; econstructor; eauto). split; [eapply proposal_valid; eauto|].
  destruct H as [k r H Hk|i j draws p D I H|which g draws p D I H|f i j draw p q qb D I H|which g f i j draw p q qb D I H| |which]; cbn [res_content with_params fs_params];
    try (eapply propose_positive; [apply V| | | |]; eassumption); auto.
  destruct H as [out r _ Hr|out r _ Hr|out r _ Hr|out r _ Hr| | | | | |]; try (destruct Hk as [Hk|[Hk|[Hk|[Hk|[]]]]]; discriminate);
    destruct out; cbn [cluster_result source_result] in Hr; try discriminate; injection Hr as <-; exact P.
Qed.

(** * Initial samples are positive *)
Lemma initial_effect_pos features applicable group e : observed_applicable features applicable -> Forall (fun app => In true app) applicable ->
  all_some (initial_effect features group applicable) = Some e -> pos_effect applicable e.
Proof.
  intros Ho Hs H. apply all_some_spec in H.
  assert (L : length e = length applicable).
  { rewrite <- (map_length Some e), <- H. unfold initial_effect. apply mapi_length. }
  assert (G : forall f app v, nth_error applicable f = Some app -> nth_error e f = Some v -> pos_on app v).
  { intros f app v Hf Hv. rewrite Forall_forall in Hs.
    destruct (@initial_effect_spec features group applicable f app Ho Hf (Hs _ (nth_error_In _ _ Hf))) as (v' & Hv' & S1 & S2 & S3).
    rewrite H, nth_error_map, Hv in Hv'. cbn [option_map] in Hv'. injection Hv' as <-. intros s Hsf.
    destruct (nth_error app s) as [a|] eqn:Ea; [|apply nth_error_None in Ea; rewrite nth_overflow in Hsf by auto; discriminate].
    rewrite (nth_error_nth _ _ false Ea) in Hsf. subst a.
    destruct (nth_error v s) as [q|] eqn:Eq; [|apply nth_error_None in Eq; assert (s < length app)%nat by (apply nth_error_Some; congruence); lia].
    rewrite (nth_error_nth _ _ 0 Eq). exact (S3 s q true Eq Ea). }
  clear -L G. unfold pos_effect. revert e L G. induction applicable as [|app l IH]; intros [|v e] L G; try discriminate; constructor.
  - apply (G 0%nat); reflexivity.
  - apply IH; [simpl in L; lia|]. intros f. apply (G (S f)).
Qed.
Lemma starts_positive_k su k' prev s : valid_setup su -> match prev with None => True | Some p => positive_sample (with_k su k') p end ->
  starts su prev s -> positive_sample su s.
Proof.
  intros V Hp H. assert (Hv : match prev with None => True | Some p => valid_sample (with_k su k') p end).
  { destruct prev as [p|]; auto. apply Hp. }
  pose proof (starts_valid V Hv H) as [VS _]. split; auto.
  destruct H as (rnd & fuel & junk & d & Hj & H & Hs). unfold generate_initial_sample in H.
  destruct (generate_initial_clusters _ _ _ _ _ _ _) as [[cl|st|]|] eqn:Ec; try discriminate.
  destruct (generate_initial_weights su prev) as [w|] eqn:Ew; [|discriminate].
  destruct (generate_initial_cluster_effect su prev cl) as [ce|] eqn:Ee; [|discriminate].
  destruct (generate_initial_confounding_effects su prev) as [cf|] eqn:Ef; [|discriminate].
  destruct (initial_cf_ok V Hv Ef) as (F1 & F2 & F3).
  set (p := {| p_weights := w; p_ce := ce; p_cf := cf |}) in *.
  assert (Hd : fs_params s = p).
  { injection H as <-. destruct (su_source su).
    - apply supp_bind in Hs as (out & Ho & Hs). destruct out as [|y q qb|]; [destruct Hs as (? & [] & _)| |destruct Hs as (? & [] & _)].
      apply supp_ret in Hs. subst s. reflexivity.
    - apply supp_ret in Hs. subst s. reflexivity. }
  rewrite Hd. unfold positive_params, p. cbn [p_weights p_ce p_cf]. conj.
  - unfold generate_initial_weights in Ew. eapply all_some_Forall; [exact Ew|]. intros x Hx. apply in_map_iff in Hx as (r & Hr & Hin).
    eapply normalize_pos; [|exact Hr]. destruct prev as [q|].
    + destruct Hp as [_ (P1 & _)]. rewrite Forall_forall in P1. auto.
    + apply repeat_spec in Hin. subst r. apply Forall_forall. intros q Hq. apply repeat_spec in Hq. subst q. lra.
  - unfold generate_initial_cluster_effect in Ee. cbv zeta in Ee. destruct (_ <? _)%nat; [discriminate|]. destruct (all_some _) as [new|] eqn:E; [|discriminate]. cbn [option_map] in Ee.
    injection Ee as <-. apply Forall_app. split.
    + destruct prev as [q|]; [|constructor]. destruct Hp as [_ (_ & P2 & _)]. exact P2.
    + eapply all_some_Forall; [exact E|]. intros e He. apply in_map_iff in He as (i & He & _). destruct V. eapply initial_effect_pos; eauto.
  - destruct prev as [q|].
    + rewrite F3. destruct Hp as [_ (_ & _ & P3)]. exact P3.
    + unfold generate_initial_confounding_effects in Ef. eapply all_some_Forall; [exact Ef|]. intros es He. apply in_map_iff in He as (gs & He & _). cbn [generate_initial_confounding_effect] in He.
      eapply all_some_Forall; [exact He|]. intros e Hin. apply in_map_iff in Hin as (g & Hg & _). destruct V. eapply initial_effect_pos; eauto.
Qed.
Lemma starts_positive su prev s : valid_setup su -> match prev with None => True | Some p => positive_sample su p end ->
  starts su prev s -> positive_sample su s.
Proof. intros V Hp. apply starts_positive_k with (k' := su_k su); auto. destruct prev as [p|]; auto. destruct su; exact Hp. Qed.
Lemma run_positive su ll pr n_ops ss n draws sm : Forall (positive_sample su) ss ->
  drawn_int su ll pr (init_sampler ll pr (su_from_prior su) n_ops ss) n draws ->
  forall i, (i <= n)%nat -> after ll pr (su_from_prior su) draws (init_sampler ll pr (su_from_prior su) n_ops ss) i = Ok sm ->
  Forall (fun ch => positive_sample su (content (c_obj ch))) (chains sm).
Proof.
  intros H0 Hd i Hi Ha. eapply (@after_inv fsample (positive_sample su)); [| |exact Ha].
  - cbn [init_sampler chains]. apply Forall_map. eapply Forall_impl; [|exact H0]. intros s Hs. exact Hs.
  - intros j c sm' ch Hj Ha' Hn Hv. destruct (Hd j c sm' ch) as (k & _ & Hp); auto; [lia|]. eapply proposal_positive; eauto.
Qed.
