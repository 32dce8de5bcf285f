(** Lemmas for C95: detailed balance of the Gibbs operators, and the moves back. *)
From Coq Require Import Lra.
From Verif Require Import M_source M_conj M_gweights S_model S_operators S_source S_params S_mcmc S_honest S_gsource S_ergodic S_collapsed
  S_sampler S_progress P_conj P_gweights L_model L_operators L_source L_params L_balance L_honest L_honest2 L_gsource L_gsource2 L_collapsed L_sampler L_progress P_honest P_gsource S_joint L_joint L_joint2.
From Coq Require Lqa.
Set Implicit Arguments.
Unset Strict Implicit.
Open Scope R_scope.

(** * Updates *)
Lemma upd_const A (h : A -> A) (d : A) l : forall i, upd i h l = upd i (fun _ => h (nth i l d)) l.
Proof. induction l as [|x l IH]; intros [|i]; simpl; auto. f_equal. apply IH. Qed.
Lemma upd_same A (d : A) l : forall i, upd i (fun _ => nth i l d) l = l.
Proof. induction l as [|x l IH]; intros [|i]; simpl; auto. f_equal. apply IH. Qed.
Lemma nth_upd_at A (h : A -> A) (d : A) l : forall i, (i < length l)%nat -> nth i (upd i h l) d = h (nth i l d).
Proof. induction l as [|x l IH]; intros [|i] Hi; simpl in *; try lia; auto. apply IH. lia. Qed.
Lemma upd_upd A (h h' : A -> A) l : forall i, upd i h' (upd i h l) = upd i (fun x => h' (h x)) l.
Proof. induction l as [|x l IH]; intros [|i]; simpl; auto. f_equal. apply IH. Qed.
Lemma upd_rel A (R : A -> A -> Prop) (h : A -> A) (d : A) l : (forall x, R x x) -> forall i, R (h (nth i l d)) (nth i l d) -> Forall2 R (upd i h l) l.
Proof.
  intros Hr. assert (F : forall l, Forall2 R l l) by (induction l0; constructor; auto).
  induction l as [|x l IH]; intros [|i] H; simpl in *; constructor; auto.
Qed.
Lemma upd_sum A (F : nat -> A -> R) (h : A -> A) (d : A) l : forall i, (i < length l)%nat ->
  M_conj.Rsum (mapi F (upd i h l)) = M_conj.Rsum (mapi F l) - F i (nth i l d) + F i (h (nth i l d)).
Proof.
  unfold mapi. assert (G : forall k i, (i < length l)%nat ->
    M_conj.Rsum (mapi_from k F (upd i h l)) = M_conj.Rsum (mapi_from k F l) - F (k + i)%nat (nth i l d) + F (k + i)%nat (h (nth i l d))).
  { induction l as [|x l IH]; intros k [|i] Hi; simpl in *; try lia.
    - rewrite Nat.add_0_r. lra.
    - rewrite IH by lia. replace (Datatypes.S k + i)%nat with (k + Datatypes.S i)%nat by lia. lra. }
  intros i Hi. apply (G 0%nat). auto.
Qed.
Definition effect_list (which : option nat) (p : params) : list effect := match which with None => p_ce p | Some k => nth k (p_cf p) [] end.
Lemma edit_edit which g h h' p : edit_effect which g h' (edit_effect which g h p) = edit_effect which g (fun x => h' (h x)) p.
Proof.
  destruct which as [k|]; unfold edit_effect; cbn [p_weights p_ce p_cf]; f_equal; [|apply upd_upd]. rewrite upd_upd.
  revert k. induction (p_cf p) as [|x l IH]; intros [|k]; simpl; f_equal; auto. apply upd_upd.
Qed.
Lemma get_edit which g h p : (g < length (effect_list which p))%nat -> get_effect which g (edit_effect which g h p) = h (get_effect which g p).
Proof.
  destruct which as [k|]; unfold edit_effect, get_effect, effect_list; cbn [p_ce p_cf]; intros H; [|apply nth_upd_at; auto].
  rewrite nth_upd_at; [apply nth_upd_at; auto|]. destruct (Nat.lt_ge_cases k (length (p_cf p))); auto. rewrite (nth_overflow (p_cf p)) in H by auto. simpl in H. lia.
Qed.
Lemma edit_length which g h p : length (effect_list which (edit_effect which g h p)) = length (effect_list which p).
Proof.
  destruct which as [k|]; unfold edit_effect, effect_list; cbn [p_ce p_cf]; [|apply upd_length].
  destruct (Nat.lt_ge_cases k (length (p_cf p))); [rewrite nth_upd_at by auto; apply upd_length|]. rewrite upd_out by auto. reflexivity.
Qed.
Lemma vec2_refl (q : list (list Q)) : Forall2 vec_eq q q.
Proof. induction q; constructor; auto. apply vec_eq_rfl. Qed.
Lemma vec3_refl (q : list (list (list Q))) : Forall2 (Forall2 vec_eq) q q.
Proof. induction q; constructor; auto. apply vec2_refl. Qed.
Lemma vec4_refl (q : list (list (list (list Q)))) : Forall2 (Forall2 (Forall2 vec_eq)) q q.
Proof. induction q; constructor; auto. apply vec3_refl. Qed.
Lemma edit_same which g h p : Forall2 vec_eq (h (get_effect which g p)) (get_effect which g p) -> same_params (edit_effect which g h p) p.
Proof.
  intros H. destruct which as [k|]; unfold edit_effect, get_effect, same_params in *; cbn [p_weights p_ce p_cf]; conj; auto using vec2_refl, vec3_refl, vec4_refl.
  - apply (@upd_rel _ (Forall2 (Forall2 vec_eq)) _ []); [apply vec3_refl|]. apply (@upd_rel _ (Forall2 vec_eq) _ []); [apply vec2_refl|]. exact H.
  - apply (@upd_rel _ (Forall2 vec_eq) _ []); [apply vec2_refl|]. exact H.
Qed.
Lemma env_edit su which g h p : env_of su (edit_effect which g h p) = with_effect (env_of su p) which g (h (get_effect which g p)).
Proof.
  destruct which as [k|]; unfold edit_effect, get_effect, env_of, with_effect;
    cbn [p_weights p_ce p_cf e_features e_nf e_conf e_weights e_ce e_cf e_adj e_pconn e_min e_max e_resample e_from_prior]; f_equal; [|apply upd_const].
  assert (G : forall l k, upd k (upd g h) l = upd k (upd g (fun _ => h (nth g (nth k l []) []))) l).
  { induction l as [|x l IH]; intros [|j]; simpl; auto; f_equal; auto. apply upd_const. }
  apply G.
Qed.

(** * Sources with a positive prior are available *)
Lemma masked_zero (w : list Q) (h : list bool) row c : normalize_row w h = Some row -> nth c h false = false -> (nth c row 0 == 0)%Q.
Proof.
  unfold normalize_row. cbv zeta. destruct (Qeq_bool _ 0); [discriminate|]. intros [= <-]. generalize (Qsum (map2 (fun q (b : bool) => if b then q else 0%Q) w h)). intros t. clear.
  revert h c. induction w as [|x w IH]; intros [|b h] [|c] H; cbn [map2 map nth] in *; try reflexivity; subst.
  - unfold Qdiv. ring.
  - apply IH. exact H.
Qed.
Lemma positions_set src o f c : In (o, f, c) (source_positions src) <-> nth c (nth f (nth o src []) []) false = true.
Proof.
  unfold source_positions. split.
  - intros H. apply in_concat in H as (l1 & Hl1 & H). rewrite (mapi_seq _ []) in Hl1. apply in_map_iff in Hl1 as (o' & <- & _).
    apply in_concat in H as (l2 & Hl2 & H). rewrite (mapi_seq _ []) in Hl2. apply in_map_iff in Hl2 as (f' & <- & _).
    apply in_concat in H as (l3 & Hl3 & H). rewrite (mapi_seq _ false) in Hl3. apply in_map_iff in Hl3 as (c1 & <- & _).
    destruct (nth c1 _ false) eqn:Eb; [|destruct H]. destruct H as [[= <- <- <-]|[]]. auto.
  - intros H. assert (Hc : (c < length (nth f (nth o src []) []))%nat) by (destruct (Nat.lt_ge_cases c (length (nth f (nth o src []) []))); auto; rewrite nth_overflow in H by auto; discriminate).
    assert (Hf : (f < length (nth o src []))%nat) by (destruct (Nat.lt_ge_cases f (length (nth o src []))); auto; rewrite (nth_overflow (nth o src [])) in Hc by auto; simpl in Hc; lia).
    assert (Ho : (o < length src)%nat) by (destruct (Nat.lt_ge_cases o (length src)); auto; rewrite (nth_overflow src) in Hf by auto; simpl in Hf; lia).
    apply in_concat. eexists. split; [rewrite (mapi_seq _ []); apply in_map; apply in_seq; split; [lia|exact Ho]|].
    apply in_concat. eexists. split; [rewrite (mapi_seq _ []); apply in_map; apply in_seq; split; [lia|exact Hf]|].
    apply in_concat. eexists. split; [rewrite (mapi_seq _ false); apply in_map; apply in_seq; split; [lia|exact Hc]|]. cbv beta. rewrite H. left. reflexivity.
Qed.
Lemma oprod_factor l q : oprod l = Some q -> ~ (q == 0)%Q -> forall v, In v l -> exists a, v = Some a /\ ~ (a == 0)%Q.
Proof.
  unfold oprod. revert q. induction l as [|[a|] l IH]; intros q H Hq v Hv; [destruct Hv| |simpl in H; discriminate]. simpl in H.
  destruct (S_model.all_some l) as [l'|] eqn:E; simpl in H; try discriminate. injection H as <-. destruct Hv as [<-|Hv].
  - exists a. split; auto. intros Ha. apply Hq. unfold Qprod. cbn [fold_right]. rewrite Ha. ring.
  - apply (IH (Qprod l')); auto. intros H0. apply Hq. unfold Qprod in *. cbn [fold_right]. rewrite H0. ring.
Qed.
Lemma density_admissible su p cl src : valid_source (su_n su) (su_nf su) (su_nc su) src -> length (p_weights p) = su_nf su ->
  ~ (source_density (env_of su p) {| x_clusters := cl; x_source := Some src |} == 0)%Q ->
  admissible_source (su_nf su) (su_nc su) (has_components cl (su_conf su) (su_n su)) src.
Proof.
  intros V LW H. set (has := has_components cl (su_conf su) (su_n su)).
  assert (HL : length has = su_n su) by (unfold has, has_components; rewrite map_length, seq_length; reflexivity).
  assert (HO : exists a, oprod (source_weights (normalize_weights (p_weights p) has) src) = Some a /\ ~ (a == 0)%Q).
  { unfold source_density in H. cbn [x_source x_clusters e_from_prior env_of] in H. unfold state_weights in H. cbn [e_weights e_conf env_of] in H.
    change (n_objects (env_of su p)) with (su_n su) in H. fold has in H. unfold joint in H. destruct (su_from_prior su), (oprod (source_weights _ _)) as [a|]; try (exfalso; apply H; reflexivity).
    - eauto.
    - destruct (oprod (source_lhs _ _)) as [b|]; [|exfalso; apply H; reflexivity]. exists a. split; auto. intros Ha. apply H. rewrite Ha. ring. }
  destruct HO as (a & HO & Ha). split; [rewrite HL; exact V|]. split.
  - apply Forall_forall. intros h Hh. unfold has, has_components in Hh. apply in_map_iff in Hh as (o & <- & _). rewrite map_length. reflexivity.
  - intros o f c Hc. apply positions_set in Hc as Hin.
    assert (Hb : (o < su_n su)%nat /\ (f < su_nf su)%nat) by (eapply in_positions; eauto). destruct Hb as [Ho Hf].
    destruct (oprod_factor HO Ha) with (v := match nth f (nth o (normalize_weights (p_weights p) has) []) None with None => None | Some w => Some (nth c w 0%Q) end) as (b & Hb & Hb0).
    { unfold source_weights. apply in_map_iff. exists (o, f, c). auto. }
    rewrite normalized_at in Hb by lia. destruct (normalize_row (nth f (p_weights p) []) (nth o has [])) as [row|] eqn:E; [|discriminate]. injection Hb as <-.
    destruct (nth c (nth o has []) false) eqn:Eh; auto. exfalso. apply Hb0. eapply masked_zero; eauto.
Qed.

(** * Weights *)
Lemma gibbs_weights_pick nf nc i j draws W : weight_matrix nf nc W -> (i < nc)%nat -> (j < nc)%nat -> i <> j -> length draws = nf ->
  Forall (fun d => 0 < fst d < 1)%Q draws ->
  map2 (gibbs_weights_row i j) draws W = pick_rows (map snd draws) (new_weights i j (map fst draws) W) W.
Proof.
  intros HW Hi Hj Hij Hl Hd. destruct HW as [LW HW']. assert (HW : weight_matrix nf nc W) by (split; auto).
  assert (D : draws_in nf (map fst draws)) by (split; [rewrite map_length; auto|rewrite Forall_map; exact Hd]).
  apply nth_error_ext. intros f. rewrite nth_error_map2. unfold pick_rows. rewrite nth_error_mapi.
  destruct (nth_error W f) as [w|] eqn:Ew; [|destruct (nth_error draws f); reflexivity].
  assert (Hf : (f < nf)%nat) by (apply nth_error_Some_lt in Ew; lia). destruct (nth_error draws f) as [d|] eqn:Ed; [|apply nth_error_None in Ed; lia].
  cbn [option_map]. f_equal. destruct (@new_row nf nc i j Hi Hj Hij _ _ f HW D Hf) as [E _].
  rewrite (nth_error_nth W f [] Ew) in E. assert (Ef : nth f (map fst draws) 0%Q = fst d) by (apply nth_error_nth; rewrite nth_error_map, Ed; reflexivity).
  assert (Es : nth f (map snd draws) false = snd d) by (apply nth_error_nth; rewrite nth_error_map, Ed; reflexivity).
  rewrite Ef in E. unfold gibbs_weights_row. rewrite E, Es. reflexivity.
Qed.
Definition ones (no nf nc : nat) : list lhmat := repeat (repeat (repeat 1%Q nf) no) nc.
Lemma ones_prod no nf nc src : valid_source no nf nc src -> exists q, oprod (source_lhs (ones no nf nc) src) = Some q /\ (q == 1)%Q.
Proof.
  intros V. unfold oprod, source_lhs. rewrite (@L_model.all_some_map _ _ _ (fun t => match t with (o, f, c) => lh_at (ones no nf nc) o f c end)) by (intros [[o f] c] _; reflexivity).
  eexists. split; [reflexivity|]. assert (G : forall t, In t (source_positions src) -> match t with (o, f, c) => lh_at (ones no nf nc) o f c end = 1%Q).
  { intros [[o f] c] H. destruct (in_positions V H) as [Ho Hf]. apply positions_set in H. destruct V as [Vl V]. rewrite Forall_forall in V.
    destruct (V (nth o src [])) as [V1 V2]; [apply nth_In; lia|]. rewrite Forall_forall in V2. destruct (V2 (nth f (nth o src []) [])) as [V3 _]; [apply nth_In; lia|].
    assert (Hc : (c < nc)%nat) by (rewrite <- V3; destruct (Nat.lt_ge_cases c (length (nth f (nth o src []) []))); auto; rewrite nth_overflow in H by auto; discriminate).
    unfold lh_at, ones.
    assert (R : forall A (x d : A) n i, (i < n)%nat -> nth i (repeat x n) d = x) by (clear; intros A x d n; induction n as [|n IH]; intros [|i] H; simpl; auto; try lia; apply IH; lia).
    rewrite !R by auto. reflexivity. }
  revert G. generalize (source_positions src). clear. induction l as [|t l IH]; intros G; [reflexivity|]. unfold Qprod in *. cbn [map fold_right]. rewrite IH by (intros; apply G; right; auto).
  rewrite (G t) by (left; auto). reflexivity.
Qed.
Lemma empty_source nf nc : admissible_source nf nc [] [].
Proof. split; [split; [reflexivity|constructor]|]. split; [constructor|]. intros [|o] [|f] [|c]; discriminate. Qed.
Section Joint.
Variable su : setup.
Variable lnB : list R -> R.
Variable dpdf : list Q -> list Q -> R.
Variable bpdf : R -> R -> R -> R.
Variable prs : nat -> nat -> effect_prior.
Variable r : bmat -> R.
Hypothesis JS : joint_setting su dpdf prs r.
Notation env p := (env_of su p).
Notation joint_ := (joint_density su lnB prs r).

Lemma sample_source s src : positive_sample su s -> fs_source s = Some src -> valid_source (su_n su) (su_nf su) (su_nc su) src.
Proof.
  intros PS Hs. pose proof (valid_good (proj1 PS)) as G. assert (Hk : length (e_ce (env (fs_params s))) = su_k su) by apply (proj1 PS).
  exact (good_valid Hk G Hs).
Qed.
Lemma sample_matrix s : positive_sample su s -> weight_matrix (su_nf su) (su_nc su) (p_weights (fs_params s)).
Proof.
  intros [[_ _ _ (P1 & P2 & _) _ _ _] (Q1 & _)]. split; [exact P1|]. rewrite Forall_forall in *. intros w Hw. destruct (P2 w Hw) as [A [_ B]]. conj; auto.
Qed.
Lemma weights_step s i j draws p' : positive_sample su s -> draws_ok (su_nc su) (su_applicable su) (GibbsWeights i j draws) -> interior (GibbsWeights i j draws) ->
  p' = {| p_weights := map2 (gibbs_weights_row i j) draws (p_weights (fs_params s)); p_ce := p_ce (fs_params s); p_cf := p_cf (fs_params s) |} ->
  let W := p_weights (fs_params s) in
  let W' := p_weights p' in
  let b2 := map (fun w => nth j w 0 / (nth i w 0 + nth j w 0))%Q W in
  Forall2 vec_eq (map2 (gibbs_weights_row i j) (map2 (fun w (d : Q * bool) => ((nth j w 0 / (nth i w 0 + nth j w 0))%Q, snd d)) W draws) W') W /\
  Forall (fun q => 0 < q < 1)%Q b2 /\
  map fst (map2 (fun w (d : Q * bool) => ((nth j w 0 / (nth i w 0 + nth j w 0))%Q, snd d)) W draws) = b2 /\
  map snd (map2 (fun w (d : Q * bool) => ((nth j w 0 / (nth i w 0 + nth j w 0))%Q, snd d)) W draws) = map snd draws /\
  W' = pick_rows (map snd draws) (new_weights i j (map fst draws) W) W.
Proof.
  intros PS (D1 & D2 & D3 & D4 & _) I -> W W' b2. pose proof (sample_matrix PS) as HW. fold W in HW. cbn [interior] in I.
  assert (EW : W' = pick_rows (map snd draws) (new_weights i j (map fst draws) W) W) by (apply (gibbs_weights_pick HW); auto).
  assert (LW : length W = length draws) by (destruct HW as [-> _]; symmetry; exact D4).
  assert (M1 : map fst (map2 (fun w (d : Q * bool) => ((nth j w 0 / (nth i w 0 + nth j w 0))%Q, snd d)) W draws) = b2).
  { unfold b2. clear -LW. revert draws LW. induction W as [|w W IH]; intros [|d draws] L; simpl in *; try discriminate; auto. f_equal. apply IH. lia. }
  assert (M2 : map snd (map2 (fun w (d : Q * bool) => ((nth j w 0 / (nth i w 0 + nth j w 0))%Q, snd d)) W draws) = map snd draws).
  { clear -LW. revert draws LW. induction W as [|w W IH]; intros [|d draws] L; simpl in *; try discriminate; auto. f_equal. apply IH. lia. }
  assert (B : Forall (fun q => 0 < q < 1)%Q b2).
  { unfold b2. rewrite Forall_map. apply Forall_forall. intros w Hw. destruct HW as [_ HW]. rewrite Forall_forall in HW. destruct (HW w Hw) as (L & Pw & _).
    assert (0 < nth i w 0)%Q by (apply pos_nth; auto; rewrite L; exact D1). assert (0 < nth j w 0)%Q by (apply pos_nth; auto; rewrite L; exact D2).
    split; [apply Qlt_shift_div_l|apply Qlt_shift_div_r]; Lqa.lra. }
  assert (LA : length (map fst draws) = su_nf su) by (rewrite map_length; exact D4).
  assert (FA : Forall (fun a => (0 < a < 1)%Q) (map fst draws)) by (rewrite Forall_map; exact I).
  destruct (@C61_balance bpdf _ _ (ones 0 0 0) [] [] i j (map fst draws) (map snd draws) W (empty_source _ _) HW D1 D2 D3 LA FA) as (HW' & HB & _).
  fold b2 in HB. rewrite <- EW in HW', HB. conj; auto.
  rewrite (gibbs_weights_pick (nf := su_nf su) (nc := su_nc su) (i := i) (j := j) (draws := map2 (fun w (d : Q * bool) => ((nth j w 0 / (nth i w 0 + nth j w 0))%Q, snd d)) W draws) (W := W')); auto.
  - rewrite M1, M2. exact HB.
  - rewrite map2_length, LW, Nat.min_id. exact D4.
  - rewrite <- M1 in B. rewrite Forall_map in B. exact B.
Qed.
Lemma weights_balance s i j draws : positive_sample su s -> draws_ok (su_nc su) (su_applicable su) (GibbsWeights i j draws) -> interior (GibbsWeights i j draws) ->
  fs_source s <> None ->
  let s' := target su (Param (GibbsWeights i j draws)) s in
  joint_ s * density su lnB dpdf bpdf prs r (Param (GibbsWeights i j draws)) s = joint_ s' * density su lnB dpdf bpdf prs r (reverse su (Param (GibbsWeights i j draws)) s) s'.
Proof.
  intros PS D I Hs s'. destruct (fs_source s) as [src|] eqn:Es; [|contradiction]. pose proof (sample_source PS Es) as V.
  assert (Ep' : fs_params s' = {| p_weights := map2 (gibbs_weights_row i j) draws (p_weights (fs_params s)); p_ce := p_ce (fs_params s); p_cf := p_cf (fs_params s) |}) by reflexivity.
  destruct (weights_step PS D I Ep') as (HB & B & M1 & M2 & EW). pose proof (sample_matrix PS) as HW.
  set (W := p_weights (fs_params s)) in *. set (W' := p_weights (fs_params s')) in *.
  assert (Es' : fs_source s' = Some src) by exact Es. assert (Ec : fs_clusters s' = fs_clusters s) by reflexivity.
  cbn [density reverse]. rewrite Es, Es', Ec. fold W W'. rewrite M1, M2. set (cl := fs_clusters s) in *. set (b2 := map (fun w => nth j w 0 / (nth i w 0 + nth j w 0))%Q W) in *.
  set (has := has_components cl (su_conf su) (su_n su)). destruct D as (D1 & D2 & D3 & D4 & _).
  assert (LA : length (map fst draws) = su_nf su) by (rewrite map_length; exact D4).
  assert (FA : Forall (fun a => (0 < a < 1)%Q) (map fst draws)) by (rewrite Forall_map; exact I).
  set (x := {| x_clusters := cl; x_source := Some src |}).
  assert (J : forall t, fs_source t = Some src -> fs_clusters t = cl -> joint_ t = Q2R (source_density (env (fs_params t)) x) * r cl * exp (log_prior_effects su lnB prs (fs_params t))).
  { intros t H1 H2. unfold joint_density, data_density, fs_cstate. cbn [x_source x_clusters]. rewrite H1, H2. reflexivity. }
  rewrite (J s Es eq_refl), (J s' Es' Ec). replace (log_prior_effects su lnB prs (fs_params s')) with (log_prior_effects su lnB prs (fs_params s)) by reflexivity.
  assert (SD : exists lhs, forall t, fs_source t = Some src -> fs_clusters t = cl -> p_ce (fs_params t) = p_ce (fs_params s) -> p_cf (fs_params t) = p_cf (fs_params s) ->
    Q2R (source_density (env (fs_params t)) x) = weights_posterior lhs has src (p_weights (fs_params t))).
  { exists (if su_from_prior su then ones (su_n su) (su_nf su) (su_nc su) else component_lhs (env (fs_params s)) cl). intros t H1 H2 H3 H4.
    unfold source_density, weights_posterior. cbn [x_source x_clusters x e_from_prior env_of]. unfold state_weights. cbn [e_weights e_conf env_of].
    change (n_objects (env (fs_params t))) with (su_n su). fold has. unfold joint. destruct (su_from_prior su).
    - destruct (ones_prod V) as (q & -> & Hq). destruct (oprod _) as [a|]; [|apply RMicromega.Q2R_0]. apply Qeq_eqR. rewrite Hq. ring.
    - replace (component_lhs (env (fs_params t)) cl) with (component_lhs (env (fs_params s)) cl) by (unfold component_lhs; cbn [e_ce e_cf e_conf env_of]; rewrite H3, H4; reflexivity).
      destruct (oprod _) as [a|]; [|apply RMicromega.Q2R_0]. destruct (oprod (source_lhs _ _)) as [b|]; [reflexivity|apply RMicromega.Q2R_0]. }
  destruct SD as (lhs & SD). rewrite (SD s) by auto. rewrite (SD s') by auto. fold W W'.
  assert (A : admissible_source (su_nf su) (su_nc su) has src \/ (weights_posterior lhs has src W = 0 /\ weights_posterior lhs has src W' = 0)).
  { assert (Z : forall t, fs_source t = Some src -> fs_clusters t = cl -> p_ce (fs_params t) = p_ce (fs_params s) -> p_cf (fs_params t) = p_cf (fs_params s) -> length (p_weights (fs_params t)) = su_nf su ->
      admissible_source (su_nf su) (su_nc su) has src \/ weights_posterior lhs has src (p_weights (fs_params t)) = 0).
    { intros t H1 H2 H3 H4 H5. destruct (Qeq_dec (source_density (env (fs_params t)) x) 0) as [E|E].
      - right. rewrite <- SD by auto. rewrite (Qeq_eqR _ _ E). apply RMicromega.Q2R_0.
      - left. eapply density_admissible; eauto. }
    destruct (Z s) as [|Z1]; auto; [apply HW|]. destruct (Z s') as [|Z2]; auto. fold W'. rewrite EW. unfold pick_rows. rewrite mapi_length. apply HW. }
  destruct A as [A|[-> ->]]; [|lra].
  destruct (@C61_balance bpdf _ _ lhs has src i j (map fst draws) (map snd draws) W A HW D1 D2 D3 LA FA) as (_ & _ & E). fold b2 in E. rewrite <- EW in E.
  transitivity (r cl * exp (log_prior_effects su lnB prs (fs_params s)) * (weights_posterior lhs has src W * move_density bpdf has src i j (map fst draws) (map snd draws) W)); [ring|].
  rewrite E. ring.
Qed.
End Joint.
