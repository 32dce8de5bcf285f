(** Lemmas for C98 and C99: initial samples; runs on contents are runs of [M_mcmc]. *)
From Verif Require Import S_tracked L_cache L_operators L_init L_sampler L_source L_params L_tracked L_tracked2 L_tracked3.
From Verif Require Import M_dist M_operators.
Set Implicit Arguments.
Unset Strict Implicit.
Close Scope R_scope.
Close Scope Q_scope.
Open Scope nat_scope.

(** * Initial samples *)
Lemma dsim_bind2 A A' B C (R0 : A -> A' -> Prop) (R : B -> C -> Prop) (d : dist A) (d' : dist A') (f : A -> dist B) (g : A' -> dist C) :
  dsim R0 d d' -> (forall a b, R0 a b -> dsim R (f a) (g b)) -> dsim R (bind d f) (bind d' g).
Proof.
  intros H Hf. unfold dsim in *. rewrite !possible_bind. induction H as [|[a p] [b q] l l' [H1 H2] H IH]; cbn [map concat]; [constructor|].
  cbn [fst snd] in *. subst q. apply Forall2_app; auto. apply dsim_scale. apply Hf; auto.
Qed.
Lemma dsim_map A B (h : A -> B) (Q : A -> Prop) d d' : dsim (fun a b => h a = b /\ Q a) d d' ->
  map (fun '(a, q) => (h a, q)) (possible d) = possible d' /\ (forall a, supp d a -> Q a /\ supp d' (h a)).
Proof.
  unfold dsim. intros H. split.
  - induction H as [|[a p] [b q] l l' [[H1 _] H2] H IH]; cbn [map]; [reflexivity|]. cbn [fst snd] in *. subst. f_equal; auto.
  - intros a (p & Hin & Hp). assert (Hi : In (a, p) (possible d)).
    { apply filter_In. split; auto. destruct (Qeq_bool p 0) eqn:E; auto. apply Qeq_bool_iff in E. contradiction. }
    assert (G : exists b, In (b, p) (possible d') /\ h a = b /\ Q a).
    { clear Hin. induction H as [|[a0 p0] [b0 q0] l l' [[H1 H3] H2] H IH]; [contradiction|]. cbn [fst snd] in *. destruct Hi as [[= -> ->]|Hi].
      - exists b0. subst. split; [left; reflexivity|auto].
      - destruct (IH Hi) as (b & H4 & H5). exists b. split; [right; auto|auto]. }
    destruct G as (b & G1 & G2 & G3). split; auto. subst b. eapply possible_supp; eauto.
Qed.

Section Init.
Variable su : setup.
Variable M : mdl xf.
Hypothesis F : fits su M.

Lemma initial_sim cl p junk junk_lhs : disjoint_groups cl -> shapes_ok M cl (p_ce p) (p_cf p) junk_lhs ->
  dsim (fun s x => view s = x /\ (history M s /\ geo_memory s = None)) (t_initial su M cl p junk junk_lhs)
    (if su_source su
     then bind (initial_source (env_of su p) cl junk) (fun out =>
            match out with
            | Propose y _ _ => ret {| fs_clusters := cl; fs_params := p; fs_source := x_source y |}
            | _ => []
            end)
     else ret {| fs_clusters := cl; fs_params := p; fs_source := None |}).
Proof.
  intros D Sh. unfold t_initial.
  assert (Ecf : map (@v_value effect) (map (@new_pval effect) (p_cf p)) = p_cf p) by (rewrite map_map; apply map_id).
  assert (Ep : forall src, fs_params (view (cleared (new_sample (Fin 0) (Fin 1) M cl (p_weights p) (p_ce p) (p_cf p) src junk_lhs))) = p).
  { intros src. unfold view, tv_weights, tv_ce, tv_cf. cbn [fs_params cleared with_cache new_sample s_pars weights cluster_effect confounding_effects new_pval v_value].
    rewrite Ecf. destruct p; reflexivity. }
  destruct (su_source su).
  - set (s := cleared (new_sample (Fin 0) (Fin 1) M cl (p_weights p) (p_ce p) (p_cf p) (Some junk) junk_lhs)).
    assert (H : history M s) by (apply hi_clear, hi_new; auto).
    pose proof (@source_sim su M F s H D) as S. unfold s in S. rewrite Ep in S. fold s in S.
    eapply dsim_bind2; [exact S|]. clear S. intros [c o] out Hs. unfold src_sim in Hs. cbn [fst snd] in Hs.
    destruct o as [|s' q qb|], out as [|y q' qb'|]; try contradiction.
    + destruct Hs as (-> & -> & -> & Ey & Ep' & Ec & H' & Hg & En).
      assert (Es' : tv_source s' = x_source y) by (subst y; reflexivity).
      destruct (tv_source s') as [v|] eqn:Ev; [|congruence]. apply dsim_ret. conj.
      * assert (E : forall x, view (cleared x) = view x) by reflexivity. rewrite E.
        transitivity (view s'); [|].
        { unfold view. f_equal. unfold tv_source, edited, do_edit_pars, with_source in *. cbn [s_pars source].
          destruct (source (s_pars s')); cbn in *; congruence. }
        unfold view in *. cbn [fs_params fs_cstate fs_clusters fs_source] in *. rewrite Ep', Ec, Ev, <- Es'.
        f_equal. exact (Ep (Some junk)).
      * apply hi_clear, hi_edit; auto. exact I.
      * reflexivity.
    + unfold dsim. constructor.
  - apply dsim_ret. conj.
    + pose proof (Ep None) as E. unfold view in *. cbn [fs_params] in E. rewrite E. reflexivity.
    + apply hi_clear, hi_new; auto.
    + reflexivity.
Qed.

Lemma generate_sim prev k' rnd fuel junk junk_lhs : valid_setup su -> match prev with None => True | Some p => valid_sample (with_k su k') p end ->
  length junk_lhs = su_nc su -> Forall (fun m => length m = su_n su) junk_lhs ->
  match t_generate_initial_sample su M prev rnd fuel junk junk_lhs, generate_initial_sample su prev rnd fuel junk with
  | Some d, Some d' => dsim (fun s x => view s = x /\ (history M s /\ geo_memory s = None)) d d'
  | None, None => True
  | _, _ => False
  end.
Proof.
  intros V Hp Lj Fj. unfold t_generate_initial_sample, generate_initial_sample.
  set (pc := match prev with Some p => fs_clusters p | None => [] end) in *.
  destruct (generate_initial_clusters _ _ _ _ _ _ _) as [[cl|st|]|] eqn:Ec; auto.
  destruct (generate_initial_weights su prev) as [w|] eqn:Ew; auto.
  destruct (generate_initial_cluster_effect su prev cl) as [ce|] eqn:Ee; auto.
  destruct (generate_initial_confounding_effects su prev) as [cf|] eqn:Ef; auto.
  destruct (initial_ce_ok V Hp Ee) as (C1 & C2 & C3).
  destruct (initial_cf_ok V Hp Ef) as (F1 & F2 & F3). pose proof V as [V1 [V2 V2'] V3 V4 V5].
  assert (Hpc : Forall (fun c => length c = su_n su) pc /\ disjoint_groups pc).
  { subst pc. destruct prev as [p|]; [destruct Hp as [[_ P1] P2 _ _ _ _ _]; auto|]. split; [constructor|].
    intros o i j H0. rewrite nth_overflow in H0 by (rewrite nth_overflow by (simpl; lia); simpl; lia). discriminate. }
  destruct Hpc as [Hp1 Hp2]. destruct (initial_clusters_spec V2 V3 Hp1 Hp2 Ec V1) as (G1 & G2 & G3 & G4).
  apply (@initial_sim cl {| p_weights := w; p_ce := ce; p_cf := cf |}); auto.
  destruct G1 as [G1 _]. unfold shapes_ok. cbn [p_ce p_cf]. rewrite (ft_conf F), (ft_features F). split; [|split; [|split]]; auto.
  - etransitivity; [exact C1|]. symmetry. exact G1.
  - apply Forall2_lengths. exact F1.
Qed.
Lemma t_starts_spec prev k' s : valid_setup su -> match prev with None => True | Some p => valid_sample (with_k su k') p end ->
  t_starts su M prev s -> starts su prev (view s) /\ P su M s /\ geo_memory s = None.
Proof.
  intros V Hp (rnd & fuel & junk & junk_lhs & d & Hj & Lj & Fj & H & Hs).
  pose proof (@generate_sim prev k' rnd fuel junk junk_lhs V Hp Lj Fj) as G. rewrite H in G.
  destruct (generate_initial_sample su prev rnd fuel junk) as [d'|] eqn:E; [|contradiction].
  apply dsim_map in G as [_ G]. destruct (G s Hs) as [[G1 G2] G3].
  assert (St : starts su prev (view s)) by (exists rnd, fuel, junk, d'; auto).
  conj; auto. split; auto. apply (starts_valid V Hp St).
Qed.
End Init.

(** * Runs on contents and [M_mcmc] *)
Section Link.
Variable su : setup.
Variable M : mdl xf.
Variables (bpdf : R -> R -> R -> R) (dpdf : list Q -> list Q -> R).
Variable checks : bool.
Notation ll := (scratch_ll M).
Notation pr := (scratch_prior M).
Notation fp := (su_from_prior su).
Notation pd := (plain_draw su bpdf dpdf).
Notation prop := (plain_propose su bpdf dpdf).
Notation ev := (plain_eval su M checks).

Definition follows A (x : ext A) (y : res A) : Prop :=
  match x with Done a => y = Ok a | Raised e => y = Err e | _ => True end.
Lemma follows_bind A B (x : ext A) (y : res A) (f : A -> ext B) (g : A -> res B) : follows x y -> (forall a, x = Done a -> follows (f a) (g a)) ->
  follows (ebind x f) (rbind y g).
Proof. destruct x; cbn [follows ebind]; intros E H; auto; rewrite E; cbn [rbind]; auto. Qed.
Lemma plain_prop_current op ch s c r : prop op ch s = Some (c, r) -> c = s.
Proof. unfold plain_propose. destruct (nth_error _ op); [|discriminate]. destruct (plain_kind _ _ _ _ _ _); [|discriminate]. intros [= <- _]. reflexivity. Qed.
Lemma step_follows ch d : follows (t_step prop ev ch d) (M_mcmc.step ll pr fp ch (pd d)).
Proof.
  unfold t_step, M_mcmc.step. cbv zeta. cbn [plain_draw d_prop d_u].
  destruct (prop (td_op d) (td_choice d) (content (c_obj ch))) as [[c r]|] eqn:E; [|exact I]. apply plain_prop_current in E as ->.
  unfold plain_eval. fold (lh_of ll fp (res_content (content (c_obj ch)) r)).
  destruct (_ && _); cbn [ebind follows]; [|exact I].
  destruct (accept _ _ _ _ _ _ _) as [[]|]; cbn [rbind follows]; auto.
  destruct (c_obj ch); cbn. reflexivity.
Qed.
Lemma step_chains_follows i draws : forall chs c st,
  follows (t_step_chains prop ev i draws c chs st) (step_chains ll pr fp i (fun c => pd (draws c)) c chs st).
Proof.
  induction chs as [|ch chs IH]; intros c st; cbn [t_step_chains step_chains]; [reflexivity|].
  apply follows_bind; [apply step_follows|]. intros [ch' a] _. apply follows_bind; [apply IH|]. intros [chs' st'] _. reflexivity.
Qed.
Lemma step_all_follows i draws sm : follows (t_step_all prop ev i draws sm) (step_all ll pr fp i (fun c => pd (draws c)) sm).
Proof. unfold t_step_all, step_all. apply follows_bind; [apply step_chains_follows|]. intros [chs st] _. reflexivity. Qed.
Lemma init_follows n_ops ss sm : t_init ev n_ops ss = Done sm -> sm = init_sampler ll pr fp n_ops ss.
Proof.
  unfold t_init, init_sampler.
  assert (G : forall chs, t_init_chains ev ss = Done chs -> chs = map (init_chain ll pr fp) ss).
  { induction ss as [|s ss IH]; cbn [t_init_chains map]; intros chs; [intros [= <-]; reflexivity|].
    unfold plain_eval at 1. destruct (_ && _); cbn [ebind]; [|discriminate].
    destruct (t_init_chains ev ss) as [chs'| | |]; cbn [ebind]; try discriminate. intros [= <-]. f_equal. apply IH. reflexivity. }
  destruct (t_init_chains ev ss) as [chs| | |]; cbn [ebind]; try discriminate. intros [= <-]. rewrite (G chs eq_refl). reflexivity.
Qed.
Lemma init_not_raised n_ops ss e : t_init ev n_ops ss <> Raised e.
Proof.
  unfold t_init.
  assert (G : t_init_chains ev ss <> Raised e).
  { induction ss as [|s ss IH]; cbn [t_init_chains]; [discriminate|]. unfold plain_eval at 1. destruct (_ && _); cbn [ebind]; [|discriminate].
    destruct (t_init_chains ev ss) as [chs'| | |]; cbn [ebind]; congruence. }
  destruct (t_init_chains ev ss); cbn [ebind]; congruence.
Qed.
Lemma loop_follows n_steps n_samples draws : forall todo i sm log last,
  follows (t_loop prop ev n_steps n_samples draws todo i sm log last)
          (loop ll pr fp n_steps n_samples (fun i c => pd (draws i c)) todo i sm log last).
Proof.
  induction todo as [|todo IH]; intros i sm log last; cbn [t_loop loop]; [reflexivity|].
  apply follows_bind; [apply step_all_follows|]. intros sm' _. cbv zeta. destruct (n_steps - 1 =? 0); [reflexivity|]. apply IH.
Qed.
Lemma run_follows ss n_steps n_samples draws :
  follows (plain_run su M bpdf dpdf checks ss n_steps n_samples draws)
    (generate_samples ll pr fp (length (operators su)) ss n_steps n_samples (fun i c => pd (draws i c))).
Proof.
  unfold plain_run, t_generate_samples, generate_samples. pose proof (@init_not_raised (length (operators su)) ss) as N.
  destruct (t_init ev (length (operators su)) ss) as [sm| | |] eqn:E; cbn [ebind]; try exact I; [|destruct (N e); reflexivity].
  apply init_follows in E. subst sm. apply loop_follows.
Qed.
Lemma warm_loop_follows draws : forall todo i sm,
  follows (t_warm_loop prop ev draws todo i sm) (warm_loop ll pr fp (fun i c => pd (draws i c)) todo i sm).
Proof.
  induction todo as [|todo IH]; intros i sm; cbn [t_warm_loop warm_loop]; [reflexivity|].
  apply follows_bind; [apply step_all_follows|]. intros sm' _. apply IH.
Qed.
Lemma warm_follows ss n draws :
  follows (plain_warm_up su M bpdf dpdf checks ss n draws)
    (warm_up ll pr fp (length (operators su)) ss n (fun i c => pd (draws i c))).
Proof.
  unfold plain_warm_up, t_warm_up, warm_up. pose proof (@init_not_raised (length (operators su)) ss) as N.
  destruct (t_init ev (length (operators su)) ss) as [sm| | |] eqn:E; cbn [ebind]; try exact I; [|destruct (N e); reflexivity].
  apply init_follows in E. subst sm. apply follows_bind; [apply warm_loop_follows|]. intros sm' _. reflexivity.
Qed.

(** The draws are results of the operators. *)
Lemma step_chains_proposals i draws : forall chs c st r, t_step_chains prop ev i draws c chs st = Done r ->
  forall j ch, nth_error chs j = Some ch -> prop (td_op (draws (c + j))) (td_choice (draws (c + j))) (content (c_obj ch)) <> None.
Proof.
  induction chs as [|ch chs IH]; intros c st r H j ch'; [destruct j; discriminate|]. cbn [t_step_chains] in H.
  destruct (t_step prop ev ch (draws c)) as [[ch1 a]| | |] eqn:E; cbn [ebind] in H; try discriminate.
  destruct (t_step_chains prop ev i draws (Datatypes.S c) chs _) as [r'| | |] eqn:E'; cbn [ebind] in H; try discriminate.
  destruct j as [|j]; cbn [nth_error].
  - intros [= <-]. rewrite Nat.add_0_r. unfold t_step in E. cbv zeta in E. destruct (prop _ _ _); [discriminate|discriminate].
  - intros Hj. pose proof (IH _ _ _ E' j ch' Hj) as G. rewrite Nat.add_succ_comm in G. exact G.
Qed.
Lemma plain_valid_prop d s : valid_sample su s -> draw_ok su d -> prop (td_op d) (td_choice d) s <> None ->
  exists k, nth_error (operators su) (td_op d) = Some k /\ proposal su s k (d_prop (pd d) s).
Proof.
  intros V Hd H. cbn [plain_draw d_prop]. unfold plain_propose in *. destruct (nth_error (operators su) (td_op d)) as [k|] eqn:Ek; [|congruence].
  exists k. split; auto. destruct (plain_kind su bpdf dpdf k (td_choice d) s) as [r|] eqn:Er; cbn [option_map] in *; [|congruence].
  eapply plain_proposal; eauto.
Qed.
Definition valid_chain (ch : chain fsample) : Prop := valid_sample su (content (c_obj ch)).
Lemma step_all_valid i draws sm sm' : (forall c, draw_ok su (draws c)) -> Forall valid_chain (chains sm) ->
  t_step_all prop ev i draws sm = Done sm' -> Forall valid_chain (chains sm').
Proof.
  intros Hd HV H.
  assert (Ev : forall j x x' l p, ev j x = Done (x', l, p) -> x' = x).
  { intros j x x' l p. unfold plain_eval. destruct (_ && _); [|discriminate]. intros [= <- _ _]. reflexivity. }
  unfold t_step_all in H. destruct (t_step_chains prop ev i draws 0 (chains sm) (statistics sm)) as [[chs st]| | |] eqn:E; try discriminate.
  cbn [ebind] in H. injection H as <-. cbn [chains]. clear - Hd HV E Ev. revert E HV. generalize 0 at 1, (statistics sm). generalize (chains sm). intros l. revert chs st.
  induction l as [|ch l IH]; intros chs st c st0 E HV; cbn [t_step_chains] in E; [injection E as <- _; constructor|].
  inversion_clear HV as [|? ? H1 H2].
  destruct (t_step prop ev ch (draws c)) as [[ch1 a]| | |] eqn:E1; cbn [ebind] in E; try discriminate.
  destruct (t_step_chains prop ev i draws (Datatypes.S c) l _) as [[l' st']| | |] eqn:E2; cbn [ebind] in E; try discriminate.
  injection E as <- _. constructor; [|eapply IH; eauto]. unfold valid_chain, set_i_step. cbn [c_obj content].
  unfold t_step in E1. cbv zeta in E1. destruct (prop (td_op (draws c)) (td_choice (draws c)) (content (c_obj ch))) as [[s r]|] eqn:Ep; [|discriminate].
  assert (Np : prop (td_op (draws c)) (td_choice (draws c)) (content (c_obj ch)) <> None) by congruence.
  destruct (plain_valid_prop H1 (Hd c) Np) as (k & _ & Hk). cbn [plain_draw d_prop] in Hk. rewrite Ep in Hk. apply proposal_valid in Hk; auto.
  apply plain_prop_current in Ep as ->.
  destruct (ev (i_step (c_obj ch)) (res_content (content (c_obj ch)) r)) as [[[x l0] p]| | |] eqn:Ee; cbn [ebind] in E1; try discriminate. apply Ev in Ee as ->.
  destruct (accept _ _ _ _ _ _ _) as [[]|]; try discriminate; injection E1 as <- _; cbn [c_obj content]; auto.
  destruct (res_aliased r); auto.
Qed.
Lemma run_drawn_aux draws n sm0 : (forall i c, draw_ok su (draws i c)) -> forall todo i sm, i + todo = n ->
  after ll pr fp (fun i c => pd (draws i c)) sm0 i = Ok sm -> Forall valid_chain (chains sm) ->
  (forall j smj, i <= j < n -> after ll pr fp (fun i c => pd (draws i c)) sm0 j = Ok smj -> exists smj', t_step_all prop ev j (draws j) smj = Done smj') ->
  forall j smj, i <= j < n -> after ll pr fp (fun i c => pd (draws i c)) sm0 j = Ok smj -> Forall valid_chain (chains smj).
Proof.
  intros Hd. induction todo as [|todo IH]; intros i sm En Ha HV Hs j smj Hj Hsj; [lia|].
  destruct (Nat.eq_dec i j) as [<-|Hne]; [congruence|].
  destruct (Hs i sm) as [sm' E]; auto; [lia|].
  apply (IH (Datatypes.S i) sm') with (j := j); auto; try lia.
  - cbn [after]. rewrite Ha. cbn [rbind]. pose proof (step_all_follows i (draws i) sm) as Fo. rewrite E in Fo. exact Fo.
  - eapply step_all_valid; eauto.
  - intros j' smj' Hj'. apply Hs. lia.
Qed.
Lemma drawn_of_steps draws n sm0 : (forall i c, draw_ok su (draws i c)) -> Forall valid_chain (chains sm0) ->
  (forall j smj, j < n -> after ll pr fp (fun i c => pd (draws i c)) sm0 j = Ok smj -> exists smj', t_step_all prop ev j (draws j) smj = Done smj') ->
  drawn su ll pr sm0 n (fun i c => pd (draws i c)).
Proof.
  intros Hd HV Hs i c sm ch Hi Ha Hc.
  assert (V : Forall valid_chain (chains sm)).
  { apply (@run_drawn_aux draws n sm0 Hd n 0 sm0) with (j := i); auto; try lia. intros j smj Hj. apply Hs. lia. }
  destruct (Hs i sm Hi Ha) as [sm' E]. unfold t_step_all in E.
  destruct (t_step_chains prop ev i (draws i) 0 (chains sm) (statistics sm)) as [r| | |] eqn:Es; try discriminate.
  apply plain_valid_prop; auto.
  - rewrite Forall_forall in V. apply V. eapply nth_error_In; eauto.
  - exact (step_chains_proposals Es Hc).
Qed.
Lemma loop_steps n_steps n_samples draws sm0 : forall todo i sm log last r,
  t_loop prop ev n_steps n_samples draws todo i sm log last = Done r ->
  after ll pr fp (fun i c => pd (draws i c)) sm0 i = Ok sm ->
  forall j smj, i <= j < i + todo -> after ll pr fp (fun i c => pd (draws i c)) sm0 j = Ok smj -> exists smj', t_step_all prop ev j (draws j) smj = Done smj'.
Proof.
  induction todo as [|todo IH]; intros i sm log last r H Ha j smj Hj Hsj; [lia|]. cbn [t_loop] in H.
  destruct (t_step_all prop ev i (draws i) sm) as [sm'| | |] eqn:E; cbn [ebind] in H; try discriminate. cbv zeta in H.
  destruct (n_steps - 1 =? 0); [discriminate|].
  destruct (Nat.eq_dec i j) as [<-|Hne]; [exists sm'; congruence|].
  eapply IH with (j := j); eauto; [|lia]. cbn [after]. rewrite Ha. cbn [rbind].
  pose proof (step_all_follows i (draws i) sm) as Fo. rewrite E in Fo. exact Fo.
Qed.
Lemma warm_steps draws sm0 : forall todo i sm r,
  t_warm_loop prop ev draws todo i sm = Done r ->
  after ll pr fp (fun i c => pd (draws i c)) sm0 i = Ok sm ->
  forall j smj, i <= j < i + todo -> after ll pr fp (fun i c => pd (draws i c)) sm0 j = Ok smj -> exists smj', t_step_all prop ev j (draws j) smj = Done smj'.
Proof.
  induction todo as [|todo IH]; intros i sm r H Ha j smj Hj Hsj; [lia|]. cbn [t_warm_loop] in H.
  destruct (t_step_all prop ev i (draws i) sm) as [sm'| | |] eqn:E; cbn [ebind] in H; try discriminate.
  destruct (Nat.eq_dec i j) as [<-|Hne]; [exists sm'; congruence|].
  eapply IH with (j := j); eauto; [|lia]. cbn [after]. rewrite Ha. cbn [rbind].
  pose proof (step_all_follows i (draws i) sm) as Fo. rewrite E in Fo. exact Fo.
Qed.
Lemma init_valid ss : Forall (valid_sample su) ss -> Forall valid_chain (chains (init_sampler ll pr fp (length (operators su)) ss)).
Proof. intros H. cbn [init_sampler chains]. rewrite Forall_map. exact H. Qed.
Lemma run_drawn ss n_steps n_samples draws r : (forall i c, draw_ok su (draws i c)) -> Forall (valid_sample su) ss ->
  plain_run su M bpdf dpdf checks ss n_steps n_samples draws = Done r ->
  drawn su ll pr (init_sampler ll pr fp (length (operators su)) ss) n_steps (fun i c => pd (draws i c)).
Proof.
  intros Hd HV H. apply drawn_of_steps; auto using init_valid.
  unfold plain_run, t_generate_samples in H. destruct (t_init ev (length (operators su)) ss) as [sm| | |] eqn:E; cbn [ebind] in H; try discriminate.
  apply init_follows in E. subst sm. intros j smj Hj. apply (loop_steps H); [reflexivity|lia].
Qed.
Lemma warm_drawn ss n draws r : (forall i c, draw_ok su (draws i c)) -> Forall (valid_sample su) ss ->
  plain_warm_up su M bpdf dpdf checks ss n draws = Done r ->
  drawn su ll pr (init_sampler ll pr fp (length (operators su)) ss) n (fun i c => pd (draws i c)).
Proof.
  intros Hd HV H. apply drawn_of_steps; auto using init_valid.
  unfold plain_warm_up, t_warm_up in H. destruct (t_init ev (length (operators su)) ss) as [sm| | |] eqn:E; cbn [ebind] in H; try discriminate.
  apply init_follows in E. subst sm. destruct (t_warm_loop prop ev draws n 0 _) as [sm'| | |] eqn:Ew; cbn [ebind] in H; try discriminate.
  intros j smj Hj. apply (warm_steps Ew); [reflexivity|lia].
Qed.
End Link.
