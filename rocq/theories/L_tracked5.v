(** Lemmas for C98 and C99: compositions of views, failed assertions, runs with a remembered geo-prior. *)
From Coq Require Import Lra.
From Verif Require Import S_tracked L_cache L_operators L_init L_sampler L_source L_params L_tracked L_tracked2 L_tracked3 L_tracked4.
From Verif Require Import M_dist M_operators.
Set Implicit Arguments.
Unset Strict Implicit.
Close Scope R_scope.
Close Scope Q_scope.
Open Scope nat_scope.

(** * Compositions of views *)
Section Comp.
Variables (X Y Z : Type) (f : X -> Y) (g : Y -> Z) (h : X -> Z).
Hypothesis E : forall x, g (f x) = h x.
Lemma map_obj_comp o : map_obj g (map_obj f o) = map_obj h o.
Proof. destruct o. unfold map_obj. cbn. rewrite E. reflexivity. Qed.
Lemma map_sampler_comp sm : map_sampler g (map_sampler f sm) = map_sampler h sm.
Proof.
  destruct sm as [chs st]. unfold map_sampler. cbn [chains statistics]. f_equal. rewrite map_map. apply map_ext. intros [o a b].
  unfold map_chain. cbn [c_obj c_ll c_prior]. rewrite map_obj_comp. reflexivity.
Qed.
Lemma map_last_comp (o : option (obj X)) : option_map (map_obj g) (option_map (map_obj f) o) = option_map (map_obj h) o.
Proof. destruct o; cbn; [rewrite map_obj_comp|]; reflexivity. Qed.
Lemma map_run_comp r : ext_map (map_run g) (ext_map (map_run f) r) = ext_map (map_run h) r.
Proof.
  destruct r as [[[sm log] last]| | |]; cbn [ext_map]; auto. f_equal. unfold map_run. rewrite map_sampler_comp, map_last_comp. do 2 f_equal.
  unfold map_log. rewrite map_map. apply map_ext. intros [i o]. rewrite map_obj_comp. reflexivity.
Qed.
Lemma map_warm_comp r : ext_map (map_warm g) (ext_map (map_warm f) r) = ext_map (map_warm h) r.
Proof.
  destruct r as [[o sm]| | |]; cbn [ext_map]; auto. f_equal. unfold map_warm. cbn [fst snd]. rewrite map_sampler_comp, map_last_comp. reflexivity.
Qed.
End Comp.

(** * Failed assertions *)
Section Assertions.
Variable su : setup.
Variable M : mdl xf.
Variables (bpdf : R -> R -> R -> R) (dpdf : list Q -> list Q -> R).
Variable checks : bool.
Notation prop := (plain_propose su bpdf dpdf).
Notation ev := (plain_eval su M checks).
Definition undefined (s : fsample) : Prop := su_from_prior su = false /\ scratch_ll M s = NaN \/ scratch_prior M s = NaN.
Definition some_undefined : Prop := checks = true /\ exists s, valid_sample su s /\ undefined s.
Lemma eval_assertion i s : valid_sample su s -> ev i s = Assertion -> some_undefined.
Proof.
  intros V. unfold plain_eval, some_undefined. destruct (_ && _) eqn:E; [discriminate|]. intros _. unfold checked, due in E. destruct checks; [|discriminate].
  split; auto. exists s. split; auto. unfold undefined. apply Bool.andb_false_iff in E as [E|E]; apply Bool.orb_false_iff in E as [_ E].
  - left. destruct (su_from_prior su); [discriminate|]. destruct (scratch_ll M s); auto; discriminate.
  - right. destruct (scratch_prior M s); auto; discriminate.
Qed.
Lemma step_assertion ch d : valid_chain su ch -> draw_ok su d -> t_step prop ev ch d = Assertion -> some_undefined.
Proof.
  intros V Hd. unfold t_step. cbv zeta. destruct (prop (td_op d) (td_choice d) (content (c_obj ch))) as [[s r]|] eqn:Ep; [|discriminate].
  assert (Np : prop (td_op d) (td_choice d) (content (c_obj ch)) <> None) by congruence.
  destruct (plain_valid_prop V Hd Np) as (k & _ & Hk). cbn [plain_draw d_prop] in Hk. rewrite Ep in Hk. apply proposal_valid in Hk; auto.
  apply plain_prop_current in Ep as ->. intros H.
  destruct (ev (i_step (c_obj ch)) (res_content (content (c_obj ch)) r)) as [[[x l0] p]| | |] eqn:Ee; cbn [ebind] in H; try discriminate.
  - destruct (accept _ _ _ _ _ _ _) as [[]|]; discriminate.
  - eapply eval_assertion; eauto.
Qed.
Lemma step_all_assertion i draws sm : (forall c, draw_ok su (draws c)) -> Forall (valid_chain su) (chains sm) ->
  t_step_all prop ev i draws sm = Assertion -> some_undefined.
Proof.
  intros Hd HV H. unfold t_step_all in H.
  destruct (t_step_chains prop ev i draws 0 (chains sm) (statistics sm)) as [[chs st]| | |] eqn:E; try discriminate. clear H.
  revert E HV. generalize 0, (statistics sm). generalize (chains sm). intros l.
  induction l as [|ch l IH]; intros c st0 E HV; cbn [t_step_chains] in E; [discriminate|]. inversion_clear HV as [|? ? H1 H2].
  destruct (t_step prop ev ch (draws c)) as [[ch1 a]| | |] eqn:E1; cbn [ebind] in E; try discriminate.
  - destruct (t_step_chains prop ev i draws (Datatypes.S c) l _) as [[l' st']| | |] eqn:E2; cbn [ebind] in E; try discriminate. eapply IH; eauto.
  - eapply step_assertion; eauto.
Qed.
Lemma init_assertion n ss : Forall (valid_sample su) ss -> t_init ev n ss = Assertion -> some_undefined.
Proof.
  unfold t_init. intros HV H. destruct (t_init_chains ev ss) as [chs| | |] eqn:E; cbn [ebind] in H; try discriminate. clear H.
  induction HV as [|s ss V HV IH]; cbn [t_init_chains] in E; [discriminate|].
  destruct (ev 0 s) as [[[x l] p]| | |] eqn:Ee; cbn [ebind] in E; try discriminate.
  - destruct (t_init_chains ev ss); cbn [ebind] in E; try discriminate. auto.
  - eapply eval_assertion; eauto.
Qed.
Lemma init_chains_valid n ss sm : Forall (valid_sample su) ss -> t_init ev n ss = Done sm -> Forall (valid_chain su) (chains sm).
Proof. intros HV H. apply init_follows in H. subst sm. cbn [init_sampler chains]. rewrite Forall_map. exact HV. Qed.
Lemma run_assertion ss n_steps n_samples draws : (forall i c, draw_ok su (draws i c)) -> Forall (valid_sample su) ss ->
  plain_run su M bpdf dpdf checks ss n_steps n_samples draws = Assertion -> some_undefined.
Proof.
  intros Hd HV H. unfold plain_run, t_generate_samples in H.
  destruct (t_init ev (length (operators su)) ss) as [sm| | |] eqn:E; cbn [ebind] in H; try discriminate; [|eapply init_assertion; eauto].
  apply (init_chains_valid HV) in E. revert H E. generalize (@nil (nat * obj fsample)), (@None (obj fsample)). generalize n_steps at 2. intros todo. generalize 0. revert sm.
  induction todo as [|todo IH]; intros sm i log last H V; cbn [t_loop] in H; [discriminate|].
  destruct (t_step_all prop ev i (draws i) sm) as [sm'| | |] eqn:E; cbn [ebind] in H; try discriminate.
  - cbv zeta in H. destruct (n_steps - 1 =? 0); [discriminate|]. apply IH in H; auto. eapply step_all_valid; eauto.
  - eapply step_all_assertion; eauto.
Qed.
Lemma warm_assertion ss n draws : (forall i c, draw_ok su (draws i c)) -> Forall (valid_sample su) ss ->
  plain_warm_up su M bpdf dpdf checks ss n draws = Assertion -> some_undefined.
Proof.
  intros Hd HV H. unfold plain_warm_up, t_warm_up in H.
  destruct (t_init ev (length (operators su)) ss) as [sm| | |] eqn:E; cbn [ebind] in H; try discriminate; [|eapply init_assertion; eauto].
  apply (init_chains_valid HV) in E. destruct (t_warm_loop prop ev draws n 0 sm) as [sm'| | |] eqn:Ew; cbn [ebind] in H; try discriminate. clear H.
  revert Ew E. generalize 0. revert sm.
  induction n as [|todo IH]; intros sm i H V; cbn [t_warm_loop] in H; [discriminate|].
  destruct (t_step_all prop ev i (draws i) sm) as [sm'| | |] eqn:E; cbn [ebind] in H; try discriminate.
  - apply IH in H; auto. eapply step_all_valid; eauto.
  - eapply step_all_assertion; eauto.
Qed.
End Assertions.

(** * A finite remembered geo-prior cancels *)
Lemma xadd_shift a b g : xadd (xadd a (Fin g)) b = xadd (xadd a b) (Fin g).
Proof. destruct a, b; cbn; auto. f_equal. lra. Qed.
Lemma xadd_zero a : xadd a (Fin 0) = a.
Proof. destruct a; cbn; auto. f_equal. lra. Qed.
Lemma xsub_shift a b g : xsub (xadd a (Fin g)) (xadd b (Fin g)) = xsub a b.
Proof. destruct a, b; cbn; auto. f_equal. lra. Qed.
Lemma prior_shift M g s : prior_with M (Fin g) s = xadd (prior_with M (Fin 0) s) (Fin g).
Proof.
  unfold prior_with, log_prior. cbn [t_size t_geo t_weights t_ce t_conf t_src]. rewrite xadd_zero.
  match goal with |- xadd (xadd (xadd (xadd (xadd ?a _) ?w) ?c) ?f) ?x = _ => generalize a, w, c, f, x end. intros a w c f x.
  rewrite (xadd_shift a w), (xadd_shift (xadd a w) c), (xadd_shift (xadd (xadd a w) c) f), (xadd_shift (xadd (xadd (xadd a w) c) f) x). reflexivity.
Qed.
Lemma accept_shift ll l0 p p0 g q qb u : accept ll l0 (xadd p (Fin g)) (xadd p0 (Fin g)) q qb u = accept ll l0 p p0 q qb u.
Proof. unfold accept, metropolis_hastings_ratio. rewrite xsub_shift. reflexivity. Qed.

Section NoGeo.
Variable su : setup.
Variable M : mdl xf.
Variables (bpdf : R -> R -> R -> R) (dpdf : list Q -> list Q -> R).
Variable checks : bool.
Notation pm := (memory_propose su bpdf dpdf).
Notation em := (memory_eval su M checks).
Notation pp := (plain_propose su bpdf dpdf).
Notation ep := (plain_eval su (no_geo M) checks).
Definition off (ch : chain memory) (ch0 : chain fsample) : Prop :=
  exists g, snd (content (c_obj ch)) = Some (Fin g) /\ blind_obj (map_obj fst (c_obj ch)) = blind_obj (c_obj ch0) /\ c_ll ch = c_ll ch0 /\
    c_prior ch = xadd (c_prior ch0) (Fin g).
Definition quiet X (ch : chain X) : Prop := due checks (i_step (c_obj ch)) = false.
Definition erel A B (R : A -> B -> Prop) (x : ext A) (y : ext B) : Prop :=
  match x, y with Done a, Done b => R a b | Raised e, Raised e' => e = e' | Assertion, Assertion => True | Failed, Failed => True | _, _ => False end.
Lemma erel_bind A B C D (R : A -> B -> Prop) (R' : C -> D -> Prop) x y f g : erel R x y -> (forall a b, R a b -> erel R' (f a) (g b)) -> erel R' (ebind x f) (ebind y g).
Proof. destruct x, y; cbn; intros; try contradiction; auto. Qed.

Lemma off_step ch ch0 d : off ch ch0 -> quiet ch -> erel (fun x y => off (fst x) (fst y) /\ snd x = snd y) (t_step pm em ch d) (t_step pp ep ch0 d).
Proof.
  destruct ch as [[[s m] i l p] cl cp], ch0 as [[s0 i0 l0 p0] cl0 cp0]. intros (g & E1 & E2 & E3 & E4) Q. unfold quiet in Q. cbn in E1, E2, E3, E4, Q. injection E2 as -> -> ->. subst m cl0 cp.
  unfold t_step. cbv zeta. cbn [c_obj content i_step last_lh last_prior c_ll c_prior]. unfold memory_propose. cbn [fst snd].
  destruct (pp (td_op d) (td_choice d) s0) as [[c r]|] eqn:Ep; cbn [option_map erel]; auto. apply plain_prop_current in Ep as ->.
  destruct r as [|s'|s' q qb|s' q qb]; cbn [map_result res_content res_q res_q_back res_aliased]; unfold memory_eval, plain_eval, checked; rewrite Q; cbn [negb orb andb ebind];
    rewrite prior_shift, accept_shift; change (scratch_ll (no_geo M)) with (scratch_ll M);
    match goal with |- context [scratch_prior (no_geo M) ?s] => change (scratch_prior (no_geo M) s) with (prior_with M (Fin 0) s) end;
    destruct (accept _ _ _ _ _ _ _) as [[]|e]; cbn [erel fst snd]; auto; split; auto; exists g; cbn; auto.
Qed.
Lemma off_step_chains i draws : forall chs chs0, Forall2 off chs chs0 -> Forall (@quiet _) chs -> forall c st,
  erel (fun x y => Forall2 off (fst x) (fst y) /\ snd x = snd y /\ Forall (fun ch => i_step (c_obj ch) = i) (fst x))
    (t_step_chains pm em i draws c chs st) (t_step_chains pp ep i draws c chs0 st).
Proof.
  induction 1 as [|ch ch0 chs chs0 H HF IH]; intros HQ c st; cbn [t_step_chains]; [repeat constructor|]. inversion_clear HQ as [|? ? Q1 Q2].
  eapply erel_bind; [apply off_step; auto|]. intros [a b] [a0 b0] [H1 H2]. cbn [fst snd] in *. subst b0.
  eapply erel_bind; [apply IH; auto|]. intros [l st1] [l0 st0] (H3 & H4 & H5). cbn [fst snd erel] in *. conj; auto. 
  constructor; auto. destruct H1 as (g & G1 & G2 & G3 & G4). exists g. destruct a as [[? ? ? ?] ? ?], a0 as [[? ? ? ?] ? ?]. unfold blind_obj, map_obj, set_i_step in *. cbn in *. 
  injection G2 as -> -> ->. conj; auto.
Qed.
Lemma off_step_all i draws sm sm0 : Forall2 off (chains sm) (chains sm0) -> statistics sm = statistics sm0 -> Forall (@quiet _) (chains sm) ->
  erel (fun x y => Forall2 off (chains x) (chains y) /\ statistics x = statistics y /\ Forall (fun ch => i_step (c_obj ch) = i) (chains x))
    (t_step_all pm em i draws sm) (t_step_all pp ep i draws sm0).
Proof.
  intros H1 H2 H3. unfold t_step_all. rewrite <- H2. eapply erel_bind; [apply (@off_step_chains i draws _ _ H1 H3)|].
  intros [l st1] [l0 st0] (G1 & G2 & G3). cbn in *. auto.
Qed.
Lemma off_blind sm sm0 : Forall2 off (chains sm) (chains sm0) -> statistics sm = statistics sm0 -> blind_sampler (map_sampler fst sm) = blind_sampler sm0.
Proof.
  intros H E. unfold blind_sampler, map_sampler. cbn [chains statistics]. f_equal; [|exact E]. rewrite map_map.
  induction H as [|a b l l0 H HF IH]; cbn [map]; [reflexivity|]. f_equal; auto. destruct H as (g & G1 & G2 & G3 & G4). unfold blind_chain, map_chain. cbn [c_obj c_ll]. congruence.
Qed.
Lemma off_first sm sm0 : Forall2 off (chains sm) (chains sm0) ->
  option_map blind_obj (option_map (map_obj fst) (option_map (@c_obj _) (nth_error (chains sm) 0))) =
  option_map blind_obj (option_map (@c_obj _) (nth_error (chains sm0) 0)).
Proof. intros H. inversion H as [|a b l l0 (g & G1 & G2 & G3 & G4) HF]; cbn; [reflexivity|]. congruence. Qed.
Lemma off_loop n_steps n_samples draws : forall todo i sm sm0 log log0 last last0,
  Forall2 off (chains sm) (chains sm0) -> statistics sm = statistics sm0 -> Forall (@quiet _) (chains sm) -> (forall j, i <= j -> due checks j = false) ->
  blind_log (map_log fst log) = blind_log log0 -> option_map blind_obj (option_map (map_obj fst) last) = option_map blind_obj last0 ->
  ext_map blind_run (ext_map (map_run fst) (t_loop pm em n_steps n_samples draws todo i sm log last)) =
  ext_map blind_run (t_loop pp ep n_steps n_samples draws todo i sm0 log0 last0).
Proof.
  induction todo as [|todo IH]; intros i sm sm0 log log0 last last0 H1 H2 H3 H4 H5 H6; cbn [t_loop].
  - cbn [ext_map]. f_equal. unfold map_run, blind_run. rewrite (off_blind H1 H2). congruence.
  - pose proof (@off_step_all i (draws i) sm sm0 H1 H2 H3) as G.
    destruct (t_step_all pm em i (draws i) sm) as [sm'| | |], (t_step_all pp ep i (draws i) sm0) as [sm0'| | |]; cbn [erel] in G; try contradiction; cbn [ebind ext_map]; auto; [|congruence].
    destruct G as (G1 & G2 & G3). cbv zeta. destruct (n_steps - 1 =? 0); [reflexivity|]. pose proof (off_first G1) as Gf. apply IH; auto.
    + eapply Forall_impl; [|exact G3]. intros a Ha. unfold quiet. rewrite Ha. apply H4. lia.
    + intros j Hj. apply H4. lia.
    + destruct (i mod _ =? 0); auto. destruct (nth_error (chains sm') 0) as [a|], (nth_error (chains sm0') 0) as [b|]; cbn in Gf |- *; try discriminate; auto.
      unfold blind_log, map_log in *. rewrite !map_app, H5. cbn. congruence.
    + destruct (_ && _); auto.
Qed.
Lemma forget_off chs : Forall (settled M) chs -> Forall finite_memory chs -> Forall2 off chs (map (forget_geo M) chs).
Proof.
  induction 1 as [|ch chs (g & G1 & G2) HS IH]; intros HF; cbn [map]; constructor; inversion_clear HF as [|? ? (r & Hr) HF']; auto.
  exists r. rewrite G1 in Hr. injection Hr as ->. conj; auto. rewrite G2. apply prior_shift.
Qed.
Lemma late_loop n_steps n_samples draws todo i sm log last : Forall (settled M) (chains sm) -> Forall finite_memory (chains sm) ->
  checks = false \/ 1000 <= i /\ Forall (fun ch => 1000 <= i_step (c_obj ch)) (chains sm) ->
  ext_map blind_run (ext_map (map_run fst) (t_loop pm em n_steps n_samples draws todo i sm log last)) =
  ext_map blind_run (t_loop pp ep n_steps n_samples draws todo i {| chains := map (forget_geo M) (chains sm); statistics := statistics sm |}
    (map_log fst log) (option_map (map_obj fst) last)).
Proof.
  intros HS HF HL. apply off_loop; auto; [exact (forget_off HS HF)| |].
  - destruct HL as [Hc|[_ HL]]; [apply Forall_forall; intros a _; unfold quiet, due; rewrite Hc; reflexivity|]. eapply Forall_impl; [|exact HL]. intros a Ha. cbv beta in Ha. unfold quiet, due. destruct checks; auto. cbn [andb].
    destruct (Nat.ltb_spec (i_step (c_obj a)) 1000); [lia|reflexivity].
  - intros j Hj. destruct HL as [Hc|[HL _]]; [unfold due; rewrite Hc; reflexivity|]. unfold due. destruct checks; auto. cbn [andb]. destruct (Nat.ltb_spec j 1000); [lia|reflexivity].
Qed.
(** Evaluations settle. *)
Lemma eval_settled i x x' ll p : em i x = Done (x', ll, p) -> exists g, snd x' = Some g /\ p = prior_with M g (fst x') /\ fst x' = fst x /\
  (due checks i = true \/ snd x = None -> g = geo_fn M (fs_clusters (fst x))) /\ (due checks i = false -> forall m, snd x = Some m -> g = m).
Proof.
  destruct x as [s m]. unfold memory_eval. cbn [fst snd].
  set (used := match (if due checks i && negb (su_from_prior su) then None else m) with Some g => g | None => geo_fn M (fs_clusters s) end).
  destruct (checked _ _ _); cbn [negb]; [|discriminate]. destruct (due checks i) eqn:Ed.
  - destruct (xeqb _ _) eqn:Ex; [|discriminate]. intros [= <- _ <-]. exists (geo_fn M (fs_clusters s)). cbn [snd fst].
    split; [reflexivity|]. split; [|split; [reflexivity|split; [reflexivity|discriminate]]].
    clear - Ex. revert Ex. generalize (prior_with M used s), (prior_with M (geo_fn M (fs_clusters s)) s). intros [] []; cbn; try discriminate; auto.
    destruct (Req_EM_T _ _); [congruence|discriminate].
  - intros [= <- _ <-]. exists used. cbn [snd fst]. split; [reflexivity|]. split; [reflexivity|]. split; [reflexivity|]. split.
    + intros [H|H]; [discriminate|]. unfold used. subst m. reflexivity.
    + intros _ m0 ->. reflexivity.
Qed.
Lemma step_settled ch d ch' : t_step pm em ch d = Done (ch', true) -> settled M ch'.
Proof.
  unfold t_step. cbv zeta. destruct (pm _ _ _) as [[c r]|]; [|discriminate]. destruct (em _ _) as [[[x ll] p]| | |] eqn:E; cbn [ebind]; try discriminate.
  apply eval_settled in E as (g & G1 & G2 & _). destruct (accept _ _ _ _ _ _ _) as [[]|]; try discriminate. intros [= <-]. exists g. cbn. auto.
Qed.
Lemma unchecked_run ss n_steps n_samples draws : checks = false -> Forall (fun s => exists r, geo_fn M (fs_clusters s) = Fin r) ss ->
  ext_map blind_run (ext_map (map_run fst) (memory_run su M bpdf dpdf checks (map (fun s => (s, None)) ss) n_steps n_samples draws)) =
  ext_map blind_run (plain_run su (no_geo M) bpdf dpdf checks ss n_steps n_samples draws).
Proof.
  intros Hc HF. unfold memory_run, plain_run, t_generate_samples, t_init.
  assert (G : exists chs chs0, t_init_chains em (map (fun s => (s, None)) ss) = Done chs /\ t_init_chains ep ss = Done chs0 /\ Forall2 off chs chs0).
  { induction HF as [|s ss (r & Hr) HF IH]; cbn [map t_init_chains]; [exists [], []; repeat split; constructor|].
    destruct IH as (chs & chs0 & -> & -> & I). unfold memory_eval, plain_eval, checked, due. rewrite Hc. cbn [negb orb andb ebind].
    eexists. eexists. split; [reflexivity|]. split; [reflexivity|]. constructor; auto.
    exists r. cbn. rewrite Hr. conj; auto. apply prior_shift. }
  destruct G as (chs & chs0 & -> & -> & G). cbn [ebind].
  apply off_loop; auto.
  - apply Forall_forall. intros a _. unfold quiet, due. rewrite Hc. reflexivity.
  - intros j _. unfold due. rewrite Hc. reflexivity.
Qed.
End NoGeo.

(** The sample handed over is valid. *)
Lemma warm_up_valid su ll pr n_ops ws n draws best sm : valid_setup su -> Forall (valid_sample su) ws ->
  drawn su ll pr (init_sampler ll pr (su_from_prior su) n_ops ws) n draws ->
  warm_up ll pr (su_from_prior su) n_ops ws n draws = Ok (Some best, sm) -> valid_sample su (content best).
Proof.
  intros V W0 Hwd Hwu. unfold warm_up in Hwu. destruct (warm_loop _ _ _ _ _ _ _) as [wsm'|] eqn:E; cbn [rbind] in Hwu; [|discriminate].
  injection Hwu as Hb ->. destruct (best_in Hb) as (ch & Hin & <-).
  assert (A := @warm_loop_after _ ll pr (su_from_prior su) draws _ n 0 _ _ eq_refl E). cbn [Nat.add] in A.
  assert (R := @run_valid su ll pr n_ops ws n draws sm W0 Hwd n ltac:(lia) A). rewrite Forall_forall in R. apply R; auto.
Qed.
