(** Lemmas for C100: the states of a run. *)
From Coq Require Import Lra.
From Verif Require Import M_source M_conj M_gweights S_model S_operators S_source S_params S_mcmc S_honest S_gsource S_ergodic S_collapsed
  S_sampler S_progress P_conj P_gweights L_model L_cache L_operators L_source L_params L_balance L_honest L_honest2 L_gsource L_gsource2 L_collapsed L_sampler L_progress S_joint L_joint L_joint2
  L_tracked L_tracked2 L_tracked4 S_program L_program L_program2 P_joint.
From Verif Require Import M_dist M_operators.
Set Implicit Arguments.
Unset Strict Implicit.
Open Scope R_scope.

Lemma plain_interior su bpdf dpdf k ch s r : valid_sample su s -> choice_ok su k ch -> interior_choice ch -> plain_kind su bpdf dpdf k ch s = Some r ->
  proposal_int su s k r.
Proof.
  intros V C I H. pose proof (@plain_proposal su bpdf dpdf k ch s r V C H) as Pr.
  destruct k, ch; cbn [plain_kind] in H; try discriminate; try (apply pi_clusters; [exact Pr|simpl; tauto]); clear Pr; cbn [interior_choice] in I.
  - destruct (fs_source s) as [src|]; [|discriminate]. cbn [option_map] in H. injection H as <-.
    destruct C as (C1 & C2 & C3 & C4 & C5). rewrite map_length in C4.
    destruct (vs_params V) as (P1 & P2 & _).
    erewrite gibbs_rows with (nc := su_nc su); eauto; [|congruence].
    eapply pi_gibbs_weights; [| |reflexivity].
    + split; [|split; [|split; [|split]]]; auto.
      * rewrite mapi_length. auto.
      * apply Forall_forall. intros [a b] Hin. apply In_nth_error in Hin as [f Hf]. rewrite nth_error_mapi in Hf.
        destruct (nth_error a2 f) as [a'|] eqn:Ea; [|discriminate]. injection Hf as <- _. cbn [fst].
        rewrite Forall_map, Forall_forall in C5. apply (C5 a'). eapply nth_error_In; eauto.
    + cbn [interior]. apply Forall_forall. intros [a b] Hin. apply In_nth_error in Hin as [f Hf]. rewrite nth_error_mapi in Hf.
      destruct (nth_error a2 f) as [a'|] eqn:Ea; [|discriminate]. injection Hf as <- _. cbn [fst].
      rewrite Forall_forall in I. apply (I a'). eapply nth_error_In; eauto.
  - injection H as <-. eapply pi_gibbs_effect; eauto. reflexivity.
  - destruct (propose_params _ _ _) as [p|] eqn:E.
    + destruct (alter_pair _ _ _ _ _ _) as [[[row q] qb]|]; injection H as <-; [eapply pi_alter_weights; eauto|apply pi_no_weights].
    + injection H as <-. apply pi_no_weights.
  - destruct (propose_params _ _ _) as [p|] eqn:E.
    + destruct (alter_pair _ _ _ _ _ _) as [[[row q] qb]|]; injection H as <-; [eapply pi_alter_effect; eauto|apply pi_no_effect].
    + injection H as <-. apply pi_no_effect.
Qed.

Lemma eval_view su M checks i s x ll pr : fits su M -> P su M s -> t_eval su M checks i s = Done (x, ll, pr) -> view x = view s.
Proof.
  intros F HP Ee. destruct (@eval_sim su M F checks i s HP) as [E _]. rewrite Ee in E. cbn [ext_map] in E.
  unfold memory_eval, mview in E. destruct (negb _); [discriminate|]. destruct (due checks _); [destruct (xeqb _ _); [|discriminate]|];
  exact (eq_sym (f_equal (fun y : ext (memory * xf * xf) => match y with Done (m, _, _) => fst m | _ => view s end) E)).
Qed.
Lemma init_view su M bpdf dpdf checks s draws b sm ch : fits su M -> P su M s ->
  tracked_warm_up su M bpdf dpdf checks [s] 0 draws = Done (b, sm) -> chains sm = [ch] -> view (content (c_obj ch)) = view s.
Proof.
  intros F HP E Ec. unfold tracked_warm_up, t_warm_up in E. cbn [t_warm_loop] in E. unfold t_init in E. cbn [t_init_chains] in E.
  destruct (t_eval su M checks 0 s) as [[[x ll] pr]| | |] eqn:Ee; cbn [ebind] in E; try discriminate.
  injection E as _ E. subst sm. cbn [chains] in Ec. injection Ec as <-. cbn [c_obj content]. exact (eval_view F HP Ee).
Qed.

Section Program.
Variable su : setup.
Variables (size geo : bmat -> xf).
Variable lnB : list R -> R.
Variable dpdf : list Q -> list Q -> R.
Variable bpdf : R -> R -> R -> R.
Variable prs : nat -> nat -> effect_prior.
Variable checks : bool.
Notation r0 := (by_size size).
Hypothesis JS : joint_setting su dpdf prs r0.
Hypothesis Hsize : forall cl, log_density (size cl).
Notation M := (configured_model su size geo lnB prs).
Notation safe := (safe geo checks).
Notation prop := (tracked_propose su M bpdf dpdf).
Notation ev := (t_eval su M checks).

Definition good_draw (d : tdraw) : Prop := draw_ok su d /\ interior_choice (td_choice d).

(** The values of an object that remembers [g] are those of its contents. *)
Lemma eval_running i s g : history M s -> positive_sample su (view s) -> remembers s (Fin g) -> safe g ->
  exists s', ev i s = Done (s', if su_from_prior su then Fin 0 else scratch_ll M (view s), prior_with M (Fin g) (view s)) /\
    history M s' /\ view s' = view s /\ remembers s' (Fin g).
Proof.
  intros H PS R S. destruct (@eval_value su size geo lnB dpdf prs checks JS Hsize i s g H PS R S) as (s' & E & K).
  exists s'. rewrite (@ll_value su size geo lnB prs (js_setup JS) _ PS), (@prior_value su size geo lnB prs (js_setup JS) Hsize (view s) g PS). split; auto.
Qed.

Lemma step_running g ch d : running su M g ch -> safe g -> good_draw d ->
  match t_step prop ev ch d with Done (ch', _) => running su M g ch' | Assertion => False | _ => True end.
Proof.
  intros [R1 R2 R3 R4 R5] S [D1 D2]. pose proof (configured_fits size geo lnB prs (js_setup JS)) as F.
  unfold t_step, tracked_propose. set (s := content (c_obj ch)) in *.
  destruct (nth_error (operators su) (td_op d)) as [k|] eqn:Ek; [|exact I].
  pose proof (D1 k Ek) as C. pose proof (@kind_sim su M F bpdf dpdf k (td_choice d) s (conj R1 (proj1 R2)) C) as K.
  destruct (t_propose su M bpdf dpdf k (td_choice d) s) as [[c r]|]; [|exact I].
  destruct (plain_kind su bpdf dpdf k (td_choice d) (view s)) as [r'|] eqn:Er; [|contradiction].
  cbn [prop_sim] in K. destruct K as (K1 & K2 & K3 & K4).
  pose proof (proposal_positive R2 (@plain_interior su bpdf dpdf k (td_choice d) (view s) r' (proj1 R2) C D2 Er)) as PS.
  assert (Ev : view (res_content c r) = res_content (view s) r').
  { subst r'. destruct r; cbn [map_result res_content] in *; auto. apply (kept_view K4). }
  rewrite <- Ev in PS.
  assert (Rm : remembers (res_content c r) (Fin g)) by (apply remembers_memory; rewrite K3; apply remembers_memory; exact R3).
  destruct (@eval_running (i_step (c_obj ch)) (res_content c r) g K2 PS Rm S) as (x & E & X1 & X2 & X3).
  cbv zeta. rewrite E. cbn [ebind].
  destruct (accept _ _ _ _ _ _ _) as [[|]|e] eqn:Ea; [| |exact I].
  - split; cbn [c_obj content c_ll c_prior]; rewrite ?X2; auto.
  - destruct r as [|s'|s' q qb|s' q qb]; cbn [res_aliased].
    + cbn [res_content] in *. split; cbn [c_obj content c_ll c_prior]; rewrite ?X2; auto; rewrite (kept_view K4); auto.
    + cbn in Ea. discriminate.
    + split; cbn [c_obj content c_ll c_prior]; auto; try apply K4; try (rewrite (kept_view K4); auto).
      apply remembers_memory. rewrite (geo_memory_eq (s := s) (s' := c)); [apply remembers_memory; exact R3|apply K4].
    + exfalso. subst r'. clear - Er. destruct k, (td_choice d); cbn in Er; try discriminate; unfold option_map in Er.
      all: try (unfold nth_plain in Er; destruct (nth_error _ _) as [[[] ?]|]; cbn in Er; discriminate).
      all: repeat match type of Er with context [match ?x with _ => _ end] => destruct x end; try discriminate.
Qed.

(** * All steps *)
Definition fine (ch : chain tsample) : Prop := exists g, safe g /\ running su M g ch.
Lemma chains_fine i draws : (forall c, good_draw (draws c)) -> forall chs c st, Forall fine chs ->
  match t_step_chains prop ev i draws c chs st with Done (chs', _) => Forall fine chs' | Assertion => False | _ => True end.
Proof.
  intros Hd. induction chs as [|ch chs IH]; intros c st H; [constructor|]. apply Forall_cons_iff in H as [(g & S & R) H].
  cbn [t_step_chains]. pose proof (step_running R S (Hd c)) as K. destruct (t_step prop ev ch (draws c)) as [[ch' acc]| | |]; cbn [ebind]; auto.
  pose proof (IH (Datatypes.S c) (register (td_op (draws c)) acc st) H) as K'.
  destruct (t_step_chains prop ev i draws (Datatypes.S c) chs (register (td_op (draws c)) acc st)) as [[chs' st']| | |]; cbn [ebind]; auto.
  constructor; auto.
  exists g. split; auto. destruct K as [K1 K2 K3 K4 K5]. split; cbn [c_obj content c_ll c_prior]; auto.
Qed.
Lemma all_fine i draws sm : (forall c, good_draw (draws c)) -> Forall fine (chains sm) ->
  match t_step_all prop ev i draws sm with Done sm' => Forall fine (chains sm') | Assertion => False | _ => True end.
Proof.
  intros Hd H. unfold t_step_all. pose proof (@chains_fine i draws Hd (chains sm) 0%nat (statistics sm) H) as K.
  destruct (t_step_chains _ _ _ _ _ _ _) as [[chs st]| | |]; cbn [ebind]; auto.
Qed.
Lemma loop_fine n_steps n_samples draws : (forall i c, good_draw (draws i c)) -> forall todo i sm log last, Forall fine (chains sm) ->
  match t_loop prop ev n_steps n_samples draws todo i sm log last with Done (sm', _, _) => Forall fine (chains sm') | Assertion => False | _ => True end.
Proof.
  intros Hd. induction todo as [|todo IH]; intros i sm log last H; cbn [t_loop]; auto.
  pose proof (@all_fine i (draws i) sm (Hd i) H) as K. destruct (t_step_all prop ev i (draws i) sm) as [sm'| | |]; cbn [ebind]; auto.
  cbv zeta. destruct (n_steps - 1 =? 0)%nat; auto. apply IH. exact K.
Qed.
Lemma warm_fine draws : (forall i c, good_draw (draws i c)) -> forall todo i sm, Forall fine (chains sm) ->
  match t_warm_loop prop ev draws todo i sm with Done sm' => Forall fine (chains sm') | Assertion => False | _ => True end.
Proof.
  intros Hd. induction todo as [|todo IH]; intros i sm H; cbn [t_warm_loop]; auto.
  pose proof (@all_fine i (draws i) sm (Hd i) H) as K. destruct (t_step_all prop ev i (draws i) sm) as [sm'| | |]; cbn [ebind]; auto.
  exact (IH (Datatypes.S i) sm' K).
Qed.

(** * Initial samples *)
Lemma first_fine s : history M s -> positive_sample su (view s) -> geo_memory s = None -> (exists g, geo (tv_clusters s) = Fin g /\ safe g) ->
  match ev 0 s with
  | Done (x, ll, pr) => fine {| c_obj := {| content := x; i_step := 0; last_lh := Some ll; last_prior := Some pr |}; c_ll := ll; c_prior := pr |}
  | _ => False end.
Proof.
  intros H PS Hm (g & Hg & S). pose proof (configured_fits size geo lnB prs (js_setup JS)) as F.
  destruct (@eval_sim su M F checks 0 s (conj H (proj1 PS))) as [E K].
  pose proof (@ll_value su size geo lnB prs (js_setup JS) _ PS) as Lv. pose proof (@prior_value su size geo lnB prs (js_setup JS) Hsize (view s) g PS) as Pv.
  assert (Nl : log_density (full_ll su (fs_params (view s)) (fs_cstate (view s)))) by apply full_ll_density.
  assert (Np : log_density (full_prior su lnB prs r0 (fs_params (view s)) (fs_cstate (view s)))) by apply full_prior_density.
  assert (Em : memory_eval su M checks 0 (mview s) = Done ((view s, Some (Fin g)), if su_from_prior su then Fin 0 else scratch_ll M (view s), prior_with M (Fin g) (view s))).
  { unfold memory_eval, mview. rewrite Hm. change (fs_clusters (view s)) with (tv_clusters s).
    change (geo_fn M (tv_clusters s)) with (geo (tv_clusters s)). rewrite Hg.
    set (LL := if su_from_prior su then Fin 0 else scratch_ll M (view s)) in *.
    assert (C : checked checks 0 LL = true) by (unfold checked; rewrite Lv; destruct (full_ll _ _ _); try contradiction; apply orb_true_r). rewrite C. cbn [negb].
    assert (U : (if due checks 0 && negb (su_from_prior su) then None else None) = @None xf) by (destruct (_ && _)%bool; reflexivity). rewrite U.
    destruct (due checks 0); auto. rewrite xeqb_refl, Pv. destruct (full_prior _ _ _ _ _ _); try contradiction; reflexivity. }
  rewrite Em in E. destruct (ev 0 s) as [[[x ll] pr]| | |]; try discriminate. cbn [ext_map] in E. clear Em.
  assert (E1 : view s = view x) by exact (f_equal (fun y : ext (memory * xf * xf) => match y with Done (m, _, _) => fst m | _ => view s end) E).
  assert (E2 : Some (Fin g) = geo_memory x) by exact (f_equal (fun y : ext (memory * xf * xf) => match y with Done (m, _, _) => snd m | _ => None end) E).
  assert (E3 : (if su_from_prior su then Fin 0 else scratch_ll M (view s)) = ll) by exact (f_equal (fun y : ext (memory * xf * xf) => match y with Done (_, z, _) => z | _ => ll end) E).
  assert (E4 : prior_with M (Fin g) (view s) = pr) by exact (f_equal (fun y : ext (memory * xf * xf) => match y with Done (_, _, z) => z | _ => pr end) E).
  destruct (K x ll pr eq_refl) as [K1 _]. exists g. split; auto. split; cbn [c_obj content c_ll c_prior].
  - exact K1.
  - rewrite <- E1. exact PS.
  - apply remembers_memory. congruence.
  - rewrite <- E1. congruence.
  - rewrite <- E1. congruence.
Qed.
Lemma init_fine n_ops ss : Forall (fun s => history M s /\ positive_sample su (view s) /\ geo_memory s = None /\ exists g, geo (tv_clusters s) = Fin g /\ safe g) ss ->
  match t_init ev n_ops ss with Done sm => Forall fine (chains sm) /\ length (chains sm) = length ss | _ => False end.
Proof.
  intros H. unfold t_init. assert (K : match t_init_chains ev ss with Done chs => Forall fine chs /\ length chs = length ss | _ => False end).
  { induction H as [|s ss (H1 & H2 & H3 & H4) H IH]; [split; [constructor|reflexivity]|]. cbn [t_init_chains].
    pose proof (first_fine H1 H2 H3 H4) as K. destruct (ev 0 s) as [[[x ll] pr]| | |]; try contradiction. cbn [ebind].
    destruct (t_init_chains ev ss) as [chs| | |]; try contradiction. cbn [ebind length]. destruct IH. split; [constructor; auto|lia]. }
  destruct (t_init_chains ev ss) as [chs| | |]; try contradiction. exact K.
Qed.
Lemma starts_fine prev k' ss : match prev with None => True | Some p => positive_sample (with_k su k') p end ->
  Forall (t_starts su M prev) ss -> (forall s, In s ss -> exists g, geo (fs_clusters (view s)) = Fin g /\ safe g) ->
  Forall (fun s => history M s /\ positive_sample su (view s) /\ geo_memory s = None /\ exists g, geo (tv_clusters s) = Fin g /\ safe g) ss.
Proof.
  intros Hp HS Hg. pose proof (configured_fits size geo lnB prs (js_setup JS)) as F. pose proof (co_valid (js_setup JS)) as V.
  rewrite Forall_forall in HS. apply Forall_forall. intros s Hs.
  assert (Hv : match prev with None => True | Some p => valid_sample (with_k su k') p end) by (destruct prev; auto; apply Hp).
  destruct (@t_starts_spec su M F prev k' s V Hv (HS s Hs)) as (S1 & [S2 _] & S3).
  split; [exact S2|]. split; [eapply starts_positive_k; eauto|]. split; [exact S3|exact (Hg s Hs)].
Qed.

(** * Moves are steps *)
Lemma target_params m y s : target su (Discrete m y) s = {| fs_clusters := x_clusters y; fs_params := fs_params s; fs_source := x_source y |}.
Proof. reflexivity. Qed.
Lemma call_target op u s : history M s -> positive_sample su (view s) -> draws_ok (su_nc su) (su_applicable su) op -> move_ok op (view s) -> bits_match su bpdf op u (view s) ->
  exists c r, t_propose su M bpdf dpdf (fst (call_of op u)) (snd (call_of op u)) s = Some (c, r) /\
    view (res_content c r) = target su (Param op) (view s) /\ history M (res_content c r) /\ geo_memory (res_content c r) = geo_memory s /\
    match op with
    | GibbsWeights _ _ _ | GibbsEffect _ _ _ => exists s', r = RGibbs s'
    | AlterWeights f i j d => match alter_pair dpdf prec_weights (nth f (p_weights (fs_params (view s))) []) i j d with
        Some (_, q, qb) => exists s', r = RCopy s' (Fin q) (Fin qb) | None => exists s', r = RCopy s' (Fin 0) NInf end
    | AlterEffect which g f i j d => match alter_pair dpdf (prec_effect which) (nth f (get_effect which g (fs_params (view s))) []) i j d with
        Some (_, q, qb) => exists s', r = RCopy s' (Fin q) (Fin qb) | None => exists s', r = RCopy s' (Fin 0) NInf end
    end.
Proof.
  intros H PS D Mo B. pose proof (configured_fits size geo lnB prs (js_setup JS)) as F.
  assert (C : choice_ok su (fst (call_of op u)) (snd (call_of op u))).
  { destruct op as [f i j d|i j draws|which g f i j d|which g draws]; cbn [call_of fst snd choice_ok]; auto.
    destruct D as (D1 & D2 & D3 & D4 & D5). split; [|split; [|split; [|split]]]; auto.
    - rewrite !map_length. exact D4.
    - apply Forall_map, Forall_map. exact D5. }
  pose proof (@kind_sim su M F bpdf dpdf _ _ s (conj H (proj1 PS)) C) as K.
  set (pl := plain_kind su bpdf dpdf (fst (call_of op u)) (snd (call_of op u)) (view s)) in *.
  assert (E : exists r', pl = Some r' /\ res_content (view s) r' = target su (Param op) (view s) /\ 
    match op with
    | GibbsWeights _ _ _ | GibbsEffect _ _ _ => exists s', r' = RGibbs s'
    | AlterWeights f i j d => match alter_pair dpdf prec_weights (nth f (p_weights (fs_params (view s))) []) i j d with
        Some (_, q, qb) => exists s', r' = RCopy s' (Fin q) (Fin qb) | None => exists s', r' = RCopy s' (Fin 0) NInf end
    | AlterEffect which g f i j d => match alter_pair dpdf (prec_effect which) (nth f (get_effect which g (fs_params (view s))) []) i j d with
        Some (_, q, qb) => exists s', r' = RCopy s' (Fin q) (Fin qb) | None => exists s', r' = RCopy s' (Fin 0) NInf end
    end).
  { unfold pl. destruct op as [f i j d|i j draws|which g f i j d|which g draws]; cbn [call_of fst snd plain_kind target].
    - cbn [propose_params]. pose proof (alter_pair_any (fun _ _ => tt) dpdf prec_weights (nth f (p_weights (fs_params (view s))) []) i j d) as A.
      destruct (alter_pair (fun _ _ => tt) _ _ _ _ _) as [[[row ?] ?]|], (alter_pair dpdf _ _ _ _ _) as [[[row' q] qb]|]; try contradiction; cbn [option_map].
      + eexists. split; [reflexivity|]. split; [reflexivity|]. eexists; reflexivity.
      + eexists. split; [reflexivity|]. split; [reflexivity|]. eexists; reflexivity.
    - cbn [propose_params]. cbn [move_ok] in Mo. cbn [bits_match] in B. destruct (fs_source (view s)) as [src|]; [|congruence]. cbn [option_map].
      eexists. split; [reflexivity|]. split; [|eexists; reflexivity]. cbn [res_content]. unfold with_weights_of. f_equal. f_equal.
      destruct (vs_params (proj1 PS)) as (P1 & P2 & _). destruct D as (D1 & D2 & D3 & D4 & D5). destruct B as [B1 B2].
      rewrite gibbs_rows with (nc := su_nc su); auto; [|rewrite map_length; congruence].
      f_equal. apply nth_error_ext. intros f. rewrite nth_error_mapi, nth_error_map. destruct (nth_error draws f) as [[a b]|] eqn:Ef; [|reflexivity].
      cbn [option_map fst]. rewrite <- (B2 f _ Ef). reflexivity.
    - cbn [propose_params]. pose proof (alter_pair_any (fun _ _ => tt) dpdf (prec_effect which) (nth f (get_effect which g (fs_params (view s))) []) i j d) as A.
      destruct (alter_pair (fun _ _ => tt) _ _ _ _ _) as [[[row ?] ?]|], (alter_pair dpdf _ _ _ _ _) as [[[row' q] qb]|]; try contradiction; cbn [option_map].
      + eexists. split; [reflexivity|]. split; [reflexivity|]. eexists; reflexivity.
      + eexists. split; [reflexivity|]. split; [reflexivity|]. eexists; reflexivity.
    - cbn [propose_params option_map]. eexists. split; [reflexivity|]. split; [reflexivity|]. eexists; reflexivity. }
  destruct E as (r' & E & T & Sh). rewrite E in K.
  destruct (t_propose su M bpdf dpdf _ _ s) as [[c r]|]; [|contradiction]. cbn [prop_sim] in K. destruct K as (K1 & K2 & K3 & K4).
  exists c, r. split; [reflexivity|]. split; [|split; [exact K2|split; [exact K3|]]].
  - rewrite <- T, <- K1. destruct r; cbn [map_result res_content] in *; auto. apply (kept_view K4).
  - rewrite <- K1 in Sh. clear - Sh.
    assert (G : forall q qb, (exists s', map_result view r = RCopy s' q qb) -> exists s', r = RCopy s' q qb).
    { intros q qb [s' E]. destruct r; try discriminate. injection E as <- <- <-. eauto. }
    assert (G' : (exists s', map_result view r = RGibbs s') -> exists s', r = RGibbs s').
    { intros [s' E]. destruct r; try discriminate. eauto. }
    destruct op as [f i j d|i j draws|which g f i j d|which g draws]; auto; destruct (alter_pair _ _ _ _ _ _) as [[[? ?] ?]|]; auto.
Qed.

Lemma acc_nonneg ll l0 p p0 q qb : 0 <= acc_prob 1 ll l0 p p0 q qb.
Proof.
  unfold acc_prob. destruct (is_ninf qb); [lra|]. destruct (is_ninf q); [lra|]. destruct (metropolis_hastings_ratio _ _ _ _ _ _ _) as [r| | |]; try lra.
  apply Rmin_glb; [lra|]. apply Rlt_le, exp_pos.
Qed.
Lemma accepted_nonneg ch s' q qb : 0 <= accepted su M checks ch s' q qb.
Proof. unfold accepted. destruct (t_eval _ _ _ _ _) as [[[? ?] ?]| | |]; try lra. apply acc_nonneg. Qed.
(** The acceptance step accepts with every uniform draw below the acceptance probability. *)
Lemma accept_below ll l0 p p0 q qb u : 0 < u < acc_prob 1 ll l0 p p0 q qb -> accept ll l0 p p0 q qb u = Ok true.
Proof.
  intros [H0 H]. unfold acc_prob in H. unfold accept. destruct (is_ninf qb); [lra|]. destruct (is_ninf q); [reflexivity|].
  unfold math_log. destruct (Rlt_dec 0 u) as [L|]; [|lra]. cbn [rbind]. f_equal.
  destruct (metropolis_hastings_ratio _ _ _ _ _ _ _) as [r| | |]; cbn [xlt]; auto; try lra.
  assert (u < exp r) by (eapply Rlt_le_trans; [exact H|apply Rmin_r]).
  destruct (Rlt_dec (ln u) r) as [|N]; [reflexivity|]. exfalso. apply N. rewrite <- (ln_exp r). apply ln_increasing; auto.
Qed.
Lemma positive_term A (f : A -> R) l : 0 < S_mcmc.Rsum (map f l) -> exists x, In x l /\ 0 < f x.
Proof.
  induction l as [|x l IH]; unfold S_mcmc.Rsum in *; cbn [map fold_right]; [lra|]. intros H. destruct (Rlt_dec 0 (f x)) as [L|N].
  - exists x. split; [left; reflexivity|exact L].
  - destruct IH as (y & Hy & L); [lra|]. exists y. split; [right; exact Hy|exact L].
Qed.
Lemma made_discrete m y ch g op : running su M g ch -> nth_error (operators su) op = Some (move_kind m) ->
  0 < object_density su M lnB dpdf bpdf prs checks (Discrete m y) ch ->
  exists n u ch', 0 < u < 1 /\ t_step prop ev ch {| td_op := op; td_choice := CNth n; td_u := u |} = Done (ch', true) /\
    view (content (c_obj ch')) = target su (Discrete m y) (view (content (c_obj ch))).
Proof.
  intros R Eo H. pose proof (configured_fits size geo lnB prs (js_setup JS)) as F. set (s := content (c_obj ch)) in *. cbn [object_density] in H. fold s in H.
  apply positive_term in H as ([[c o] p] & Hin & Hp). destruct o as [|s' q qb|]; try lra. destruct (cstate_eq_dec _ y) as [Ey|]; [|lra].
  set (a := accepted su M checks ch s' (log_q q) (log_q qb)) in *. pose proof (accepted_nonneg ch s' (log_q q) (log_q qb)) as Ha. fold a in Ha.
  assert (Pa : 0 < a) by (destruct (Rle_lt_or_eq_dec _ _ Ha) as [|E]; auto; rewrite <- E in Hp; lra).
  assert (Pp : Qeq_bool p 0 = false).
  { destruct (Qeq_bool p 0) eqn:E; auto. apply Qeq_bool_iff, Qeq_eqR in E. rewrite E, RMicromega.Q2R_0 in Hp. lra. }
  assert (Hpo : In (c, TPropose s' q qb, p) (possible (run_tracked su M (move_kind m) s))) by (apply filter_In; split; [exact Hin|rewrite Pp; reflexivity]).
  apply In_nth_error in Hpo as [n Hn].
  assert (Pr : t_propose su M bpdf dpdf (move_kind m) (CNth n) s = Some (c, match m with Source => RGibbs s' | _ => RCopy s' (log_q q) (log_q qb) end)).
  { destruct m as [[]|]; cbn [move_kind t_propose run_tracked] in *; unfold nth_result; rewrite Hn; reflexivity. }
  pose proof (@kind_sim su M F bpdf dpdf (move_kind m) (CNth n) s (conj (ru_history R) (proj1 (ru_sample R)))) as K.
  assert (C : choice_ok su (move_kind m) (CNth n)) by (destruct m as [[]|]; exact I). specialize (K C). rewrite Pr in K.
  destruct (plain_kind su bpdf dpdf (move_kind m) (CNth n) (view s)) as [r'|] eqn:Er; [|contradiction]. cbn [prop_sim] in K. destruct K as (K1 & K2 & K3 & K4).
  assert (Ep : fs_params (view s') = fs_params (view s)).
  { clear - K1 Er. destruct m as [[]|]; cbn [move_kind plain_kind map_result] in *; unfold nth_plain in Er;
      destruct (nth_error _ n) as [[[|y' q' qb'|] p']|]; cbn [cluster_result source_result] in Er; try discriminate; subst r'; try discriminate.
    - assert (E : view s' = {| fs_clusters := x_clusters y'; fs_params := fs_params (view s); fs_source := x_source y' |}) by congruence. rewrite E. reflexivity.
    - assert (E : view s' = {| fs_clusters := x_clusters y'; fs_params := fs_params (view s); fs_source := x_source y' |}) by congruence. rewrite E. reflexivity.
    - assert (E : view s' = {| fs_clusters := x_clusters y'; fs_params := fs_params (view s); fs_source := x_source y' |}) by congruence. rewrite E. reflexivity.
    - assert (E : view s' = {| fs_clusters := fs_clusters (view s); fs_params := fs_params (view s); fs_source := x_source y' |}) by congruence. rewrite E. reflexivity. }
  assert (Ev : view s' = target su (Discrete m y) (view s)).
  { cbn [target]. rewrite <- Ey, <- Ep. destruct (view s') as [? ? ?]. reflexivity. }
  assert (V' : valid_sample su (view s')).
  { pose proof (@plain_proposal su bpdf dpdf _ _ _ _ (proj1 (ru_sample R)) C Er) as Pl. apply (proposal_valid (proj1 (ru_sample R))) in Pl.
    destruct m as [[]|]; cbn [map_result] in K1; subst r'; exact Pl. }
  assert (H' : history M s') by (destruct m as [[]|]; exact K2).
  unfold a, accepted in Pa. destruct (t_eval su M checks (i_step (c_obj ch)) s') as [[[x ll] pr]| | |] eqn:Ee; try lra.
  assert (Vx : view x = view s') by (eapply eval_view; eauto; split; auto).
  set (al := acc_prob 1 ll (c_ll ch) pr (c_prior ch) (log_q q) (log_q qb)) in *.
  assert (L1 : al <= 1).
  { unfold al, acc_prob. destruct (is_ninf _); [lra|]. destruct (is_ninf _); [lra|]. destruct (metropolis_hastings_ratio _ _ _ _ _ _ _); try lra. apply Rmin_l. }
  exists n, (al / 2), {| c_obj := {| content := x; i_step := i_step (c_obj ch); last_lh := Some ll; last_prior := Some pr |}; c_ll := ll; c_prior := pr |}.
  split; [lra|]. split; [|cbn [c_obj content]; congruence].
  unfold t_step, tracked_propose. cbn [td_op td_choice td_u]. rewrite Eo. fold s. rewrite Pr.
  assert (Er' : res_content c (match m with Source => RGibbs s' | _ => RCopy s' (log_q q) (log_q qb) end) = s') by (destruct m; reflexivity).
  rewrite Er', Ee. cbn [ebind].
  assert (Ac : accept ll (c_ll ch) pr (c_prior ch) (log_q q) (log_q qb) (al / 2) = Ok true) by (apply accept_below; fold al; lra).
  destruct m as [o|].
  - cbn [res_q res_q_back]. rewrite Ac. reflexivity.
  - reflexivity.
Qed.
Lemma made_param op us ch g o : running su M g ch -> safe g -> nth_error (operators su) o = Some (fst (call_of op us)) ->
  admissible_move su (Param op) (view (content (c_obj ch))) -> bits_match su bpdf op us (view (content (c_obj ch))) ->
  0 < object_density su M lnB dpdf bpdf prs checks (Param op) ch ->
  exists u ch', 0 < u < 1 /\ t_step prop ev ch {| td_op := o; td_choice := snd (call_of op us); td_u := u |} = Done (ch', true) /\
    view (content (c_obj ch')) = target su (Param op) (view (content (c_obj ch))).
Proof.
  intros R S Eo (A1 & A2 & A3) B H. set (s := content (c_obj ch)) in *.
  destruct (@call_target op us s (ru_history R) (ru_sample R) A1 A3 B) as (c & r & Pr & Ev & Hh & Hg & Sh).
  assert (PS : positive_sample su (view (res_content c r))).
  { rewrite Ev. cbn [target]. destruct (propose_params (su_applicable su) op (fs_params (view s))) as [p'|] eqn:Ep; [|apply (ru_sample R)].
    destruct (C95_reversible su lnB dpdf bpdf prs r0 (Param op) (view s) JS (ru_sample R)) as [T _]; [split; auto|]. cbn [target] in T. rewrite Ep in T. exact T. }
  assert (Rm : remembers (res_content c r) (Fin g)) by (apply remembers_memory; rewrite Hg; apply remembers_memory; exact (ru_geo R)).
  destruct (@eval_running (i_step (c_obj ch)) (res_content c r) g Hh PS Rm S) as (x & Ee & X1 & X2 & X3).
  set (ll := if su_from_prior su then Fin 0 else scratch_ll M (view (res_content c r))) in *. set (pr := prior_with M (Fin g) (view (res_content c r))) in *.
  set (al := acc_prob 1 ll (c_ll ch) pr (c_prior ch) (res_q r) (res_q_back r)).
  assert (Pa : 0 < al).
  { destruct op as [f i j d|i j draws|which gr f i j d|which gr draws].
    - cbn [object_density] in H. fold s in H. cbn [call_of fst snd t_propose] in Pr.
      assert (Er : t_alter_weights M dpdf f i j d s = r) by congruence. rewrite Er in H.
      destruct (alter_pair _ _ _ _ _ _) as [[[? q] qb]|]; destruct Sh as [s' Sh]; rewrite Sh in H; cbn [copy_density] in H; [|lra].
      unfold accepted in H. subst r. cbn [res_content] in Ee. rewrite Ee in H. fold al in H. unfold al. cbn [res_q res_q_back].
      apply (Rmult_lt_reg_l (exp q)); [apply exp_pos|]. rewrite Rmult_0_r. exact H.
    - destruct Sh as [s' ->]. unfold al, acc_prob. cbn [res_q res_q_back is_ninf]. lra.
    - cbn [object_density] in H. fold s in H. cbn [call_of fst snd t_propose] in Pr.
      assert (Er : t_alter_effect M dpdf which gr f i j d s = r) by congruence. rewrite Er in H.
      destruct (alter_pair _ _ _ _ _ _) as [[[? q] qb]|]; destruct Sh as [s' Sh]; rewrite Sh in H; cbn [copy_density] in H; [|lra].
      unfold accepted in H. subst r. cbn [res_content] in Ee. rewrite Ee in H. fold al in H. unfold al. cbn [res_q res_q_back].
      apply (Rmult_lt_reg_l (exp q)); [apply exp_pos|]. rewrite Rmult_0_r. exact H.
    - destruct Sh as [s' ->]. unfold al, acc_prob. cbn [res_q res_q_back is_ninf]. lra. }
  assert (L1 : al <= 1).
  { unfold al, acc_prob. destruct (is_ninf _); [lra|]. destruct (is_ninf _); [lra|]. destruct (metropolis_hastings_ratio _ _ _ _ _ _ _); try lra. apply Rmin_l. }
  exists (al / 2), {| c_obj := {| content := x; i_step := i_step (c_obj ch); last_lh := Some ll; last_prior := Some pr |}; c_ll := ll; c_prior := pr |}.
  split; [lra|]. split; [|cbn [c_obj content]; congruence].
  unfold t_step, tracked_propose. cbn [td_op td_choice td_u]. rewrite Eo. fold s. rewrite Pr. rewrite Ee. cbn [ebind].
  rewrite (@accept_below ll (c_ll ch) pr (c_prior ch) (res_q r) (res_q_back r) (al / 2)); [reflexivity|]. fold al. lra.
Qed.
End Program.
