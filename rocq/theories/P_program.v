(** C100: reversibility of the steps of the program, with its caches and copies. *)
From Coq Require Import Lra.
From Verif Require Import M_source M_conj M_gweights S_model S_operators S_source S_params S_mcmc S_honest S_gsource S_ergodic S_collapsed
  S_sampler S_progress P_conj P_gweights P_sampler P_progress P_joint P_tracked L_tracked L_tracked2 L_tracked4 L_sampler L_progress L_joint2 L_program L_program2 L_program3 S_program.
From Verif Require Import M_dist M_operators.
Open Scope R_scope.

(** C100, probabilities: on an object of a run, with its cache, every step makes every move with the probability or
    density of C95, with the size prior as prior of the clusters. *)
Theorem C100_density : forall su size geo lnB dpdf bpdf prs checks g mv ch, joint_setting su dpdf prs (by_size size) ->
  (forall cl, log_density (size cl)) -> let M := configured_model su size geo lnB prs in
  running su M g ch -> safe geo checks g -> admissible_move su mv (view (content (c_obj ch))) ->
  object_density su M lnB dpdf bpdf prs checks mv ch = density su lnB dpdf bpdf prs (by_size size) mv (view (content (c_obj ch))).
Proof.
  intros su size geo lnB dpdf bpdf prs checks g mv ch JS Hs M R S A. eapply object_value; eauto.
  exact (proj1 (C95_reversible su lnB dpdf bpdf prs (by_size size) mv _ JS (ru_sample R) A)).
Qed.
Print Assumptions C100_density.

(** C100, reversibility: for the posterior without the geo-prior the steps on objects are in detailed balance.  Missing
    for the configured posterior: the geo-prior, see below. *)
Theorem C100_reversible_partial : forall su size geo lnB dpdf bpdf prs checks g g' mv ch ch', joint_setting su dpdf prs (by_size size) ->
  (forall cl, log_density (size cl)) -> let M := configured_model su size geo lnB prs in
  running su M g ch -> running su M g' ch' -> safe geo checks g -> safe geo checks g' ->
  let s := view (content (c_obj ch)) in let s' := view (content (c_obj ch')) in
  admissible_move su mv s -> s' = target su mv s ->
  joint_density su lnB prs (by_size size) s * object_density su M lnB dpdf bpdf prs checks mv ch =
  joint_density su lnB prs (by_size size) s' * object_density su M lnB dpdf bpdf prs checks (reverse su mv s) ch'.
Proof.
  intros su size geo lnB dpdf bpdf prs checks g g' mv ch ch' JS Hs M R R' S S' s s' A T.
  destruct (C95_reversible su lnB dpdf bpdf prs (by_size size) mv s JS (ru_sample R) A) as (_ & Ab & _ & E). rewrite <- T in *.
  pose proof (C100_density su size geo lnB dpdf bpdf prs checks g mv ch JS Hs R S A) as D.
  pose proof (C100_density su size geo lnB dpdf bpdf prs checks g' (reverse su mv s) ch' JS Hs R' S' Ab) as D'.
  cbv zeta in D, D'. fold M s s' in D, D'. rewrite D, D'. exact E.
Qed.
Print Assumptions C100_reversible_partial.

(** C100, constant geo-prior (in particular none): the configured posterior is balanced, with or without assertions. *)
Theorem C100_constant : forall su size geo lnB dpdf bpdf prs checks g mv ch ch', joint_setting su dpdf prs (by_size size) ->
  (forall cl, log_density (size cl)) -> (forall cl, geo cl = Fin g) -> let M := configured_model su size geo lnB prs in
  running su M g ch -> running su M g ch' ->
  let s := view (content (c_obj ch)) in let s' := view (content (c_obj ch')) in
  admissible_move su mv s -> s' = target su mv s ->
  joint_density su lnB prs (by_size_and_geo size geo) s * object_density su M lnB dpdf bpdf prs checks mv ch =
  joint_density su lnB prs (by_size_and_geo size geo) s' * object_density su M lnB dpdf bpdf prs checks (reverse su mv s) ch'.
Proof.
  intros su size geo lnB dpdf bpdf prs checks g mv ch ch' JS Hs Hg M R R' s s' A T.
  assert (S : safe geo checks g) by (right; exact Hg).
  pose proof (C100_reversible_partial su size geo lnB dpdf bpdf prs checks g g mv ch ch' JS Hs R R' S S A T) as E. fold s s' M in E.
  assert (J : forall x, joint_density su lnB prs (by_size_and_geo size geo) x = exp g * joint_density su lnB prs (by_size size) x).
  { intros x. unfold joint_density, by_size_and_geo, by_size. rewrite Hg. cbn [dens]. ring. }
  rewrite !J, !Rmult_assoc. f_equal. exact E.
Qed.
Print Assumptions C100_constant.

(** C100, moves are steps: every admissible move with a positive density is made, for suitable draws, by the operator
    it belongs to; the new sample of the chain has the contents that the move leads to. *)
Theorem C100_made : forall su size geo lnB dpdf bpdf prs checks g mv ch, joint_setting su dpdf prs (by_size size) ->
  (forall cl, log_density (size cl)) -> let M := configured_model su size geo lnB prs in
  running su M g ch -> safe geo checks g -> admissible_move su mv (view (content (c_obj ch))) ->
  0 < object_density su M lnB dpdf bpdf prs checks mv ch ->
  let makes o choice := exists u ch', 0 < u < 1 /\
    t_step (tracked_propose su M bpdf dpdf) (t_eval su M checks) ch {| td_op := o; td_choice := choice; td_u := u |} = Done (ch', true) /\
    view (content (c_obj ch')) = target su mv (view (content (c_obj ch))) in
  match mv with
  | Discrete m _ => forall o, nth_error (operators su) o = Some (move_kind m) -> exists n, makes o (CNth n)
  | Param op => forall o us, nth_error (operators su) o = Some (fst (call_of op us)) ->
      bits_match su bpdf op us (view (content (c_obj ch))) -> makes o (snd (call_of op us))
  end.
Proof.
  intros su size geo lnB dpdf bpdf prs checks g mv ch JS Hs M R S A H. destruct mv as [m y|op].
  - intros mk o Eo. destruct (made_discrete JS R Eo H) as (n & u & ch' & K). exists n, u, ch'. exact K.
  - intros mk o us Eo B. exact (made_param JS Hs R S Eo A B H).
Qed.
Print Assumptions C100_made.

(** C100, runs: from initial samples with a finite geo-prior, all chains of a run and of a warm-up, after any number of
    steps, are as in the theorems above, and no assertion fails. *)
Theorem C100_running : forall su size geo lnB dpdf bpdf prs checks prev k' ss n n_steps n_samples draws, joint_setting su dpdf prs (by_size size) ->
  (forall cl, log_density (size cl)) -> let M := configured_model su size geo lnB prs in
  match prev with None => True | Some p => positive_sample (with_k su k') p end ->
  Forall (t_starts su M prev) ss -> (forall s, In s ss -> exists g, geo (fs_clusters (view s)) = Fin g /\ safe geo checks g) ->
  (forall i c, draw_ok su (draws i c) /\ interior_choice (td_choice (draws i c))) ->
  let fine sm := Forall (fun ch => exists g, safe geo checks g /\ running su M g ch) (chains sm) in
  (exists sm, tracked_warm_up su M bpdf dpdf checks ss 0 draws = Done (best_sample (chains sm), sm) /\ length (chains sm) = length ss /\ fine sm) /\
  match tracked_warm_up su M bpdf dpdf checks ss n draws with Done (_, sm) => fine sm | Assertion => False | _ => True end /\
  match tracked_run su M bpdf dpdf checks ss n_steps n_samples draws with Done (sm, _, _) => fine sm | Assertion => False | _ => True end.
Proof.
  intros su size geo lnB dpdf bpdf prs checks prev k' ss n n_steps n_samples draws JS Hs M Hp HS Hg Hd fine.
  pose proof (starts_fine JS Hp HS Hg) as F.
  pose proof (init_fine JS Hs (length (operators su)) F) as I0.
  unfold tracked_warm_up, tracked_run, t_warm_up, t_generate_samples. fold M in I0.
  destruct (t_init (t_eval su M checks) (length (operators su)) ss) as [sm| | |] eqn:E; try contradiction. destruct I0 as [I0 L0]. cbn [ebind]. split; [|split].
  - exists sm. split; [reflexivity|]. split; [exact L0|exact I0].
  - pose proof (@warm_fine su size geo lnB dpdf bpdf prs checks JS Hs draws Hd n 0%nat sm I0) as K. fold M in K.
    destruct (t_warm_loop _ _ draws n 0 sm) as [sm'| | |]; auto.
  - exact (@loop_fine su size geo lnB dpdf bpdf prs checks JS Hs n_steps n_samples draws Hd n_steps 0%nat sm [] None I0).
Qed.
Print Assumptions C100_running.

(** The setting of C95 with a prior of sizes and a constant geo-prior; the chain of a run after its start, and the chain
    after a step of [GibbsSampleConfoundingEffects]. *)
Definition pg_size (cl : bmat) : xf := Fin (ln (demo_size cl)).
Definition pg_M : mdl xf := configured_model (demo_su 1) pg_size (fun _ => Fin 2) (fun _ => 0) demo_prior.
Definition pg_s : tsample := tr_first 1 (t_generate_initial_sample (demo_su 1) pg_M None (fun _ => 0%nat) 10 demo_junk tr_junk).
Lemma pg_starts : t_starts (demo_su 1) pg_M None pg_s.
Proof.
  exists (fun _ => 0%nat), 10%nat, demo_junk, tr_junk. unfold pg_s, tr_first. destruct (t_generate_initial_sample _ _ _ _ _ _ _) as [d|] eqn:E.
  2:{ vm_compute in E. discriminate. }
  exists d. vm_compute in E. injection E as <-. split; [reflexivity|split; [reflexivity|split; [repeat constructor|split; [reflexivity|]]]].
  eexists; split; [right; left; reflexivity|discriminate].
Qed.
Lemma any_size su dpdf prs r size : joint_setting su dpdf prs r -> joint_setting su dpdf prs (by_size size).
Proof. intros []. constructor; auto. intros cl. apply dens_nonneg. Qed.
Definition pg_move : pop := GibbsEffect (Some 0%nat) 0 [[1 # 3; 2 # 3]%Q].
Definition pg_draws (_ _ : nat) : tdraw := {| td_op := 5; td_choice := CGibbsEffect 0 [[1 # 3; 2 # 3]%Q]; td_u := 1 / 2 |}.
Lemma pg_draws_ok i c : draw_ok (demo_su 1) (pg_draws i c) /\ interior_choice (td_choice (pg_draws i c)).
Proof.
  split; [|repeat constructor]. intros k E. cbn in E. injection E as <-. cbn. repeat constructor; discriminate.
Qed.
Lemma pg_view : view pg_s = demo_sample.
Proof. vm_compute. reflexivity. Qed.
Opaque pg_s t_eval t_step tracked_warm_up.
Example C100_case : exists sm ch ch' u, joint_setting (demo_su 1) demo_dpdf demo_prior (by_size pg_size) /\ (forall cl, log_density (pg_size cl)) /\
  t_starts (demo_su 1) pg_M None pg_s /\ view pg_s = demo_sample /\
  tracked_warm_up (demo_su 1) pg_M tr_pdf demo_dpdf true [pg_s] 0 pg_draws = Done (best_sample (chains sm), sm) /\ chains sm = [ch] /\
  safe (fun _ => Fin 2) true 2 /\ running (demo_su 1) pg_M 2 ch /\ view (content (c_obj ch)) = demo_sample /\
  admissible_move (demo_su 1) (Param pg_move) demo_sample /\ 0 < object_density (demo_su 1) pg_M (fun _ => 0) demo_dpdf tr_pdf demo_prior true (Param pg_move) ch /\
  t_step (tracked_propose (demo_su 1) pg_M tr_pdf demo_dpdf) (t_eval (demo_su 1) pg_M true) ch
    {| td_op := 5; td_choice := CGibbsEffect 0 [[1 # 3; 2 # 3]%Q]; td_u := u |} = Done (ch', true) /\
  running (demo_su 1) pg_M 2 ch' /\ view (content (c_obj ch')) = target (demo_su 1) (Param pg_move) demo_sample /\
  ~ same_sample (target (demo_su 1) (Param pg_move) demo_sample) demo_sample.
Proof.
  assert (JS : joint_setting (demo_su 1) demo_dpdf demo_prior (by_size pg_size)) by (eapply any_size, demo_joint).
  assert (Hs : forall cl, log_density (pg_size cl)) by (intros; exact I).
  assert (Sf : safe (fun _ => Fin 2) true 2) by (right; reflexivity).
  assert (Vs : view pg_s = demo_sample) by exact pg_view.
  destruct (C100_running (demo_su 1) pg_size (fun _ => Fin 2) (fun _ => 0) demo_dpdf tr_pdf demo_prior true None 1 [pg_s] 0 0 1 pg_draws JS Hs I)
    as ((sm & E & L & Fi) & _ & _).
  { constructor; [exact pg_starts|constructor]. }
  { intros s _. exists 2. split; [reflexivity|exact Sf]. }
  { exact pg_draws_ok. }
  fold pg_M in E, Fi. destruct (chains sm) as [|ch [|]] eqn:Ec; cbn in L; try lia. apply Forall_cons_iff in Fi as [(g & Sg & R) _].
  assert (g = 2) by (destruct Sg as [Sg|Sg]; [discriminate|]; specialize (Sg []); congruence). subst g.
  assert (Vc : view (content (c_obj ch)) = demo_sample).
  { assert (F : fits (demo_su 1) pg_M) by exact (configured_fits pg_size (fun _ => Fin 2) (fun _ => 0) demo_prior (js_setup JS)).
    destruct (@t_starts_spec (demo_su 1) pg_M F None 1%nat pg_s (co_valid (js_setup JS)) I pg_starts) as (_ & HP & _).
    rewrite <- Vs. exact (init_view F HP E Ec). }
  assert (Ad : admissible_move (demo_su 1) (Param pg_move) demo_sample) by (repeat constructor; cbn; try lia; discriminate).
  assert (Po : 0 < object_density (demo_su 1) pg_M (fun _ => 0) demo_dpdf tr_pdf demo_prior true (Param pg_move) ch).
  { cbn [object_density pg_move]. change (tv_source (content (c_obj ch))) with (fs_source (view (content (c_obj ch)))). rewrite Vc. cbn [fs_source demo_sample demo_start]. apply exp_pos. }
  pose proof (C100_made (demo_su 1) pg_size (fun _ => Fin 2) (fun _ => 0) demo_dpdf tr_pdf demo_prior true 2 (Param pg_move) ch JS Hs R Sf) as Md.
  cbv zeta in Md. rewrite Vc in Md. destruct (Md Ad Po 5%nat [] eq_refl I) as (u & ch' & Hu & Es & Ev). clear Md.
  exists sm, ch, ch', u. rewrite Ec. split; [exact JS|]. split; [exact Hs|]. split; [exact pg_starts|]. split; [exact Vs|].
  split; [exact E|]. split; [reflexivity|]. split; [exact Sf|]. split; [exact R|]. split; [exact Vc|]. split; [exact Ad|]. split; [exact Po|]. split; [exact Es|].
  split; [|split; [exact Ev|]].
  - assert (G : good_draw (demo_su 1) {| td_op := 5; td_choice := CGibbsEffect 0 [[1 # 3; 2 # 3]%Q]; td_u := u |}) by apply (pg_draws_ok 0 0).
    pose proof (step_running tr_pdf JS Hs R Sf G) as K. fold pg_M in K. cbv beta in K.
    change (t_step (tracked_propose (demo_su 1) pg_M tr_pdf demo_dpdf) (t_eval (demo_su 1) pg_M true) ch {| td_op := 5; td_choice := CGibbsEffect 0 [[1 # 3; 2 # 3]%Q]; td_u := u |} = Done (ch', true)) in Es.
    rewrite Es in K. exact K.
  - intros ((A & B & C) & _). cbn in C. repeat match goal with H : Forall2 _ _ _ |- _ => inversion H; subst; clear H | H : vec_eq _ _ |- _ => inversion H; subst; clear H end. discriminate.
Qed.

Transparent pg_s t_eval t_step tracked_warm_up.

(** C100, refuted with a geo-prior that depends on the clusters: the first step of a run (without assertions, which are
    also off after 1000 steps) and the step back do not balance the configured posterior. *)
Definition rf_geo (cl : bmat) : xf := match cl with [[true; false; false]] => Fin 0 | _ => Fin (-1) end.
Definition rf_size (_ : bmat) : xf := Fin 0.
Definition rf_prior (_ _ : nat) : effect_prior := UniformPrior.
Definition rf_M : mdl xf := configured_model (geo_su false) rf_size rf_geo (fun _ => 0) rf_prior.
Definition rf_s : tsample := tr_first 0 (t_generate_initial_sample (geo_su false) rf_M None (fun _ => 0%nat) 10 geo_junk geo_jl).
Lemma rf_starts : t_starts (geo_su false) rf_M None rf_s.
Proof.
  exists (fun _ => 0%nat), 10%nat, geo_junk, geo_jl. unfold rf_s, tr_first. destruct (t_generate_initial_sample _ _ _ _ _ _ _) as [d|] eqn:E.
  2:{ vm_compute in E. discriminate. }
  exists d. vm_compute in E. injection E as <-. split; [reflexivity|split; [reflexivity|split; [repeat constructor|split; [reflexivity|]]]].
  eexists; split; [left; reflexivity|discriminate].
Qed.
Lemma rf_joint : joint_setting (geo_su false) tr_dpdf rf_prior (by_size rf_size).
Proof.
  constructor.
  - constructor.
    + apply geo_valid.
    + cbn. split; [lia|repeat constructor].
    + split; [discriminate|]. constructor; [|constructor]. split; [discriminate|apply one_disjoint].
    + intros o Ho. exists [[true; true; true]], [true; true; true]. split; [left; reflexivity|]. split; [left; reflexivity|]. cbn in Ho. destruct o as [|[|[|o]]]; try reflexivity. lia.
    + intros _. repeat constructor.
  - split; discriminate.
  - intros [|[|[|o]]] [|f] [|[|x]] H; cbn in H; repeat match goal with H : context [match ?x with 0%nat => _ | S _ => _ end] |- _ => destruct x; cbn in H end; discriminate.
  - intros cl. apply dens_nonneg.
  - intros k g. split; [reflexivity|exact I].
  - reflexivity.
Qed.
Definition rf_x (cl : bmat) : cstate := {| x_clusters := cl; x_source := None |}.
Definition rf_move : full_move := Discrete (Cluster OpAlter) (rf_x [[true; true; false]]).
Lemma acc_finite a b c d q qb : 0 < acc_prob 1 (Fin a) (Fin b) (Fin c) (Fin d) (Fin q) (Fin qb).
Proof. unfold acc_prob. cbn. apply Rmin_glb_lt; [lra|apply exp_pos]. Qed.
Lemma xln_fin x : 0 < x -> xln x = Fin (ln x).
Proof. intros H. unfold xln. destruct (Rlt_dec 0 x); [reflexivity|contradiction]. Qed.
Lemma rf_view : view rf_s = geo_p [[true; false; false]].
Proof. vm_compute. reflexivity. Qed.
Lemma rf_fits : fits (geo_su false) rf_M.
Proof. exact (configured_fits rf_size rf_geo (fun _ => 0) rf_prior (js_setup rf_joint)). Qed.
Lemma rf_positive : positive_sample (geo_su false) (geo_p [[true; false; false]]) /\ positive_sample (geo_su false) (geo_p [[true; true; false]]).
Proof.
  destruct (@t_starts_spec (geo_su false) rf_M rf_fits None 1%nat rf_s (geo_valid false) I rf_starts) as (St & _).
  rewrite rf_view in St. pose proof (starts_positive (geo_valid false) (prev := None) I St) as PS. split; [exact PS|].
  destruct PS as [[V1 V2 V3 V4 V5 V6 V7] Pp]. split; [|exact Pp]. constructor; auto.
  - split; [reflexivity|repeat constructor].
  - apply one_disjoint.
  - repeat constructor.
Qed.
Lemma rf_ll cl : In cl [[[true; false; false]]; [[true; true; false]]] -> full_ll (geo_su false) (fs_params (geo_p cl)) (rf_x cl) = Fin 0.
Proof.
  intros H. unfold full_ll, log_mix. cbn [x_source rf_x]. change (e_from_prior (env_of (geo_su false) (fs_params (geo_p cl)))) with false. cbv iota.
  assert (E : exists q, oprod (mixture_lhs (component_lhs (env_of (geo_su false) (fs_params (geo_p cl))) cl) (state_weights (env_of (geo_su false) (fs_params (geo_p cl))) cl)) = Some q /\ (q == 1)%Q).
  { destruct H as [<-|[<-|[]]]; eexists; (split; [vm_compute; reflexivity|reflexivity]). }
  destruct E as (q & E & Eq). cbn [x_clusters rf_x]. rewrite E. apply Qeq_eqR in Eq. rewrite Eq, RMicromega.Q2R_1, <- ln_1. apply xln_fin. lra.
Qed.
Lemma rf_lp cl : exists r, full_prior (geo_su false) (fun _ => 0) rf_prior (by_size rf_size) (fs_params (geo_p cl)) (rf_x cl) = Fin r.
Proof.
  unfold full_prior, log_cluster_prior. cbn [x_source rf_x]. eexists. apply xln_fin. apply Rmult_lt_0_compat; apply exp_pos.
Qed.
Lemma nonneg_sum A (f : A -> R) l x : (forall y, In y l -> 0 <= f y) -> In x l -> 0 < f x -> 0 < S_mcmc.Rsum (map f l).
Proof.
  intros H Hi Hp. induction l as [|y l IH]; [destruct Hi|]. unfold S_mcmc.Rsum in *. cbn [map fold_right].
  assert (G : 0 <= fold_right Rplus 0 (map f l)).
  { clear - H. assert (H' : forall z, In z l -> 0 <= f z) by (intros; apply H; right; auto). clear H. induction l as [|z l IH]; cbn [map fold_right]; [lra|].
    pose proof (H' z (or_introl eq_refl)). assert (0 <= fold_right Rplus 0 (map f l)) by (apply IH; intros; apply H'; right; auto). lra. }
  destruct Hi as [->|Hi]; [lra|]. pose proof (H y (or_introl eq_refl)). assert (0 < fold_right Rplus 0 (map f l)) by (apply IH; auto; intros; apply H; right; auto). lra.
Qed.
Lemma rf_density : 0 < density (geo_su false) (fun _ => 0) tr_dpdf tr_pdf rf_prior (by_size rf_size) rf_move (geo_p [[true; false; false]]).
Proof.
  unfold rf_move. cbn [density]. unfold kernel, move_props. rewrite map_map.
  assert (Nn : forall out : outcome, 0 <= proposes cstate_eq_dec (rf_x [[true; true; false]]) (match out with Propose y q qb => Some (y, xq q, xq qb) | _ => None end)
     (fun q qb => acc_prob 1 (full_ll (geo_su false) (fs_params (geo_p [[true; false; false]])) (rf_x [[true; true; false]]))
        (full_ll (geo_su false) (fs_params (geo_p [[true; false; false]])) (fs_cstate (geo_p [[true; false; false]])))
        (full_prior (geo_su false) (fun _ => 0) rf_prior (by_size rf_size) (fs_params (geo_p [[true; false; false]])) (rf_x [[true; true; false]]))
        (full_prior (geo_su false) (fun _ => 0) rf_prior (by_size rf_size) (fs_params (geo_p [[true; false; false]])) (fs_cstate (geo_p [[true; false; false]]))) q qb)).
  { intros [|y q qb|]; cbn [proposes]; try lra. destruct (cstate_eq_dec _ _); [apply acc_nonneg|lra]. }
  match goal with |- context [run_move ?e ?m ?x] => remember (run_move e m x) as d eqn:Ed end. vm_compute in Ed.
  apply nonneg_sum with (x := (Propose (rf_x [[true; true; false]]) (Some (8 # 16)%Q) (Some (1 # 2)%Q), (1 # 8)%Q)).
  - rewrite Ed. intros [out p] Hi. apply Rmult_le_pos; [|apply Nn]. clear - Hi. cbn [In] in Hi.
    repeat destruct Hi as [Hi|Hi]; try contradiction; injection Hi as _ <-; unfold Q2R; cbn; lra.
  - rewrite Ed. right. left. reflexivity.
  - apply Rmult_lt_0_compat; [unfold Q2R; cbn; lra|]. cbn [proposes]. destruct (cstate_eq_dec _ _) as [_|N]; [|contradiction].
    destruct (rf_lp [[true; true; false]]) as [a Ea]. destruct (rf_lp [[true; false; false]]) as [b Eb].
    pose proof (rf_ll [[true; true; false]] (or_intror (or_introl eq_refl))) as L1. pose proof (rf_ll [[true; false; false]] (or_introl eq_refl)) as L2.
    change (fs_params (geo_p [[true; true; false]])) with (fs_params (geo_p [[true; false; false]])) in Ea, L1.
    change (fs_cstate (geo_p [[true; false; false]])) with (rf_x [[true; false; false]]).
    rewrite Ea, Eb, L1, L2. unfold xq. rewrite !xln_fin by (unfold Q2R; cbn; lra). apply acc_finite.
Qed.
Opaque rf_s t_eval t_step tracked_warm_up.
Theorem C100_refuted : exists su size geo lnB dpdf bpdf prs s sm ch ch' d mv, joint_setting su dpdf prs (by_size size) /\
  (forall cl, log_density (size cl)) /\ (forall cl, exists r, geo cl = Fin r) /\
  let M := configured_model su size geo lnB prs in t_starts su M None s /\
  tracked_warm_up su M bpdf dpdf false [s] 0 (fun _ _ => d) = Done (best_sample (chains sm), sm) /\ chains sm = [ch] /\
  draw_ok su d /\ interior_choice (td_choice d) /\ t_step (tracked_propose su M bpdf dpdf) (t_eval su M false) ch d = Done (ch', true) /\
  let x := view (content (c_obj ch)) in let x' := view (content (c_obj ch')) in
  admissible_move su mv x /\ x' = target su mv x /\
  joint_density su lnB prs (by_size_and_geo size geo) x * object_density su M lnB dpdf bpdf prs false mv ch <>
  joint_density su lnB prs (by_size_and_geo size geo) x' * object_density su M lnB dpdf bpdf prs false (reverse su mv x) ch'.
Proof.
  pose proof rf_joint as JS. assert (Hs : forall cl, log_density (rf_size cl)) by (intros; exact I).
  assert (Hgeo : forall cl, exists r, rf_geo cl = Fin r).
  { intros cl. unfold rf_geo. repeat match goal with |- context [match ?x with _ => _ end] => destruct x end; eauto. }
  assert (Dk : forall n u, let d := {| td_op := 0; td_choice := CNth n; td_u := u |} in draw_ok (geo_su false) d /\ interior_choice (td_choice d)).
  { intros n u d. split; [|exact I]. intros k E. cbn in E. injection E as <-. exact I. }
  destruct (C100_running (geo_su false) rf_size rf_geo (fun _ => 0) tr_dpdf tr_pdf rf_prior false None 1 [rf_s] 0 0 1 (fun _ _ => {| td_op := 0; td_choice := CNth 0; td_u := 1 / 2 |}) JS Hs I)
    as ((sm & E & L & Fi) & _ & _).
  { constructor; [exact rf_starts|constructor]. }
  { intros s _. destruct (Hgeo (fs_clusters (view s))) as [r Hr]. exists r. split; [exact Hr|left; reflexivity]. }
  { intros i c. apply Dk. }
  fold rf_M in E, Fi. destruct (chains sm) as [|ch [|]] eqn:Ec; cbn in L; try lia. apply Forall_cons_iff in Fi as [(g & Sg & R) _].
  assert (Vc : view (content (c_obj ch)) = geo_p [[true; false; false]]).
  { destruct (@t_starts_spec (geo_su false) rf_M rf_fits None 1%nat rf_s (geo_valid false) I rf_starts) as (_ & HP & _).
    rewrite <- rf_view. exact (init_view rf_fits HP E Ec). }
  assert (Ad : admissible_move (geo_su false) rf_move (view (content (c_obj ch)))) by (rewrite Vc; exact (proj2 rf_positive)).
  pose proof (C100_density (geo_su false) rf_size rf_geo (fun _ => 0) tr_dpdf tr_pdf rf_prior false g rf_move ch JS Hs R Sg Ad) as Dn. cbv zeta in Dn. fold rf_M in Dn.
  assert (Po : 0 < object_density (geo_su false) rf_M (fun _ => 0) tr_dpdf tr_pdf rf_prior false rf_move ch) by (rewrite Dn, Vc; exact rf_density).
  pose proof (C100_made (geo_su false) rf_size rf_geo (fun _ => 0) tr_dpdf tr_pdf rf_prior false g rf_move ch JS Hs R Sg Ad Po) as Md. cbv zeta in Md.
  destruct (Md 0%nat eq_refl) as (n & u & ch' & Hu & Es & Ev). clear Md. fold rf_M in Es.
  pose proof (step_running tr_pdf JS Hs R Sg (Dk n u)) as R'. fold rf_M in R'. rewrite Es in R'.
  pose proof (C100_reversible_partial (geo_su false) rf_size rf_geo (fun _ => 0) tr_dpdf tr_pdf rf_prior false g g rf_move ch ch' JS Hs R R' Sg Sg Ad Ev) as Rv. cbv zeta in Rv. fold rf_M in Rv.
  exists (geo_su false), rf_size, rf_geo, (fun _ => 0), tr_dpdf, tr_pdf, rf_prior, rf_s, sm, ch, ch', {| td_op := 0; td_choice := CNth n; td_u := u |}, rf_move.
  split; [exact JS|]. split; [exact Hs|]. split; [exact Hgeo|]. cbv zeta. fold rf_M. split; [exact rf_starts|]. rewrite Ec. split; [exact E|]. split; [reflexivity|].
  split; [apply Dk|]. split; [exact I|]. split; [exact Es|]. split; [exact Ad|]. split; [exact Ev|].
  set (D := object_density _ _ _ _ _ _ _ rf_move ch) in *. set (D' := object_density _ _ _ _ _ _ _ _ ch') in *.
  rewrite Ev in *. rewrite Vc in *. cbn [target rf_move] in *.
  set (J := joint_density (geo_su false) (fun _ => 0) rf_prior (by_size rf_size)) in *.
  assert (J1 : forall x, joint_density (geo_su false) (fun _ => 0) rf_prior (by_size_and_geo rf_size rf_geo) x = J x * dens (rf_geo (fs_clusters x))).
  { intros x. unfold J, joint_density, by_size_and_geo, by_size. ring. }
  rewrite !J1. cbn [fs_clusters geo_p x_clusters rf_x rf_geo dens].
  assert (PJ : 0 < J (geo_p [[true; false; false]])).
  { unfold J, joint_density. apply Rmult_lt_0_compat; [|apply exp_pos]. apply Rmult_lt_0_compat; [|apply exp_pos].
    assert (Ed : Q2R (data_density (env_of (geo_su false) (fs_params (geo_p [[true; false; false]]))) (fs_cstate (geo_p [[true; false; false]]))) = 1).
    { rewrite <- RMicromega.Q2R_1. apply Qeq_eqR. vm_compute. reflexivity. }
    rewrite Ed. lra. }
  assert (X : 0 < J (geo_p [[true; false; false]]) * D) by (apply Rmult_lt_0_compat; auto).
  assert (E1 : exp (-1) < 1) by (rewrite <- exp_0; apply exp_increasing; lra). pose proof (exp_pos (-1)) as E2. rewrite exp_0, Rmult_1_r. intros Eq.
  set (a := J (geo_p [[true; false; false]]) * D) in *. 
  assert (Ea : a = a * exp (-1)) by (transitivity (J {| fs_clusters := [[true; true; false]]; fs_params := fs_params (geo_p [[true; false; false]]); fs_source := None |} * exp (-1) * D'); [exact Eq|rewrite Rv; cbn [x_clusters x_source rf_x]; ring]).
  assert (a * exp (-1) < a * 1) by (apply Rmult_lt_compat_l; auto). lra.
Qed.
Print Assumptions C100_refuted.
