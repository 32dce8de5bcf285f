(** Property theorems C98 and C99: the sampler on sample objects with versioned parameters and caches, and what
    the geo-prior does in it. *)
From Coq Require Import Lra.
From Verif Require Import S_tracked L_cache L_operators L_init L_sampler L_source L_params L_tracked L_tracked2 L_tracked3 L_tracked4 L_tracked5.
From Verif Require Import P_sampler.
From Verif Require Import M_dist M_operators.
Close Scope R_scope.
Close Scope Q_scope.
Open Scope nat_scope.

Lemma dsim_weaken A B (R R' : A -> B -> Prop) d d' : dsim R d d' -> (forall x y, R x y -> R' x y) -> dsim R' d d'.
Proof. intros H W. unfold dsim in *. induction H as [|x y l l' [H1 H2] H IH]; constructor; auto. Qed.

(** * C98 *)
(** Operators: for every object with a history and valid contents, the possible results of a cluster or source
    operator on the object (cached likelihoods, cached normalised weights, copies, edits in place) are, with the
    same probabilities and in the same order, those of the operator on the contents, for which everything is
    computed from scratch.  The objects left behind have a history again.  The current object is left as it
    was, except by the source operator, which edits it and returns it as the candidate. *)
Theorem C98_operators : forall su M k s, fits su M -> history M s -> valid_sample su (view s) -> finite_op k = true ->
  map (fun '(x, q) => (view_out (snd x), q)) (possible (run_tracked su M k s)) = possible (run_plain su k (view s)) /\
  forall c o, supp (run_tracked su M k s) (c, o) -> history M c /\
    match o with
    | TPropose s' _ _ => history M s' /\ fs_params (view s') = fs_params (view s) /\ match k with KSource => c = s' | _ => view c = view s end
    | _ => view c = view s
    end.
Proof.
  intros su M k s F H V Hk.
  assert (D : disjoint_groups (tv_clusters s)) by apply (vs_disjoint V). assert (Sh : cluster_shape (su_k su) (su_n su) (tv_clusters s)) by apply (vs_shape V).
  assert (G : dsim (fun x out => view_out (snd x) = out /\ (history M (fst x) /\
    match snd x with
    | TPropose s' _ _ => history M s' /\ fs_params (view s') = fs_params (view s) /\ match k with KSource => fst x = s' | _ => view (fst x) = view s end
    | _ => view (fst x) = view s
    end)) (run_tracked su M k s) (run_plain su k (view s))).
  { assert (W : k <> KSource -> forall x out, out_sim M s x out -> view_out (snd x) = out /\ (history M (fst x) /\
      match snd x with
      | TPropose s' _ _ => history M s' /\ fs_params (view s') = fs_params (view s) /\ match k with KSource => fst x = s' | _ => view (fst x) = view s end
      | _ => view (fst x) = view s
      end)).
    { intros Nk [c o] out (K & O). cbn [fst snd] in *. pose proof (kept_view K) as Kv. destruct K as (K1 & K2 & K3).
      destruct o as [|s' q qb|], out as [|y q' qb'|]; try contradiction; cbn [view_out]; auto. destruct O as (-> & -> & -> & O1 & O2 & O3).
      conj; auto. destruct k; auto; congruence. }
    destruct k; try discriminate; cbn [run_tracked run_plain].
    - eapply dsim_weaken; [apply (@alter_sim su M F s H D Sh)|apply W; discriminate].
    - eapply dsim_weaken; [apply (@gibbsish_sim su M F s H D Sh)|apply W; discriminate].
    - eapply dsim_weaken; [apply (@gibbsish2_sim su M F s H D Sh)|apply W; discriminate].
    - eapply dsim_weaken; [apply (@source_sim su M F s H D)|]. intros [c o] out A. unfold src_sim in A. cbn [fst snd] in *.
      destruct o as [|s' q qb|], out as [|y' q' qb'|]; try contradiction; cbn [view_out].
      + destruct A as (-> & -> & -> & -> & A1 & A2 & A3 & A4 & A5). auto.
      + split; auto. split; [apply A|apply (kept_view A)]. }
  apply dsim_map in G as [G1 G2]. split; [exact G1|]. intros c o Hs. apply (G2 _ Hs).
Qed.
Print Assumptions C98_operators.

(** Initial samples: the possible initial objects have the possible initial contents, with the same
    probabilities; the object cannot be generated iff the contents cannot. *)
Theorem C98_initial : forall su M prev k' rnd fuel junk junk_lhs, fits su M -> valid_setup su ->
  match prev with None => True | Some p => valid_sample (with_k su k') p end ->
  length junk_lhs = su_nc su -> Forall (fun m => length m = su_n su) junk_lhs ->
  option_map (fun d => map (fun '(s, q) => (view s, q)) (possible d)) (t_generate_initial_sample su M prev rnd fuel junk junk_lhs) =
  option_map (fun d => possible d) (generate_initial_sample su prev rnd fuel junk) /\
  forall d s, t_generate_initial_sample su M prev rnd fuel junk junk_lhs = Some d -> supp d s -> history M s.
Proof.
  intros su M prev k' rnd fuel junk junk_lhs F V Hp Lj Fj.
  pose proof (@generate_sim su M F prev k' rnd fuel junk junk_lhs V Hp Lj Fj) as G.
  destruct (t_generate_initial_sample _ _ _ _ _ _ _) as [d|], (generate_initial_sample _ _ _ _ _) as [d'|]; try contradiction; cbn [option_map].
  - apply dsim_map in G as [G1 G2]. split; [rewrite G1; reflexivity|]. intros d0 s [= <-] Hs. apply (G2 s Hs).
  - split; [reflexivity|discriminate].
Qed.
Print Assumptions C98_initial.

(** Runs: with a geo-prior that is the same for all clusters, a run on objects -- with or without the assertions
    of the debug mode -- goes through the same contents, values, statistics and log as the run on contents that
    evaluates everything from scratch, and ends in the same way. *)
Lemma start_views su M prev k' ss : fits su M -> valid_setup su -> match prev with None => True | Some p => valid_sample (with_k su k') p end ->
  Forall (t_starts su M prev) ss -> Forall (P su M) ss /\ map mview ss = map (fun s => (view s, None)) ss /\ Forall (starts su prev) (map view ss) /\ Forall (valid_sample su) (map view ss).
Proof.
  intros F V Hp H. conj.
  - eapply Forall_impl; [|exact H]. intros s Hs. apply (@t_starts_spec su M F prev k' s V Hp Hs).
  - apply map_ext_in. intros s Hs. rewrite Forall_forall in H. unfold mview. f_equal. apply (@t_starts_spec su M F prev k' s V Hp (H s Hs)).
  - rewrite Forall_map. eapply Forall_impl; [|exact H]. intros s Hs. apply (@t_starts_spec su M F prev k' s V Hp Hs).
  - rewrite Forall_map. eapply Forall_impl; [|exact H]. intros s Hs. apply (@t_starts_spec su M F prev k' s V Hp Hs).
Qed.
Theorem C98_run : forall su M bpdf dpdf checks g prev k' ss n_steps n_samples draws, fits su M -> valid_setup su ->
  (forall cl, geo_fn M cl = g) -> match prev with None => True | Some p => valid_sample (with_k su k') p end ->
  Forall (t_starts su M prev) ss -> (forall i c, draw_ok su (draws i c)) ->
  ext_map (map_run view) (tracked_run su M bpdf dpdf checks ss n_steps n_samples draws) =
  plain_run su M bpdf dpdf checks (map view ss) n_steps n_samples draws.
Proof.
  intros su M bpdf dpdf checks g prev k' ss n_steps n_samples draws F V Hg Hp HS Hd.
  destruct (@start_views su M prev k' ss F V Hp HS) as (HP & Em & _ & _).
  rewrite <- (@map_run_comp _ _ _ mview fst view); [|reflexivity].
  rewrite <- (@tracked_memory_run su M F bpdf dpdf checks ss n_steps n_samples draws Hd HP), Em.
  rewrite <- (@memory_plain_run su M bpdf dpdf checks g Hg); [|apply Forall_map; apply Forall_forall; intros s _; left; reflexivity].
  rewrite map_map. reflexivity.
Qed.
Print Assumptions C98_run.
Theorem C98_warm_up : forall su M bpdf dpdf checks g prev k' ss n draws, fits su M -> valid_setup su ->
  (forall cl, geo_fn M cl = g) -> match prev with None => True | Some p => valid_sample (with_k su k') p end ->
  Forall (t_starts su M prev) ss -> (forall i c, draw_ok su (draws i c)) ->
  ext_map (map_warm view) (tracked_warm_up su M bpdf dpdf checks ss n draws) =
  plain_warm_up su M bpdf dpdf checks (map view ss) n draws.
Proof.
  intros su M bpdf dpdf checks g prev k' ss n draws F V Hg Hp HS Hd.
  destruct (@start_views su M prev k' ss F V Hp HS) as (HP & Em & _ & _).
  rewrite <- (@map_warm_comp _ _ _ mview fst view); [|reflexivity].
  rewrite <- (@tracked_memory_warm su M F bpdf dpdf checks ss n draws Hd HP), Em.
  rewrite <- (@memory_plain_warm su M bpdf dpdf checks g Hg); [|apply Forall_map; apply Forall_forall; intros s _; left; reflexivity].
  rewrite map_map. reflexivity.
Qed.
Print Assumptions C98_warm_up.

(** Runs on contents are runs of the sampler of [M_mcmc] (C08, C73 and others); an assertion of the debug mode can
    only fail because the likelihood or the prior of some valid sample is undefined, and never without the
    debug mode. *)
Theorem C98_pure : forall su M bpdf dpdf checks ss n_steps n_samples draws, Forall (valid_sample su) ss -> (forall i c, draw_ok su (draws i c)) ->
  let pure := generate_samples (scratch_ll M) (scratch_prior M) (su_from_prior su) (length (operators su)) ss n_steps n_samples
                (fun i c => plain_draw su bpdf dpdf (draws i c)) in
  match plain_run su M bpdf dpdf checks ss n_steps n_samples draws with
  | Done r => pure = Ok r
  | Raised e => pure = Err e
  | Assertion => checks = true /\ exists s, valid_sample su s /\ (su_from_prior su = false /\ scratch_ll M s = NaN \/ scratch_prior M s = NaN)
  | Failed => True
  end.
Proof.
  intros su M bpdf dpdf checks ss n_steps n_samples draws HV Hd pure.
  pose proof (@run_follows su M bpdf dpdf checks ss n_steps n_samples draws) as H.
  pose proof (@run_assertion su M bpdf dpdf checks ss n_steps n_samples draws Hd HV) as HA.
  destruct (plain_run _ _ _ _ _ _ _ _ _); cbn [follows] in H; auto. apply HA; auto.
Qed.
Print Assumptions C98_pure.

(** Whole analyses: what is logged by a warm-up on objects followed by a run on objects that start from its best
    sample is the log of an analysis in the sense of C73 for the likelihood and the prior from scratch. *)
Theorem C98_whole : forall su M bpdf dpdf checks g ws warm_steps wdraws best wsm ss steps samples draws sm log last, fits su M -> valid_setup su ->
  (forall cl, geo_fn M cl = g) -> (forall i c, draw_ok su (wdraws i c)) -> (forall i c, draw_ok su (draws i c)) ->
  Forall (t_starts su M None) ws -> tracked_warm_up su M bpdf dpdf checks ws warm_steps wdraws = Done (Some best, wsm) ->
  valid_sample su (view (content best)) /\
  (Forall (t_starts su M (Some (view (content best)))) ss -> tracked_run su M bpdf dpdf checks ss steps samples draws = Done (sm, log, last) ->
   whole_run su (scratch_ll M) (scratch_prior M) (length (operators su)) warm_steps steps samples (map_log view log) /\
   Forall (fun x => valid_sample su (view (content (snd x)))) log).
Proof.
  intros su M bpdf dpdf checks g ws warm_steps wdraws best wsm ss steps samples draws sm log last F V Hg Hwd Hd HW Ew.
  destruct (@start_views su M None 0 ws F V I HW) as (_ & _ & W1 & W2).
  pose proof (@C98_warm_up su M bpdf dpdf checks g None 0 ws warm_steps wdraws F V Hg I HW Hwd) as Pw. rewrite Ew in Pw. cbn [ext_map map_warm fst snd option_map] in Pw.
  pose proof (@warm_drawn su M bpdf dpdf checks (map view ws) warm_steps wdraws _ Hwd W2 (eq_sym Pw)) as Dw.
  pose proof (@warm_follows su M bpdf dpdf checks (map view ws) warm_steps wdraws) as Fw. rewrite <- Pw in Fw. cbn [follows] in Fw.
  assert (Vb : valid_sample su (view (content best))).
  { apply (@warm_up_valid su (scratch_ll M) (scratch_prior M) (length (operators su)) (map view ws) warm_steps _ (map_obj view best) _ V W2 Dw Fw). }
  split; [exact Vb|]. intros HS Er.
  assert (Vk : valid_sample (with_k su (su_k su)) (view (content best))) by (destruct su; exact Vb).
  destruct (@start_views su M (Some (view (content best))) (su_k su) ss F V Vk HS) as (_ & _ & S1 & S2).
  pose proof (@C98_run su M bpdf dpdf checks g (Some (view (content best))) (su_k su) ss steps samples draws F V Hg Vk HS Hd) as Pr. rewrite Er in Pr. cbn [ext_map map_run] in Pr.
  pose proof (@run_drawn su M bpdf dpdf checks (map view ss) steps samples draws _ Hd S2 (eq_sym Pr)) as Dr.
  pose proof (@run_follows su M bpdf dpdf checks (map view ss) steps samples draws) as Fr. rewrite <- Pr in Fr. cbn [follows] in Fr.
  assert (W : whole_run su (scratch_ll M) (scratch_prior M) (length (operators su)) warm_steps steps samples (map_log view log)).
  { eapply (@whole_run_intro su _ _ _ _ _ _ (map view ws) _ (map_obj view best) _ (map view ss)); [exact W1|exact Dw|exact Fw|exact S1|exact Dr|exact Fr]. }
  split; [exact W|]. apply (C73_logged_valid _ _ _ _ _ _ _ _ V) in W. unfold map_log in W. rewrite Forall_map in W. eapply Forall_impl; [|exact W]. intros [i o] H. exact H.
Qed.
Print Assumptions C98_whole.

(** Examples for C98: the setting of C72 and C73, uniform priors, no geo-prior. *)
Definition tr_M : mdl xf := uniform_model (su_features (demo_su 1)) 1 (su_conf (demo_su 1)) (fun _ => Fin 0) (fun _ => Fin 0).
Definition tr_junk : list lhmat := [[[1]; [1]]; [[1]; [1]]]%Q.
Lemma one_disjoint g : disjoint_groups [g].
Proof. intros o [|i] [|j]; auto; destruct o; try destruct i; try destruct j; discriminate. Qed.
Lemma tr_fits : fits (demo_su 1) tr_M.
Proof. constructor; try reflexivity. constructor; [apply one_disjoint|constructor]. Qed.
Definition tr_dist : option (dist tsample) := t_generate_initial_sample (demo_su 1) tr_M None (fun _ => 0) 10 demo_junk tr_junk.
Definition tr_first (n : nat) (d : option (dist tsample)) : tsample :=
  match d with
  | Some d => match nth_error d n with Some (s, _) => s | None => new_sample (Fin 0) (Fin 1) tr_M [] [] [] [] None [] end
  | None => new_sample (Fin 0) (Fin 1) tr_M [] [] [] [] None []
  end.
Definition tr_s : tsample := tr_first 1 tr_dist.
Lemma tr_starts : t_starts (demo_su 1) tr_M None tr_s.
Proof.
  exists (fun _ => 0), 10, demo_junk, tr_junk. unfold tr_s, tr_first, tr_dist. destruct (t_generate_initial_sample _ _ _ _ _ _ _) as [d|] eqn:E.
  2:{ vm_compute in E. discriminate. }
  exists d. vm_compute in E. injection E as <-. conj; auto.
  - repeat constructor.
  - eexists. split; [right; left; reflexivity|discriminate].
Qed.
Example C98_initial_case : valid_setup (demo_su 1) /\ fits (demo_su 1) tr_M /\ t_starts (demo_su 1) tr_M None tr_s /\
  view tr_s = demo_start demo_src1 /\ option_map (fun d => length (possible d)) tr_dist = Some 2.
Proof. conj; auto using tr_fits, tr_starts. apply demo_valid; lia. Qed.

(** Three steps: new sources for all objects (accepted), new cluster effect (accepted), a cluster that cannot
    shrink (rejected). *)
Definition tr_draws (i _ : nat) : tdraw :=
  match i with
  | 0 => {| td_op := 2; td_choice := CNth 1; td_u := 1 / 2 |}
  | 1 => {| td_op := 4; td_choice := CGibbsEffect 0 [[1 # 4; 3 # 4]]%Q; td_u := 1 / 2 |}
  | _ => {| td_op := 0; td_choice := CNth 0; td_u := 1 / 2 |}
  end%R.
Definition tr_pdf (_ _ _ : R) : R := 1%R.
Definition tr_dpdf (_ _ : list Q) : R := 1%R.
Lemma tr_draws_ok i c : draw_ok (demo_su 1) (tr_draws i c).
Proof.
  destruct i as [|[|i]]; intros k; cbn; intros [= <-]; try exact I. repeat constructor; cbn; try lia; discriminate.
Qed.
Definition logged {X A} (f : X -> A) (r : ext (sampler X * list (nat * obj X) * option (obj X))) : option (stats * list A) :=
  match r with Done (sm, log, _) => Some (statistics sm, map (fun x => f (content (snd x))) log) | _ => None end.
Example C98_run_case : (forall i c, draw_ok (demo_su 1) (tr_draws i c)) /\ (forall cl, geo_fn tr_M cl = Fin 0) /\
  ext_map (map_run view) (tracked_run (demo_su 1) tr_M tr_pdf tr_dpdf true [tr_s] 3 3 tr_draws) =
    plain_run (demo_su 1) tr_M tr_pdf tr_dpdf true [demo_start demo_src1] 3 3 tr_draws /\
  logged (fun s => (fs_source s, p_ce (fs_params s))) (plain_run (demo_su 1) tr_M tr_pdf tr_dpdf true [demo_start demo_src1] 3 3 tr_draws) =
    Some ({| st_ops := [(0, 1); (0, 0); (1, 0); (0, 0); (1, 0); (0, 0)]; st_total := 2; op_ops := [(0, 1); (0, 0); (1, 0); (0, 0); (1, 0); (0, 0)] |},
          [(Some demo_src2, [[[2 # 3; 1 # 3]]]); (Some demo_src2, [[[1 # 4; 3 # 4]]]); (Some demo_src2, [[[1 # 4; 3 # 4]]])]%Q).
Proof.
  split; [apply tr_draws_ok|]. split; [reflexivity|]. split; [|vm_compute; reflexivity].
  rewrite (@C98_run (demo_su 1) tr_M tr_pdf tr_dpdf true (Fin 0) None 0); auto using tr_fits, tr_starts, tr_draws_ok.
  - apply demo_valid; lia.
Qed.
Lemma tr_ok : history tr_M tr_s /\ valid_sample (demo_su 1) (view tr_s).
Proof. apply (@t_starts_spec (demo_su 1) tr_M tr_fits None 0 tr_s); auto using tr_starts. apply demo_valid; lia. Qed.
Definition tr_result (x : tsample * tout * Q) : option cstate * Q :=
  (match view_out (snd (fst x)) with Propose y _ _ => Some y | _ => None end, Qred (snd x)).
Example C98_operators_case : fits (demo_su 1) tr_M /\ history tr_M tr_s /\ valid_sample (demo_su 1) (view tr_s) /\
  map tr_result (possible (run_tracked (demo_su 1) tr_M KSource tr_s)) =
    [(Some {| x_clusters := [[true; false]]; x_source := Some demo_src1 |}, 4 # 7);
     (Some {| x_clusters := [[true; false]]; x_source := Some demo_src2 |}, 3 # 7)]%Q /\
  map tr_result (possible (run_tracked (demo_su 1) tr_M KGibbsish tr_s)) =
    [(None, 1 # 2); (Some {| x_clusters := [[true; true]]; x_source := Some [[[true; false]]; [[true; false]]] |}, 1 # 5);
     (Some {| x_clusters := [[true; true]]; x_source := Some demo_src1 |}, 3 # 10)]%Q.
Proof. split; [apply tr_fits|]. split; [exact (proj1 tr_ok)|]. split; [exact (proj2 tr_ok)|]. split; vm_compute; reflexivity. Qed.

(** A warm-up of one step and a run of three steps from the sample it hands over. *)
Lemma best_one X (ch : chain X) r : posterior ch = Fin r -> best_sample [ch] = Some (c_obj ch).
Proof.
  intros E. unfold best_sample. cbn [map xmax]. rewrite E. unfold index_of. cbn. destruct (Req_EM_T r r); [reflexivity|congruence].
Qed.
Definition one_chain (x : ext (sampler fsample)) : option fsample :=
  match x with
  | Done sm => match chains sm with [ch] => match posterior ch with Fin _ => Some (content (c_obj ch)) | _ => None end | _ => None end
  | _ => None
  end.
Lemma one_chain_spec x s : one_chain x = Some s -> exists sm ch r, x = Done sm /\ chains sm = [ch] /\ posterior ch = Fin r /\ content (c_obj ch) = s.
Proof.
  destruct x as [sm| | |]; cbn; try discriminate. destruct (chains sm) as [|ch [|]] eqn:Ec; try discriminate. destruct (posterior ch) eqn:Ep; try discriminate.
  intros [= <-]. exists sm, ch, r. auto.
Qed.
Definition tr_s2 : tsample := tr_first 1 (t_generate_initial_sample (demo_su 1) tr_M (Some (demo_start demo_src2)) (fun _ => 0) 10 demo_junk tr_junk).
Lemma tr_starts2 : t_starts (demo_su 1) tr_M (Some (demo_start demo_src2)) tr_s2.
Proof.
  exists (fun _ => 0), 10, demo_junk, tr_junk. unfold tr_s2, tr_first. destruct (t_generate_initial_sample _ _ _ _ _ _ _) as [d|] eqn:E.
  2:{ vm_compute in E. discriminate. }
  exists d. vm_compute in E. injection E as <-. conj; auto.
  - repeat constructor.
  - eexists. split; [right; left; reflexivity|discriminate].
Qed.
Example C98_whole_case : exists best wsm sm log last,
  tracked_warm_up (demo_su 1) tr_M tr_pdf tr_dpdf true [tr_s] 1 tr_draws = Done (Some best, wsm) /\
  t_starts (demo_su 1) tr_M (Some (view (content best))) tr_s2 /\
  tracked_run (demo_su 1) tr_M tr_pdf tr_dpdf true [tr_s2] 3 3 tr_draws = Done (sm, log, last) /\ length log = 3.
Proof.
  assert (V : valid_setup (demo_su 1)) by (apply demo_valid; lia).
  pose proof (@C98_warm_up (demo_su 1) tr_M tr_pdf tr_dpdf true (Fin 0) None 0 [tr_s] 1 tr_draws tr_fits V (fun _ => eq_refl) I
    (Forall_cons _ tr_starts (Forall_nil _)) tr_draws_ok) as W.
  assert (Eb : exists best wsm, plain_warm_up (demo_su 1) tr_M tr_pdf tr_dpdf true (map view [tr_s]) 1 tr_draws = Done (Some best, wsm) /\ content best = demo_start demo_src2).
  { unfold plain_warm_up, t_warm_up.
    assert (E1 : one_chain (ebind (t_init (plain_eval (demo_su 1) tr_M true) (length (operators (demo_su 1))) (map view [tr_s])) (fun sm =>
       t_warm_loop (plain_propose (demo_su 1) tr_pdf tr_dpdf) (plain_eval (demo_su 1) tr_M true) tr_draws 1 0 sm)) = Some (demo_start demo_src2)) by (vm_compute; reflexivity).
    destruct (t_init _ _ _) as [sm0| | |]; cbn [ebind] in E1 |- *; [|discriminate E1|discriminate E1|discriminate E1].
    apply one_chain_spec in E1 as (sm & ch & r & -> & Ec & Ep & Es). cbn [ebind]. rewrite Ec, (@best_one _ ch r Ep). eauto. }
  destruct Eb as (best & wsm & Eb & Es). rewrite Eb in W.
  destruct (tracked_warm_up _ _ _ _ _ _ _ _) as [[[tb|] tw]| | |] eqn:Et; cbn [ext_map map_warm fst snd option_map] in W; [|discriminate W|discriminate W|discriminate W|discriminate W]. injection W as W1 W2.
  assert (Ev : view (content tb) = demo_start demo_src2) by (rewrite <- Es, <- W1; reflexivity).
  pose proof (@C98_run (demo_su 1) tr_M tr_pdf tr_dpdf true (Fin 0) (Some (demo_start demo_src2)) 1 [tr_s2] 3 3 tr_draws tr_fits V (fun _ => eq_refl)) as Rr.
  assert (E3 : option_map (fun x => length (snd x)) (logged (fun s => s) (plain_run (demo_su 1) tr_M tr_pdf tr_dpdf true (map view [tr_s2]) 3 3 tr_draws)) = Some 3) by (vm_compute; reflexivity).
  rewrite <- Rr in E3; auto using tr_starts2, tr_draws_ok.
  2:{ rewrite <- Ev. destruct (@C98_whole (demo_su 1) tr_M tr_pdf tr_dpdf true (Fin 0) [tr_s] 1 tr_draws tb tw [] 0 0 tr_draws {| chains := []; statistics := statistics wsm |} [] None tr_fits V
        (fun _ => eq_refl) tr_draws_ok tr_draws_ok (Forall_cons _ tr_starts (Forall_nil _)) Et) as [Vb _]. exact Vb. }
  destruct (tracked_run _ _ _ _ _ _ _ _ _) as [[[sm log] last]| | |]; cbn [ext_map map_run logged option_map snd] in E3; [|discriminate E3|discriminate E3|discriminate E3].
  exists tb, tw, sm, log, last. split; [reflexivity|]. split; [rewrite Ev; apply tr_starts2|]. split; [reflexivity|].
  injection E3 as E3. unfold map_log in E3. rewrite !map_length in E3. exact E3.
Qed.

(** * C99 *)
(** Runs with any geo-prior: the contents, values, statistics and log are those of the run in which every sample
    carries the value of the geo-prior from its last fresh evaluation, inherits it when it is copied, and is
    evaluated with it, whatever its clusters are now. *)
Theorem C99_run : forall su M bpdf dpdf checks prev k' ss n_steps n_samples draws, fits su M -> valid_setup su ->
  match prev with None => True | Some p => valid_sample (with_k su k') p end ->
  Forall (t_starts su M prev) ss -> (forall i c, draw_ok su (draws i c)) ->
  ext_map (map_run view) (tracked_run su M bpdf dpdf checks ss n_steps n_samples draws) =
  ext_map (map_run fst) (memory_run su M bpdf dpdf checks (map (fun s => (view s, None)) ss) n_steps n_samples draws).
Proof.
  intros su M bpdf dpdf checks prev k' ss n_steps n_samples draws F V Hp HS Hd.
  destruct (@start_views su M prev k' ss F V Hp HS) as (HP & Em & _ & _).
  rewrite <- (@map_run_comp _ _ _ mview fst view); [|reflexivity].
  rewrite <- (@tracked_memory_run su M F bpdf dpdf checks ss n_steps n_samples draws Hd HP), Em. reflexivity.
Qed.
Print Assumptions C99_run.
Theorem C99_warm_up : forall su M bpdf dpdf checks prev k' ss n draws, fits su M -> valid_setup su ->
  match prev with None => True | Some p => valid_sample (with_k su k') p end ->
  Forall (t_starts su M prev) ss -> (forall i c, draw_ok su (draws i c)) ->
  ext_map (map_warm view) (tracked_warm_up su M bpdf dpdf checks ss n draws) =
  ext_map (map_warm fst) (memory_warm_up su M bpdf dpdf checks (map (fun s => (view s, None)) ss) n draws).
Proof.
  intros su M bpdf dpdf checks prev k' ss n draws F V Hp HS Hd.
  destruct (@start_views su M prev k' ss F V Hp HS) as (HP & Em & _ & _).
  rewrite <- (@map_warm_comp _ _ _ mview fst view); [|reflexivity].
  rewrite <- (@tracked_memory_warm su M F bpdf dpdf checks ss n draws Hd HP), Em. reflexivity.
Qed.
Print Assumptions C99_warm_up.

(** Without the assertions of the debug mode (python -O) the geo-prior has no effect: if it is finite for the initial
    clusters, the run goes through the same samples, with the same statistics and the same log, as
    without a geo-prior; only the recorded values of the prior differ. *)
Theorem C99_unchecked : forall su M bpdf dpdf prev k' ss n_steps n_samples draws, fits su M -> valid_setup su ->
  match prev with None => True | Some p => valid_sample (with_k su k') p end ->
  Forall (t_starts su M prev) ss -> (forall i c, draw_ok su (draws i c)) ->
  Forall (fun s => exists r, geo_fn M (fs_clusters (view s)) = Fin r) ss ->
  ext_map blind_run (ext_map (map_run view) (tracked_run su M bpdf dpdf false ss n_steps n_samples draws)) =
  ext_map blind_run (plain_run su (no_geo M) bpdf dpdf false (map view ss) n_steps n_samples draws).
Proof.
  intros su M bpdf dpdf prev k' ss n_steps n_samples draws F V Hp HS Hd Hf.
  rewrite (@C99_run su M bpdf dpdf false prev k' ss n_steps n_samples draws F V Hp HS Hd).
  rewrite <- (@unchecked_run su M bpdf dpdf false (map view ss)); auto; [rewrite map_map; reflexivity|].
  rewrite Forall_map. exact Hf.
Qed.
Print Assumptions C99_unchecked.

(** With the assertions the same holds from step 1000 on: every accepted candidate leaves its chain with a recorded
    prior that belongs to the remembered geo-prior (first theorem), and from such chains on the
    loop does not depend on the geo-prior any more (second theorem). *)
Theorem C99_settles : forall su M bpdf dpdf checks ch d ch',
  t_step (memory_propose su bpdf dpdf) (memory_eval su M checks) ch d = Done (ch', true) -> settled M ch'.
Proof. intros su M bpdf dpdf checks ch d ch'. apply step_settled. Qed.
Print Assumptions C99_settles.
Theorem C99_late : forall su M bpdf dpdf checks n_steps n_samples draws todo i sm log last,
  Forall (settled M) (chains sm) -> Forall finite_memory (chains sm) -> 1000 <= i -> Forall (fun ch => 1000 <= i_step (c_obj ch)) (chains sm) ->
  ext_map blind_run (ext_map (map_run fst)
    (t_loop (memory_propose su bpdf dpdf) (memory_eval su M checks) n_steps n_samples draws todo i sm log last)) =
  ext_map blind_run
    (t_loop (plain_propose su bpdf dpdf) (plain_eval su (no_geo M) checks) n_steps n_samples draws todo i
       {| chains := map (forget_geo M) (chains sm); statistics := statistics sm |} (map_log fst log) (option_map (map_obj fst) last)).
Proof. intros. apply late_loop; auto. Qed.
Print Assumptions C99_late.

(** Three objects without observations, one cluster; the geo-prior is 0 if the first object is the only
    member and [g] otherwise. *)
Definition geo_su (fp : bool) : setup :=
  {| su_features := [[[false; false]]; [[false; false]]; [[false; false]]]; su_applicable := [[true; true]]; su_conf := [[[true; true; true]]];
     su_adj := [[false; true; true]; [true; false; true]; [true; true; false]]; su_pconn := 1 # 2; su_k := 1; su_min := 1; su_max := 3; su_init := 1;
     su_source := false; su_from_prior := fp |}.
Definition geo_M (g : xf) : mdl xf :=
  uniform_model (su_features (geo_su true)) 1 (su_conf (geo_su true)) (fun _ => Fin 0)
    (fun cl => match cl with [[true; false; false]] => Fin 0 | _ => g end).
Definition geo_junk : cube := [[[true; false]]; [[true; false]]; [[true; false]]].
Definition geo_jl : list lhmat := [[[1]; [1]; [1]]; [[1]; [1]; [1]]]%Q.
Lemma geo_valid fp : valid_setup (geo_su fp).
Proof.
  constructor; cbn; auto; try lia.
  - intros [|[|[|o]]] [|f] [|[|x]]; cbn; auto; repeat match goal with |- context [match ?x with 0%nat => _ | S _ => _ end] => destruct x end; cbn; auto; discriminate.
  - repeat constructor.
Qed.
Lemma geo_fits fp g : fits (geo_su fp) (geo_M g).
Proof. constructor; try reflexivity. constructor; [apply one_disjoint|constructor]. Qed.
Definition geo_s0 (fp : bool) (g : xf) : tsample :=
  tr_first 0 (t_generate_initial_sample (geo_su fp) (geo_M g) None (fun _ => 0) 10 geo_junk geo_jl).
Lemma geo_starts fp g : t_starts (geo_su fp) (geo_M g) None (geo_s0 fp g).
Proof.
  exists (fun _ => 0), 10, geo_junk, geo_jl. unfold geo_s0, tr_first. destruct (t_generate_initial_sample _ _ _ _ _ _ _) as [d|] eqn:E.
  2:{ destruct fp; vm_compute in E; discriminate. }
  exists d. destruct fp; vm_compute in E; injection E as <-; (split; [reflexivity|split; [reflexivity|split; [repeat constructor|split; [reflexivity|]]]]);
    (eexists; split; [left; reflexivity|discriminate]).
Qed.
Definition geo_p (cl : bmat) : fsample :=
  {| fs_clusters := cl; fs_params := {| p_weights := [[1 # 2; 1 # 2]]; p_ce := [[[1 # 2; 1 # 2]]]; p_cf := [[[[1 # 2; 1 # 2]]]] |}%Q; fs_source := None |}.
Lemma geo_view fp g : view (geo_s0 fp g) = geo_p [[true; false; false]].
Proof. destruct fp; vm_compute; reflexivity. Qed.
Lemma zeros_sum A (l : list A) : xsum (map (fun _ => Fin 0) l) = Fin 0.
Proof. induction l as [|a l IH]; [reflexivity|]. change (xadd (Fin 0) (xsum (map (fun _ : A => Fin 0) l)) = Fin 0). rewrite IH. cbn. f_equal. lra. Qed.
Lemma mapi_const A B (b : B) (l : list A) n : mapi_from n (fun _ _ => b) l = map (fun _ => b) l.
Proof. revert n. induction l as [|a l IH]; intros n; cbn [mapi_from map]; [reflexivity|]. rewrite IH. reflexivity. Qed.
Lemma geo_prior_value g g' s : fs_source s = None -> prior_with (geo_M g) (Fin g') s = Fin g'.
Proof.
  intros E. unfold prior_with, log_prior. cbn [t_size t_geo t_weights t_ce t_conf t_src spec_prior fresh_pars source]. rewrite E. cbn [option_map].
  assert (Z : xsum (map xsum (mapi (fun c e => mapi (fun g0 row => conf_fn (geo_M g) c g0 row) (v_value e)) (confounding_effects (fresh_pars s)))) = Fin 0).
  { unfold mapi. cbn [geo_M uniform_model conf_fn]. generalize 0 at 1. induction (confounding_effects (fresh_pars s)) as [|e l IH]; intros n; cbn [mapi_from map]; [reflexivity|].
    match goal with |- xsum (?a :: ?b) = _ => change (xadd a (xsum b) = Fin 0) end.
    rewrite IH, mapi_const, zeros_sum. cbn. f_equal. lra. }
  rewrite Z. cbn. f_equal. lra.
Qed.
Lemma xeqb_fin a b : xeqb (Fin a) (Fin b) = true <-> a = b.
Proof. cbn. destruct (Req_EM_T a b); split; auto; discriminate. Qed.

(** C99, false: sampling from the prior with a geo-prior that depends on the clusters.  All values of the geo-prior
    and of the prior are finite, and still a run (here its first step) can end with the AssertionError of the
    debug mode, because the check of the likelihood, which would clear the cache, is skipped. *)
Definition geo_draws (n : nat) (i _ : nat) : tdraw := {| td_op := 0; td_choice := CNth (if i <? n then 0 else 1); td_u := 1 / 2 |}%R.
Lemma geo_draws_ok fp n i c : draw_ok (geo_su fp) (geo_draws n i c).
Proof. intros k. cbn. intros [= <-]. exact I. Qed.
Lemma ext_map_assertion A B (f : A -> B) x : ext_map f x = Assertion -> x = Assertion.
Proof. destruct x; cbn; congruence. Qed.
Notation geo_prop fp := (memory_propose (geo_su fp) tr_pdf tr_dpdf).
Lemma geo_reject fp m : geo_prop fp 0 (CNth 0) (geo_p [[true; false; false]], m) = Some ((geo_p [[true; false; false]], m), RReject (fsample * option xf)).
Proof. unfold memory_propose. destruct fp; vm_compute; reflexivity. Qed.
Lemma geo_grow fp m : exists a, geo_prop fp 0 (CNth 1) (geo_p [[true; false; false]], m) =
  Some ((geo_p [[true; false; false]], m), RCopy (geo_p [[true; true; false]], m) (Fin a) (Fin a)).
Proof.
  exists (ln (Q2R (1 # 2))). unfold memory_propose, plain_propose. change (nth_error (operators (geo_su fp)) 0) with (Some KAlterCluster).
  cbn [fst]. unfold plain_kind, nth_plain.
  assert (E : exists q p, nth_error (possible (run_plain (geo_su fp) KAlterCluster (geo_p [[true; false; false]]))) 1 =
     Some (Propose {| x_clusters := [[true; true; false]]; x_source := None |} (Some q) (Some (1 # 2))%Q, p) /\ (q == 1 # 2)%Q).
  { destruct fp; (eexists; eexists; split; [vm_compute; reflexivity|reflexivity]). }
  destruct E as (q & p & -> & Eq). cbn [cluster_result option_map map_result snd x_clusters x_source fs_params geo_p].
  assert (L : log_q (Some q) = Fin (ln (Q2R (1 # 2))) /\ log_q (Some (1 # 2))%Q = Fin (ln (Q2R (1 # 2)))).
  { unfold log_q. rewrite (Qeq_eqR _ _ Eq). destruct (Rlt_dec 0 (Q2R (1 # 2))) as [_|N]; [auto|]. destruct N. unfold Q2R. cbn. lra. }
  destruct L as [-> ->]. reflexivity.
Qed.
Theorem C99_assertion_refuted : exists su M bpdf dpdf s draws, fits su M /\ valid_setup su /\ t_starts su M None s /\ (forall i c, draw_ok su (draws i c)) /\
  su_from_prior su = true /\ (forall cl, exists r, geo_fn M cl = Fin r) /\ (forall s, valid_sample su s -> exists r, scratch_prior M s = Fin r) /\
  tracked_run su M bpdf dpdf true [s] 2 2 draws = Assertion.
Proof.
  exists (geo_su true), (geo_M (Fin (-1))), tr_pdf, tr_dpdf, (geo_s0 true (Fin (-1))), (geo_draws 0).
  assert (Hs : Forall (t_starts (geo_su true) (geo_M (Fin (-1))) None) [geo_s0 true (Fin (-1))]) by (constructor; [apply geo_starts|constructor]).
  split; [apply geo_fits|]. split; [apply geo_valid|]. split; [apply geo_starts|]. split; [apply geo_draws_ok|]. split; [reflexivity|].
  assert (Hf : forall cl, exists r, geo_fn (geo_M (Fin (-1))) cl = Fin r).
  { intros cl. cbn [geo_M uniform_model geo_fn]. repeat match goal with |- context [match ?x with _ => _ end] => destruct x end; eauto. }
  split; [exact Hf|]. split.
  { intros s Vs. destruct (Hf (fs_clusters s)) as (r & Hr). exists r.
    assert (E : scratch_prior (geo_M (Fin (-1))) s = prior_with (geo_M (Fin (-1))) (geo_fn (geo_M (Fin (-1))) (fs_clusters s)) s) by reflexivity.
    rewrite E, Hr. apply geo_prior_value. pose proof (vs_source Vs) as Q. destruct (fs_source s) as [c|]; auto. destruct Q; discriminate. }
  pose proof (@C99_run (geo_su true) (geo_M (Fin (-1))) tr_pdf tr_dpdf true None 0 [geo_s0 true (Fin (-1))] 2 2 (geo_draws 0)
    (geo_fits _ _) (geo_valid _) I Hs (geo_draws_ok _ _)) as R.
  assert (A : memory_run (geo_su true) (geo_M (Fin (-1))) tr_pdf tr_dpdf true (map (fun s => (view s, None)) [geo_s0 true (Fin (-1))]) 2 2 (geo_draws 0) = Assertion).
  { cbn [map]. rewrite geo_view. unfold memory_run, t_generate_samples, t_init. cbn [t_init_chains].
    set (M0 := geo_M (Fin (-1))).
    assert (E0 : memory_eval (geo_su true) M0 true 0 (geo_p [[true; false; false]], None) = Done ((geo_p [[true; false; false]], Some (Fin 0)), Fin 0, Fin 0)).
    { unfold memory_eval. change (due true 0) with true. cbn [andb negb su_from_prior geo_su]. change (checked true 0 (Fin 0)) with true. cbn [negb]. change (geo_fn M0 (fs_clusters (geo_p [[true; false; false]]))) with (Fin 0). unfold M0. rewrite !geo_prior_value by reflexivity.
      rewrite (proj2 (xeqb_fin 0 0) eq_refl). reflexivity. }
    rewrite E0. cbn [ebind t_loop]. unfold t_step_all. cbn [chains statistics t_step_chains ebind]. unfold t_step. cbn [c_obj content i_step td_op td_choice geo_draws Nat.ltb Nat.leb].
    destruct (geo_grow true (Some (Fin 0))) as (a & ->). cbn [res_content].
    assert (E1 : memory_eval (geo_su true) M0 true 0 (geo_p [[true; true; false]], Some (Fin 0)) = Assertion).
    { unfold memory_eval. change (due true 0) with true. cbn [andb negb su_from_prior geo_su]. change (checked true 0 (Fin 0)) with true. cbn [negb]. change (geo_fn M0 (fs_clusters (geo_p [[true; true; false]]))) with (Fin (-1)). unfold M0. rewrite !geo_prior_value by reflexivity.
      destruct (xeqb (Fin 0) (Fin (-1))) eqn:X; [|reflexivity].
      apply xeqb_fin in X. lra. }
    rewrite E1. reflexivity. }
  rewrite A in R. exact (ext_map_assertion _ _ _ _ R).
Qed.
Print Assumptions C99_assertion_refuted.

(** C99, false: the geo-prior is part of the prior of the logged samples.  With the debug mode, from the data, the
    third step of a run can accept a candidate of prior density zero: its prior is computed, recorded and
    compared with the geo-prior of the initial clusters. *)
Theorem C99_stale_refuted : exists su M bpdf dpdf s draws sm log last i o, fits su M /\ valid_setup su /\ t_starts su M None s /\ (forall i c, draw_ok su (draws i c)) /\
  su_from_prior su = false /\ scratch_prior M (view s) = Fin 0 /\
  tracked_run su M bpdf dpdf true [s] 3 3 draws = Done (sm, log, last) /\ In (i, o) log /\
  scratch_prior M (view (content o)) = NInf /\ last_prior o = Some (Fin 0).
Proof.
  set (M0 := geo_M NInf). set (s := geo_s0 false NInf). set (p0 := geo_p [[true; false; false]]). set (p1 := geo_p [[true; true; false]]).
  assert (Hs : Forall (t_starts (geo_su false) M0 None) [s]) by (constructor; [apply geo_starts|constructor]).
  pose proof (@C99_run (geo_su false) M0 tr_pdf tr_dpdf true None 0 [s] 3 3 (geo_draws 2)
    (geo_fits _ _) (geo_valid _) I Hs (geo_draws_ok _ _)) as R.
  assert (Ones : forall l, Forall (fun x => exists q, x = Some q /\ (q == 1)%Q) l -> log_sum l = Fin 0).
  { induction 1 as [|x l (q & -> & Eq) H IH]; [reflexivity|]. change (xadd (M_lhlog.np_log (Some q)) (log_sum l) = Fin 0). rewrite IH. unfold M_lhlog.np_log.
    destruct (Qlt_le_dec 0 q) as [_|N]; [|rewrite Eq in N; exfalso; revert N; apply Qlt_not_le; reflexivity].
    rewrite (Qeq_eqR _ _ Eq). cbn. f_equal. replace (Q2R 1) with 1%R by (unfold Q2R; cbn; lra). rewrite ln_1. lra. }
  assert (L0 : scratch_ll M0 p0 = Fin 0).
  { unfold scratch_ll. apply Ones. vm_compute. repeat constructor; eexists; split; reflexivity. }
  assert (L1 : scratch_ll M0 p1 = Fin 0).
  { unfold scratch_ll. apply Ones. vm_compute. repeat constructor; eexists; split; reflexivity. }
  assert (E0 : forall m, memory_eval (geo_su false) M0 true 0 (p0, m) = Done ((p0, Some (Fin 0)), Fin 0, Fin 0)).
  { intros m. unfold memory_eval. change (due true 0) with true. cbn [andb negb su_from_prior geo_su]. rewrite L0. change (checked true 0 (Fin 0)) with true. cbn [negb].
    change (geo_fn M0 (fs_clusters p0)) with (Fin 0). unfold M0. rewrite !geo_prior_value by reflexivity. rewrite (proj2 (xeqb_fin 0 0) eq_refl). reflexivity. }
  assert (E1 : memory_eval (geo_su false) M0 true 1 (p1, Some (Fin 0)) = Done ((p1, Some (Fin 0)), Fin 0, Fin 0)).
  { unfold memory_eval. change (due true 1) with false. cbn [andb negb su_from_prior geo_su]. rewrite L1. change (checked true 1 (Fin 0)) with true. cbn [negb].
    unfold M0. rewrite !geo_prior_value by reflexivity. reflexivity. }
  destruct (geo_grow false (Some (Fin 0))) as (a & Eg). fold p0 p1 in Eg. pose proof (geo_reject false (Some (Fin 0))) as Er. fold p0 in Er.
  assert (Acc : accept (Fin 0) (Fin 0) (Fin 0) (Fin 0) (Fin a) (Fin a) (1 / 2) = Ok true).
  { unfold accept, math_log. cbn [is_ninf]. destruct (Rlt_dec 0 (1 / 2)) as [_|N]; [|lra]. cbn [rbind]. unfold metropolis_hastings_ratio. cbn.
    destruct (Rlt_dec _ _) as [_|N]; [reflexivity|]. exfalso. apply N. assert (ln (1 / 2) < ln 1)%R by (apply ln_increasing; lra). rewrite ln_1 in H. lra. }
  set (ob := fun p i => {| content := (p, Some (Fin 0)) : fsample * option xf; i_step := i; last_lh := Some (Fin 0); last_prior := Some (Fin 0) |}).
  set (ch := fun p i => {| c_obj := ob p i; c_ll := Fin 0; c_prior := Fin 0 |}).
  assert (T0 : t_step (geo_prop false) (memory_eval (geo_su false) M0 true) (ch p0 0) {| td_op := 0; td_choice := CNth 0; td_u := 1 / 2 |} = Done (ch p0 0, false)).
  { unfold t_step. cbn [ch ob c_obj content i_step td_op td_choice]. rewrite Er. cbn [res_content]. rewrite E0. reflexivity. }
  assert (T1 : t_step (geo_prop false) (memory_eval (geo_su false) M0 true) (ch p0 1) {| td_op := 0; td_choice := CNth 1; td_u := 1 / 2 |} = Done (ch p1 1, true)).
  { unfold t_step. cbn [ch ob c_obj content i_step td_op td_choice]. rewrite Eg. cbn [res_content]. rewrite E1. cbn [ebind res_q res_q_back td_u]. change (c_ll (ch p0 1)) with (Fin 0). change (c_prior (ch p0 1)) with (Fin 0). rewrite Acc. reflexivity. }
  assert (A : exists sm last, memory_run (geo_su false) M0 tr_pdf tr_dpdf true (map (fun s => (view s, None)) [s]) 3 3 (geo_draws 2) =
    Done (sm, [(0, ob p0 0); (1, ob p0 1); (2, ob p1 2)], last)).
  { cbn [map]. unfold s at 1. rewrite geo_view. fold p0. unfold memory_run, t_generate_samples, t_init. cbn [t_init_chains]. rewrite E0. cbn [ebind].
    change {| c_obj := _; c_ll := _; c_prior := _ |} with (ch p0 0). cbn [t_loop]. unfold t_step_all at 1. cbn [chains statistics t_step_chains].
    change (geo_draws 2 0 0) with {| td_op := 0; td_choice := CNth 0; td_u := 1 / 2 |}. rewrite T0. cbn [ebind]. change (set_i_step 0 (ch p0 0)) with (ch p0 0).
    cbn [chains nth_error option_map Nat.sub Nat.eqb]. unfold t_step_all at 1. cbn [chains statistics t_step_chains].
    change (geo_draws 2 1 0) with {| td_op := 0; td_choice := CNth 0; td_u := 1 / 2 |}. rewrite T0. cbn [ebind]. change (set_i_step 1 (ch p0 0)) with (ch p0 1).
    cbn [chains nth_error option_map Nat.sub Nat.eqb]. unfold t_step_all at 1. cbn [chains statistics t_step_chains].
    change (geo_draws 2 2 0) with {| td_op := 0; td_choice := CNth 1; td_u := 1 / 2 |}. rewrite T1. cbn [ebind]. eexists. eexists. reflexivity. }
  destruct A as (sm & last & A). rewrite A in R. cbn [ext_map map_run] in R.
  destruct (tracked_run _ _ _ _ _ _ _ _ _) as [[[tsm tlog] tlast]| | |] eqn:Et; cbn [ext_map map_run] in R; [|discriminate R|discriminate R|discriminate R].
  assert (R2 := f_equal (fun x => match x with Done (_, l, _) => l | _ => [] end) R). cbv beta iota in R2. clear R.
  assert (Hin : In (2, map_obj fst (ob p1 2)) (map_log view tlog)) by (rewrite R2; right; right; left; reflexivity).
  unfold map_log in Hin. apply in_map_iff in Hin as ([i o] & Ei & Hin).
  assert (Ec : view (content o) = p1) by exact (f_equal (fun x => content (snd x)) Ei).
  assert (Ep : last_prior o = Some (Fin 0)) by exact (f_equal (fun x => last_prior (snd x)) Ei).
  exists (geo_su false), M0, tr_pdf, tr_dpdf, s, (geo_draws 2), tsm, tlog, tlast, i, o.
  split; [apply geo_fits|]. split; [apply geo_valid|]. split; [apply geo_starts|]. split; [apply geo_draws_ok|]. split; [reflexivity|].
  split; [unfold s; rewrite geo_view; exact (geo_prior_value NInf 0 p0 eq_refl)|]. split; [exact Et|]. split; [exact Hin|].
  split; [|exact Ep]. rewrite Ec. reflexivity.
Qed.
Print Assumptions C99_stale_refuted.

(** Examples for the theorems of C99: the run of the last refutation, without the assertions: a run without the
    geo-prior, which accepts the candidate as well; and a loop that starts at step 1001. *)
Definition late_chain : chain (fsample * option xf) :=
  {| c_obj := {| content := (geo_p [[true; false; false]], Some (Fin 7)); i_step := 1000; last_lh := Some (Fin 0); last_prior := Some (Fin 7) |};
     c_ll := Fin 0; c_prior := Fin 7 |}.
Example C99_unchecked_case : fits (geo_su false) (geo_M NInf) /\ valid_setup (geo_su false) /\ Forall (t_starts (geo_su false) (geo_M NInf) None) [geo_s0 false NInf] /\
  Forall (fun s => exists r, geo_fn (geo_M NInf) (fs_clusters (view s)) = Fin r) [geo_s0 false NInf] /\ geo_fn (geo_M NInf) [[true; true; false]] = NInf.
Proof.
  split; [apply geo_fits|]. split; [apply geo_valid|]. split; [constructor; [apply geo_starts|constructor]|]. split; [|reflexivity].
  constructor; [|constructor]. rewrite geo_view. exists 0%R. reflexivity.
Qed.
Example C99_late_case : settled (geo_M NInf) late_chain /\ finite_memory late_chain /\ 1000 <= i_step (c_obj late_chain) /\
  forget_geo (geo_M NInf) late_chain =
    {| c_obj := {| content := geo_p [[true; false; false]]; i_step := 1000; last_lh := Some (Fin 0); last_prior := Some (Fin 7) |};
       c_ll := Fin 0; c_prior := scratch_prior (no_geo (geo_M NInf)) (geo_p [[true; false; false]]) |}.
Proof.
  split; [exists (Fin 7); split; [reflexivity|symmetry; apply geo_prior_value; reflexivity]|]. split; [exists 7%R; reflexivity|]. split; [cbn [late_chain c_obj i_step]; apply le_n|reflexivity].
Qed.
