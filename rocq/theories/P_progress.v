(** Property theorems C74: no operator raises an exception in a complete setting. *)
From Verif Require Import M_source S_model S_operators S_source S_mcmc S_honest S_gsource L_reverse L_operators L_source L_gsource L_gsource2
  M_progress S_progress L_progress L_mcmc P_sampler.
Open Scope Q_scope.

(** [demo_su k] is complete. *)
Lemma demo_complete k : (0 < k)%nat -> complete_setup (demo_su k).
Proof.
  intros Hk. constructor.
  - apply demo_valid; auto.
  - split; [cbn; lia|]. repeat constructor.
  - split; [discriminate|]. repeat constructor; [discriminate|]. intros o i j H1 H2. cbn in *.
    destruct i as [|[|i]], j as [|[|j]]; auto; destruct o as [|[|o]]; cbn in *; try discriminate;
      repeat match goal with H : context [match ?x with 0%nat => _ | S _ => _ end] |- _ => destruct x end; discriminate.
  - intros [|[|o]] Ho; cbn in Ho; try lia; exists [[true; true]], [true; true]; cbn; auto.
  - discriminate.
Qed.

(** C74. In a complete setting, in every sample with positive parameters, the operators exist and none of them can
    raise an exception because of an empty choice, undefined probabilities or a missing source: with whatever
    random choices. *)
Theorem C74_progress : forall su s, complete_setup su -> positive_sample su s ->
  get_operators su = Some (operators su) /\ forall k, In k (operators su) -> ~ may_raise su s k.
Proof.
  intros su s C H. split; [|intros k; apply no_exception; auto].
  unfold get_operators. destruct C as [_ _ [C _] _ _]. destruct (su_conf su); [contradiction|reflexivity].
Qed.
Print Assumptions C74_progress.
Lemma demo_positive_start : positive_sample (demo_su 1) (demo_start demo_src1).
Proof. apply (@starts_positive (demo_su 1) None); [apply demo_valid; lia|exact I|apply demo_starts1]. Qed.
Example C74_progress_case : complete_setup (demo_su 1) /\ positive_sample (demo_su 1) (demo_start demo_src1) /\
  operators (demo_su 1) = [KGibbsish; KGibbsish2; KSource; KGibbsWeights; KGibbsEffect None; KGibbsEffect (Some 0%nat)].
Proof. conj; [apply demo_complete; lia|apply demo_positive_start|reflexivity]. Qed.

(** C74, runs: chains that start from scratch or from a positive sample, with draws from the interior, take every
    step: all samples are positive, so (for the next step) no operator can raise an exception; and the
    accept/reject step succeeds if the uniform draws are not zero (C16). *)
Theorem C74_run : forall su ll pr n_ops prev ss n draws, complete_setup su ->
  match prev with None => True | Some p => positive_sample su p end -> Forall (starts su prev) ss ->
  drawn_int su ll pr (init_sampler ll pr (su_from_prior su) n_ops ss) n draws -> positive_draws draws ->
  forall i, (i <= n)%nat -> exists sm, after ll pr (su_from_prior su) draws (init_sampler ll pr (su_from_prior su) n_ops ss) i = Ok sm /\
    Forall (fun ch => positive_sample su (content (c_obj ch)) /\
                      forall k, In k (operators su) -> ~ may_raise su (content (c_obj ch)) k) (chains sm).
Proof.
  intros su ll pr n_ops prev ss n draws C Hp Hs Hd Hu i Hi.
  destruct (@after_ok _ ll pr (su_from_prior su) draws (init_sampler ll pr (su_from_prior su) n_ops ss) i Hu) as [sm Hsm]. exists sm. split; auto.
  assert (H0 : Forall (positive_sample su) ss).
  { eapply Forall_impl; [|exact Hs]. intros s H. eapply starts_positive; eauto. apply C. }
  pose proof (run_positive H0 Hd Hi Hsm) as H. eapply Forall_impl; [|exact H]. cbv beta. intros ch Hc. split; auto.
  apply C74_progress; auto.
Qed.
Print Assumptions C74_run.
Example C74_run_case : drawn_int (demo_su 1) demo_zero demo_zero (init_sampler demo_zero demo_zero false 6 [demo_start demo_src1]) 3 (fun _ _ => demo_draw) /\
  positive_draws (fun _ _ => demo_draw) /\ Forall (starts (demo_su 1) None) [demo_start demo_src1].
Proof.
  conj.
  - intros i c sm ch _ _ _. exists KGibbsWeights. split; [reflexivity|]. cbn [demo_draw d_prop demo_op propose_params].
    apply (@pi_gibbs_weights (demo_su 1) (content (c_obj ch)) 0 1 [(1 # 4, true)]); [| |reflexivity].
    + unfold draws_ok. refine (conj _ (conj _ (conj _ (conj _ _)))); [apply Nat.ltb_lt; reflexivity|apply Nat.ltb_lt; reflexivity|discriminate|reflexivity|].
      apply Forall_cons; [|apply Forall_nil]. cbn [fst]. split; discriminate.
    + apply Forall_cons; [|apply Forall_nil]. cbn [fst]. split; reflexivity.
  - intros i c. cbn [demo_draw d_u]. Lra.lra.
  - constructor; [apply demo_starts1|constructor].
Qed.

(** The conditions are needed.  Two applicable states (without sampled sources): the initial sample exists, and
    [AlterClusterEffect], [AlterConfoundingEffects] raise an exception for the feature with one state. *)
Definition one_state : setup :=
  {| su_features := [[[true]]; [[true]]]; su_applicable := [[true]]; su_conf := [[[true; true]]];
     su_adj := [[false; true]; [true; false]]; su_pconn := 1 # 2; su_k := 1; su_min := 1; su_max := 2; su_init := 1;
     su_source := false; su_from_prior := false |}.
Theorem C74_needs_two_states : exists su s k, valid_setup su /\ starts su None s /\ positive_sample su s /\ In k (operators su) /\ may_raise su s k.
Proof.
  assert (V : valid_setup one_state).
  { constructor; cbn; auto; try lia; [|repeat constructor].
    intros [|[|o]] [|f] [|x]; cbn; auto; repeat match goal with |- context [match ?x with 0%nat => _ | S _ => _ end] => destruct x end; cbn; auto; discriminate. }
  exists one_state. eexists. exists (KAlterEffect None).
  assert (St : starts one_state None {| fs_clusters := [[true; false]];
     fs_params := {| p_weights := [[1 # 2; 1 # 2]]; p_ce := [[[2 # 2]]]; p_cf := [[[[3 # 3]]]] |}; fs_source := None |}).
  { exists (fun _ => 0%nat), 10%nat, demo_junk. eexists. conj; [reflexivity|vm_compute; reflexivity|]. eexists. split; [left; reflexivity|discriminate]. }
  conj; [exact V|exact St| |cbn; auto|].
  - apply (@starts_positive one_state None); auto.
  - cbn [may_raise]. right. right. exists [true]. split; [left|]; reflexivity.
Qed.
Print Assumptions C74_needs_two_states.
(** A confounder: without one the dictionary of operators cannot be built. *)
Theorem C74_needs_confounder : exists su, valid_setup su /\ get_operators su = None.
Proof.
  exists {| su_features := [[[true; false]]]; su_applicable := [[true; true]]; su_conf := []; su_adj := [[false]]; su_pconn := 1 # 2;
            su_k := 1; su_min := 1; su_max := 1; su_init := 1; su_source := true; su_from_prior := false |}.
  split; [|reflexivity]. constructor; cbn; auto; try lia; [|repeat constructor].
  intros [|[|o]] [|f] [|[|x]]; cbn; auto; repeat match goal with |- context [match ?x with 0%nat => _ | S _ => _ end] => destruct x end; cbn; auto; discriminate.
Qed.
Print Assumptions C74_needs_confounder.
(** A group for every object: the second object is in no group of the confounder; [AlterClusterGibbsish] computes NaN
    as its posterior and cannot draw. *)
Definition no_group : setup :=
  {| su_features := [[[true; false]]; [[false; true]]]; su_applicable := [[true; true]]; su_conf := [[[true; false]]];
     su_adj := [[false; true]; [true; false]]; su_pconn := 1 # 2; su_k := 1; su_min := 1; su_max := 2; su_init := 1;
     su_source := true; su_from_prior := false |}.
Theorem C74_needs_group : exists su s k, valid_setup su /\ starts su None s /\ positive_sample su s /\ In k (operators su) /\ may_raise su s k.
Proof.
  assert (V : valid_setup no_group).
  { constructor; cbn; auto; try lia; [|repeat constructor].
    intros [|[|o]] [|f] [|[|x]]; cbn; auto; repeat match goal with |- context [match ?x with 0%nat => _ | S _ => _ end] => destruct x end; cbn; auto; discriminate. }
  exists no_group. 
  assert (St : exists src, starts no_group None {| fs_clusters := [[true; false]];
     fs_params := {| p_weights := [[1 # 2; 1 # 2]]; p_ce := [[[2 # 3; 1 # 3]]]; p_cf := [[[[2 # 3; 1 # 3]]]] |}; fs_source := Some src |}).
  { eexists. exists (fun _ => 0%nat), 10%nat, demo_junk. eexists. conj; [reflexivity|vm_compute; reflexivity|]. eexists. split; [left; reflexivity|discriminate]. }
  destruct St as [src St]. eexists. exists KGibbsish.
  conj; [exact V|exact St| |cbn; auto|].
  - apply (@starts_positive no_group None); auto.
  - cbn [may_raise]. eexists. split; [right; left; vm_compute; reflexivity|discriminate].
Qed.
Print Assumptions C74_needs_group.
(** Positive effects: a draw from the boundary (rounding to 0) gives a valid sample in which the first object has
    probability 0 under both components, and again the posterior of the cluster is NaN. *)
Definition boundary : fsample :=
  {| fs_clusters := [[true; false]];
     fs_params := {| p_weights := [[1 # 2; 1 # 2]]; p_ce := [[[0; 1]]]; p_cf := [[[[0; 1]]]] |}; fs_source := Some demo_src1 |}.
Theorem C74_needs_positive : exists su s k, complete_setup su /\ valid_sample su s /\ In k (operators su) /\ may_raise su s k.
Proof.
  exists (demo_su 1), boundary, KGibbsish. conj; [apply demo_complete; lia| |cbn; auto|].
  - destruct demo_positive_start as [[V1 V2 V3 V4 V5 V6 V7] _]. constructor; auto.
    assert (E : effect_ok [[true; true]] [[0; 1]]).
    { repeat constructor; try discriminate. intros [|[|x]]; cbn; try discriminate. intros _. destruct x; reflexivity. }
    destruct V4 as (W1 & W2 & W3 & W4). unfold params_ok, boundary. cbn [fs_params p_weights p_ce p_cf]. conj; auto.
    all: repeat constructor; exact E.
  - cbn [may_raise]. eexists. split; [right; left; vm_compute; reflexivity|discriminate].
Qed.
Print Assumptions C74_needs_positive.

(** C72, sources: in a complete setting, whatever the choices for the clusters, the initial sources are drawn from their
    full conditional distribution given the initial clusters, weights and effects: the probability of a source array is
    (source prior x likelihood), divided by its sum over all source arrays. *)
Theorem C72_source_law : forall su prev rnd fuel junk d s src, complete_setup su -> su_source su = true ->
  match prev with None => True | Some p => positive_sample su p end -> length junk = su_n su ->
  generate_initial_sample su prev rnd fuel junk = Some d -> supp d s -> valid_source (su_n su) (su_nf su) (su_nc su) src ->
  let density c := source_density (env_of su (fs_params s)) {| x_clusters := fs_clusters s; x_source := Some c |} in
  pr d (fun y => match fs_source y with Some c => if cube_dec c src then true else false | None => false end) ==
  density src / Qsum (map density (all_sources (su_n su) (su_nf su) (su_nc su))).
Proof.
  intros su prev rnd fuel junk d s src C Hsrc Hp Hj H Hs V density.
  assert (St : starts su prev s) by (exists rnd, fuel, junk, d; auto).
  pose proof (starts_positive (co_valid C) Hp St) as Pos. pose proof (env_positive C Pos) as P.
  pose proof Pos as [[S1 S2 _ _ S5 _ _] _].
  unfold generate_initial_sample in H.
  destruct (generate_initial_clusters _ _ _ _ _ _ _) as [[cl|st|]|] eqn:Ec; try discriminate.
  destruct (generate_initial_weights su prev) as [w|]; [|discriminate].
  destruct (generate_initial_cluster_effect su prev cl) as [ce|]; [|discriminate].
  destruct (generate_initial_confounding_effects su prev) as [cf|]; [|discriminate].
  cbv zeta in H. rewrite Hsrc in H. set (p := {| p_weights := w; p_ce := ce; p_cf := cf |}) in *. injection H as <-.
  assert (Es : fs_params s = p /\ fs_clusters s = cl).
  { apply supp_bind in Hs as (out & _ & Hs). destruct out as [|y q qb|]; [destruct Hs as (? & [] & _)| |destruct Hs as (? & [] & _)].
    apply supp_ret in Hs. subst s. auto. }
  destruct Es as [Ep Ecl]. unfold density. rewrite Ep, Ecl in *. clear density.
  set (e := env_of su p) in *.
  assert (Hl : length (e_ce e) = length cl) by (rewrite (proj1 S1); exact S5).
  assert (M : pr (bind (initial_source e cl junk) (fun out => match out with
              | Propose y _ _ => ret {| fs_clusters := cl; fs_params := p; fs_source := x_source y |} | _ => [] end))
             (fun y => match fs_source y with Some c => if cube_dec c src then true else false | None => false end)
            == mass (initial_source e cl junk) {| x_clusters := cl; x_source := Some src |}).
  { unfold pr, mass, pr. rewrite E_bind. unfold initial_source, gibbs_source. cbn [x_source x_clusters]. cbv zeta.
    rewrite !E_bind. apply E_ext. intros rows p0 _. unfold ret, E. cbn [map Qsum fold_right snd fst fs_source x_source].
    set (c := set_rows _ _ _). destruct (cube_dec c src) as [Q|Q], (cstate_eq_dec _ _) as [Q'|Q']; try reflexivity.
    - exfalso. apply Q'. rewrite Q. reflexivity.
    - exfalso. injection Q' as Q'. contradiction. }
  rewrite M. pose proof (evidence_sum P S2 Hl) as E. change (n_objects e) with (su_n su) in E.
  assert (En : e_nf e = su_nf su) by reflexivity. assert (Enc : n_comps e = su_nc su) by reflexivity.
  rewrite Enc, En in E. rewrite <- E.
  unfold initial_source, source_density, evidence, state_weights. simpl x_source. simpl x_clusters. rewrite (weights_W P S2 Hl).
  assert (V' : valid_source (n_objects e) (e_nf e) (n_comps e) src) by exact V.
  assert (Hj' : length junk = n_objects e) by exact Hj.
  destruct (e_from_prior e) eqn:Ef.
  - destruct (@from_prior e _ P S2 Hl {| x_clusters := cl; x_source := Some junk |} junk src Ef eq_refl eq_refl Hj' V') as (a & -> & ->). field.
  - destruct (@full_conditional e _ P S2 Hl {| x_clusters := cl; x_source := Some junk |} junk src Ef eq_refl eq_refl Hj' V') as (a & m & -> & -> & Hm & ->). reflexivity.
Qed.
Print Assumptions C72_source_law.
(** The first object is in the cluster: its source is the cluster with probability 4/7 (cluster effect 2/3 against 1/2 of
    the confounder); the second object is not, its source is the confounder. *)
Example C72_source_law_case : exists d, generate_initial_sample (demo_su 1) None (fun _ => 0%nat) 10 demo_junk = Some d /\
  supp d (demo_start demo_src1) /\ valid_source 2 1 2 demo_src1 /\
  pr d (fun y => match fs_source y with Some c => if cube_dec c demo_src1 then true else false | None => false end) == 4 # 7 /\
  pr d (fun y => match fs_source y with Some c => if cube_dec c demo_src2 then true else false | None => false end) == 3 # 7.
Proof.
  eexists. conj; [vm_compute; reflexivity| | |vm_compute; reflexivity|vm_compute; reflexivity].
  - eexists. split; [right; left; reflexivity|discriminate].
  - split; [reflexivity|]. repeat constructor.
    + exists 0%nat. split; [reflexivity|]. intros [|[|[|i]]]; try discriminate. auto.
    + exists 1%nat. split; [reflexivity|]. intros [|[|[|i]]]; try discriminate. auto.
Qed.
