(** Property theorems C72 and C73: initial samples, the sample handed over from the warm-up, and the samples
    logged by a whole analysis. *)
From Verif Require Import M_sampler S_sampler L_sampler.
Open Scope Q_scope.

(** Two objects, one feature with two states, one confounder with one group, sources sampled. *)
Definition demo_su (k : nat) : setup :=
  {| su_features := [[[true; false]]; [[false; true]]]; su_applicable := [[true; true]]; su_conf := [[[true; true]]];
     su_adj := [[false; true]; [true; false]]; su_pconn := 1 # 2; su_k := k; su_min := 1; su_max := 2; su_init := 1;
     su_source := true; su_from_prior := false |}.
Definition demo_junk : cube := [[[true; true]]; [[false; false]]].
Lemma demo_valid k : (0 < k)%nat -> valid_setup (demo_su k).
Proof.
  intros Hk. constructor; cbn; auto; try lia.
  - intros [|[|o]] [|f] [|[|x]]; cbn; auto; repeat match goal with |- context [match ?x with 0%nat => _ | S _ => _ end] => destruct x end; cbn; auto; discriminate.
  - repeat constructor. 
Qed.
(** An initial sample that the sampler can generate, and another one with the same clusters, weights and effects. *)
Definition demo_start (src : cube) : fsample :=
  {| fs_clusters := [[true; false]];
     fs_params := {| p_weights := [[1 # 2; 1 # 2]]; p_ce := [[[2 # 3; 1 # 3]]]; p_cf := [[[[2 # 4; 2 # 4]]]] |};
     fs_source := Some src |}.
Definition demo_src1 : cube := [[[true; false]]; [[false; true]]].
Definition demo_src2 : cube := [[[false; true]]; [[false; true]]].
Lemma demo_starts1 : starts (demo_su 1) None (demo_start demo_src1).
Proof.
  exists (fun _ => 0%nat), 10%nat, demo_junk. eexists. conj; [reflexivity|vm_compute; reflexivity|].
  eexists. split; [right; left; reflexivity|discriminate].
Qed.

(** C72, initial samples: whatever the random choices, an initial sample generated from scratch is valid. *)
Theorem C72_initial : forall su s, valid_setup su -> starts su None s -> valid_sample su s.
Proof. intros su s V H. apply (@starts_valid su None 0 s V I H). Qed.
Print Assumptions C72_initial.
Example C72_initial_case : valid_setup (demo_su 1) /\ starts (demo_su 1) None (demo_start demo_src1) /\ valid_sample (demo_su 1) (demo_start demo_src1).
Proof.
  assert (V := demo_valid 1 ltac:(lia)). conj; auto. apply demo_starts1. apply C72_initial; auto. apply demo_starts1.
Qed.

(** C72, values: from scratch all weights are equal and the effects of every group of a confounder are the
    frequencies of the states among its members, with one additional observation of every applicable state; so are
    the effects of the clusters that are not taken from a previous sample, for the members of the generated clusters. *)
Theorem C72_values : forall su prev s, starts su prev s ->
  (prev = None -> Forall (Forall (fun q => q * inject_Z (Z.of_nat (su_nc su)) == 1)) (p_weights (fs_params s)) /\
     forall k gs es, nth_error (su_conf su) k = Some gs -> nth_error (p_cf (fs_params s)) k = Some es ->
       forall g grp e, nth_error gs g = Some grp -> nth_error es g = Some e -> smoothed_effect (su_features su) grp (su_applicable su) e) /\
  forall i e, (length (match prev with Some p => p_ce (fs_params p) | None => [] end) <= i)%nat -> nth_error (p_ce (fs_params s)) i = Some e ->
    smoothed_effect (su_features su) (nth i (fs_clusters s) []) (su_applicable su) e.
Proof. exact starts_values. Qed.
Print Assumptions C72_values.
(** The cluster of the first object: one observation of the first state (so 2/3 and 1/3); the group: both objects. *)
Example C72_values_case : starts (demo_su 1) None (demo_start demo_src1) /\
  smoothed_effect (su_features (demo_su 1)) [true; false] (su_applicable (demo_su 1)) [[2 # 3; 1 # 3]] /\
  smoothed_effect (su_features (demo_su 1)) [true; true] (su_applicable (demo_su 1)) [[2 # 4; 2 # 4]].
Proof.
  conj; [apply demo_starts1| |].
  - apply (proj2 (C72_values _ _ _ demo_starts1) 0%nat); [cbn; lia|reflexivity].
  - destruct (proj1 (C72_values _ _ _ demo_starts1) eq_refl) as [_ H]. apply (H 0%nat [[true; true]] [[[2 # 4; 2 # 4]]] eq_refl eq_refl 0%nat [true; true] _ eq_refl eq_refl).
Qed.

(** C72, the sample handed over: with a valid previous sample of [k'] clusters the new sample is valid, its
    first [k'] clusters and cluster effects, the confounding effects and the weights are those of the previous
    sample.  Missing: the sources, see [C72_sources_refuted]. *)
Theorem C72_handover_partial : forall su k' p s, valid_setup su -> valid_sample (with_k su k') p -> starts su (Some p) s ->
  valid_sample su s /\ (k' <= su_k su)%nat /\ firstn k' (fs_clusters s) = fs_clusters p /\
  firstn k' (p_ce (fs_params s)) = p_ce (fs_params p) /\ p_cf (fs_params s) = p_cf (fs_params p) /\
  same_weights (p_weights (fs_params s)) (p_weights (fs_params p)).
Proof. intros su k' p s V Hp H. apply (@starts_valid su (Some p) k' s V Hp H). Qed.
Print Assumptions C72_handover_partial.
(** One previous cluster, two clusters in the model: the second object becomes the new cluster. *)
Example C72_handover_case : exists s, valid_sample (with_k (demo_su 2) 1) (demo_start demo_src1) /\
  starts (demo_su 2) (Some (demo_start demo_src1)) s /\ fs_clusters s = [[true; false]; [false; true]].
Proof.
  eexists. conj.
  - apply (C72_initial_case).
  - exists (fun _ => 0%nat), 10%nat, demo_junk. eexists. conj; [reflexivity|vm_compute; reflexivity|].
    eexists. split; [left; reflexivity|discriminate].
  - reflexivity.
Qed.
(** A previous sample with more clusters than the model is not accepted. *)
Theorem C72_too_many : forall su p rnd fuel junk, (su_k su < length (fs_clusters p))%nat -> (0 < su_k su)%nat ->
  generate_initial_sample su (Some p) rnd fuel junk = None.
Proof.
  intros su p rnd fuel junk H H0. unfold generate_initial_sample, generate_initial_clusters. 
  destruct (su_k su) as [|k] eqn:E; [lia|]. cbn [Nat.eqb]. 
  destruct (Nat.ltb_spec (S k) (length (fs_clusters p))); [reflexivity|lia].
Qed.
Print Assumptions C72_too_many.
Example C72_too_many_case : generate_initial_sample (demo_su 1)
  (Some {| fs_clusters := [[true; false]; [false; true]]; fs_params := fs_params (demo_start demo_src1); fs_source := Some demo_src1 |})
  (fun _ => 0%nat) 10 demo_junk = None.
Proof. reflexivity. Qed.

(** C72, sources: false, they are drawn again.  The main run can start with sources (and a likelihood)
    different from those of the best warm-up sample. *)
Theorem C72_sources_refuted : exists su p s, valid_setup su /\ starts su None p /\ starts su (Some p) s /\ fs_source s <> fs_source p.
Proof.
  exists (demo_su 1), (demo_start demo_src1). eexists. conj.
  - apply demo_valid. lia.
  - apply demo_starts1.
  - exists (fun _ => 0%nat), 10%nat, demo_junk. eexists. conj; [reflexivity|vm_compute; reflexivity|].
    eexists. split; [right; right; right; left; reflexivity|discriminate].
  - discriminate.
Qed.
Print Assumptions C72_sources_refuted.

(** C73. In every analysis with a valid setting -- any data, likelihood and prior functions, any number of
    warm-up chains and steps, any draws of any of the operators, any accept/reject decisions, handover of the
    best warm-up sample -- all logged samples are valid: disjoint clusters with sizes in the range, weights
    and effects are probability vectors, effects on the applicable states only, one source per observation. *)
Theorem C73_logged_valid : forall su ll pr n_ops warm_steps steps samples log, valid_setup su ->
  whole_run su ll pr n_ops warm_steps steps samples log -> Forall (fun x => valid_sample su (content (snd x))) log.
Proof. exact whole_run_valid. Qed.
Print Assumptions C73_logged_valid.

(** A run with one warm-up step and two logged steps, all with the Gibbs operator for the weights. *)
Definition demo_op : pop := GibbsWeights 0 1 [(1 # 4, true)].
Definition demo_draw : draw fsample :=
  {| d_op := 3; d_prop := fun s => match propose_params [[true; true]] demo_op (fs_params s) with Some p => RGibbs (with_params s p) | None => RReject fsample end; d_u := (1 / 2)%R |}.
Definition demo_zero (s : fsample) : xf := Fin 0%R.
Lemma demo_drawn sm0 n : drawn (demo_su 1) demo_zero demo_zero sm0 n (fun _ _ => demo_draw).
Proof.
  intros i c sm ch _ _ _. exists KGibbsWeights. split; [reflexivity|]. cbn [demo_draw d_prop demo_op propose_params].
  apply (@pr_gibbs_weights (demo_su 1) (content (c_obj ch)) 0 1 [(1 # 4, true)]); [|reflexivity].
  unfold draws_ok. refine (conj _ (conj _ (conj _ (conj _ _)))); [apply Nat.ltb_lt; reflexivity|apply Nat.ltb_lt; reflexivity|discriminate|reflexivity|].
  apply Forall_cons; [|apply Forall_nil]. cbn [fst]. split; discriminate.
Qed.
Example C73_case : exists log, valid_setup (demo_su 1) /\ whole_run (demo_su 1) demo_zero demo_zero 6 1 2 2 log /\
  map (fun x => (fst x, map (map Qred) (p_weights (fs_params (content (snd x)))))) log = [(0%nat, [[3 # 4; 1 # 4]]); (1%nat, [[3 # 4; 1 # 4]])].
Proof.
  eexists. conj.
  - apply demo_valid. lia.
  - eapply whole_run_intro with (ws := [demo_start demo_src1]) (wdraws := fun _ _ => demo_draw) (draws := fun _ _ => demo_draw).
    + constructor; [apply demo_starts1|constructor].
    + apply demo_drawn.
    + unfold warm_up. cbn. unfold best_sample. cbn. unfold xeqb. destruct (Req_EM_T _ _) as [_|N]; [|congruence]. cbn. reflexivity.
    + constructor; [|constructor]. exists (fun _ => 0%nat), 10%nat, demo_junk. eexists. conj; [reflexivity|vm_compute; reflexivity|].
      eexists. split; [right; left; reflexivity|discriminate].
    + apply demo_drawn.
    + reflexivity.
  - reflexivity.
Qed.
