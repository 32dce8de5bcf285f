(** Property theorems C26: every observation has exactly one admissible source. *)
From Verif Require Import M_source S_source L_source P_operators.
From Coq Require Import Lqa.
Open Scope Q_scope.

(** C26, first half. In every state with sampled sources -- after the initial source and any accepted or
    rejected proposals of the three cluster operators and [GibbsSampleSource], with any parameters in
    between, even when the source probabilities are undefined -- each observation is attributed to exactly
    one component. *)
Theorem C26_one_component : forall n nf k conf x, source_history (fun _ => True) n nf k conf x ->
  exists s, x_source x = Some s /\ one_source n nf (S (length conf)) s.
Proof. exact history_one_source. Qed.
Print Assumptions C26_one_component.

(** C26, second half, which is false in general (below): the component is available for the object.
    Partial: proved for parameters with positive weights and effects that give every observed state a
    positive probability (which holds almost surely for the Dirichlet draws of the sampler) and data in
    which every object has a group in some confounder. *)
Theorem C26_admissible_partial : forall n nf k conf x, source_history positive_env n nf k conf x ->
  exists s, x_source x = Some s /\ one_source n nf (S (length conf)) s /\ admissible (x_clusters x) conf s.
Proof. exact history_sources. Qed.
Print Assumptions C26_admissible_partial.

(** A history in the setting of [demo_env] that starts with the initial source, moves an object with
    [AlterClusterGibbsish], with [AlterClusterGibbsish2], and resamples all sources. *)
Lemma demo_positive : positive_env demo_env.
Proof.
  constructor; try reflexivity.
  - repeat first [apply Forall_cons | apply Forall_nil | apply conj]; reflexivity.
  - repeat first [apply Forall_cons | apply Forall_nil | reflexivity].
  - intros [|k] gs ps; simpl; [|destruct k; discriminate]. intros [= <-] [= <-]. reflexivity.
  - intros p Hp. assert (Hin : In p (e_ce demo_env ++ concat (e_cf demo_env))).
    { apply in_or_app. destruct Hp as [Hp|(ps & H1 & H2)]; [left; auto|right]. apply in_concat. eauto. }
    clear Hp. simpl in Hin.
    assert (F : length p = 2%nat /\ (forall f s, 0 <= nth s (nth f p []) 0) /\
      forall f s, (f < 2)%nat -> (s < 2)%nat -> 0 < nth s (nth f p []) 0).
    { repeat (destruct Hin as [<-|Hin]); try contradiction; (split; [reflexivity|split]);
        intros f s; destruct f as [|[|[|f]]]; destruct s as [|[|[|s]]]; intros; cbn; try lra; try lia. }
    destruct F as (F1 & F2 & F3). conj; auto. intros o f s H. apply F3; revert H;
      destruct o as [|[|[|[|[|[|o]]]]]]; destruct f as [|[|[|f]]]; destruct s as [|[|[|s]]]; cbn; intros; try discriminate; lia.
  - repeat constructor. intros o i j. destruct o as [|[|[|[|[|[|o]]]]]]; destruct i as [|[|[|i]]]; destruct j as [|[|[|j]]];
      simpl; intros; try discriminate; auto.
  - intros o Ho. exists [[true; true; true; false; false]; [false; false; false; true; true]]. unfold n_objects in Ho. simpl in Ho.
    destruct (Nat.lt_ge_cases o 3).
    + exists [true; true; true; false; false]. simpl. destruct o as [|[|[|o]]]; auto; lia.
    + exists [false; false; false; true; true]. simpl. destruct o as [|[|[|[|[|o]]]]]; auto; lia.
Qed.
Definition demo_y4 : cstate :=
  {| x_clusters := x_clusters demo_y3; x_source := Some [src1; src1; src0; src1; src0] |}.
Example C26_case : source_history positive_env 5 2 2 (e_conf demo_env) demo_y4.
Proof.
  assert (S : setting 5 2 2 (e_conf demo_env) demo_env) by (repeat split).
  assert (R : exists q qb, reported (gibbs_source demo_env demo_y3) demo_y4 = Some (q, qb)) by (do 2 eexists; vm_compute; reflexivity).
  destruct R as (q & qb & R). eapply sh_source with (e := demo_env) (x := demo_y3); eauto using demo_positive; [|exact (reported_supp _ _ _ _ R)].
  eapply sh_cluster with (e := demo_env) (o := OpGibbsish2) (x := demo_y2); eauto using demo_positive; [|eapply supp_run; vm_compute; reflexivity].
  eapply sh_cluster with (e := demo_env) (o := OpGibbsish) (x := demo_y); eauto using demo_positive; [|eapply supp_run; vm_compute; reflexivity].
  eapply sh_cluster with (e := demo_env) (o := OpAlter) (x := demo_x); eauto using demo_positive; [|eapply supp_run; vm_compute; reflexivity].
  assert (R' : exists q qb, reported (initial_source demo_env (x_clusters demo_x) (repeat [] 5)) demo_x = Some (q, qb)) by (do 2 eexists; vm_compute; reflexivity).
  destruct R' as (q' & qb' & R'). eapply sh_start with (e := demo_env) (cl := x_clusters demo_x) (junk := repeat [] 5); [exact demo_positive|exact S|reflexivity|exact demo_shape|exact demo_disjoint|].
  exact (reported_supp _ _ _ _ R').
Qed.

(** The second half of C26 is false: object 1 has no group in the confounder (an empty cell in the data)
    and is in no cluster.  All weights and effects are positive.  Its normalised weights are 0/0, and the
    initial source attributes its observation to component 0, the clusters. *)
Definition nogroup_env : env :=
  {| e_features := [ [[true; false]]; [[false; true]] ]; e_nf := 1; e_conf := [ [[true; false]] ];
     e_weights := [[1#2; 1#2]]; e_ce := [ [[1#2; 1#2]] ]; e_cf := [ [ [[1#2; 1#2]] ] ];
     e_adj := repeat (repeat true 2) 2; e_pconn := 1#2; e_min := 1; e_max := 1; e_resample := true; e_from_prior := false |}.
Theorem C26_admissible_refuted : exists e k x s,
  Forall (Forall (fun q => 0 < q)) (e_weights e) /\
  Forall (Forall (Forall (fun q => 0 < q))) (e_ce e ++ concat (e_cf e)) /\
  source_history (eq e) (n_objects e) (e_nf e) k (e_conf e) x /\ x_source x = Some s /\
  ~ admissible (x_clusters x) (e_conf e) s.
Proof.
  exists nogroup_env, 1%nat, {| x_clusters := [[true; false]]; x_source := Some [[[true; false]]; [[true; false]]] |}, [[[true; false]]; [[true; false]]].
  split; [repeat constructor|]. split; [repeat constructor|]. split; [|split; [reflexivity|]].
  - assert (R : exists q qb, reported (initial_source nogroup_env [[true; false]] (repeat [] 2))
      {| x_clusters := [[true; false]]; x_source := Some [[[true; false]]; [[true; false]]] |} = Some (q, qb)) by (do 2 eexists; vm_compute; reflexivity).
    destruct R as (q & qb & R). eapply sh_start with (e := nogroup_env) (cl := [[true; false]]) (junk := repeat [] 2); auto.
    + repeat split.
    + split; repeat constructor.
    + intros o i j. destruct i as [|[|i]], j as [|[|j]], o; simpl; intros; try discriminate; auto.
    + exact (reported_supp _ _ _ _ R).
  - intros H. destruct (H 1%nat [[true; false]] 0%nat [true; false] 0%nat) as (gs & g & Hg & Hin & Ho); try reflexivity.
    injection Hg as <-. destruct Hin as [<-|[]]. discriminate.
Qed.
Print Assumptions C26_admissible_refuted.
