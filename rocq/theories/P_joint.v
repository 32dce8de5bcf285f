(** C95: all operators are reversible with respect to one joint posterior density. *)
From Coq Require Import Lra.
From Verif Require Import M_source M_conj M_gweights S_model S_operators S_source S_params S_mcmc S_honest S_gsource S_ergodic S_collapsed
  S_sampler S_progress P_conj P_gweights P_sampler P_progress S_joint L_joint L_joint2 L_joint3 L_joint4 L_joint5.
Open Scope R_scope.

(** C95. Take any complete setting, any prior of the clusters, Dirichlet priors of the confounding effects, sampling with
    or without sources, from the posterior or the prior.  From any sample without zero probabilities, any move of any
    operator -- a step of a cluster operator or of the source operator that ends in a sample without zero probabilities, a
    random walk on weights or effects, a Gibbs draw of weights or effects, whatever the chosen components, groups, features
    and draws in the interior -- leads to a sample without zero probabilities; the same operator with the same choices
    leads back to the first sample; and the joint density times the density of the move is the same in both directions. *)
Theorem C95_reversible : forall su lnB dpdf bpdf prs r mv s, joint_setting su dpdf prs r ->
  positive_sample su s -> admissible_move su mv s ->
  let s' := target su mv s in let back := reverse su mv s in
  positive_sample su s' /\ admissible_move su back s' /\ same_sample (target su back s') s /\
  joint_density su lnB prs r s * density su lnB dpdf bpdf prs r mv s =
  joint_density su lnB prs r s' * density su lnB dpdf bpdf prs r back s'.
Proof.
  intros su lnB dpdf bpdf prs r mv s JS PS A. destruct mv as [m y|[f i j d|i j draws|which g f i j d|which g draws]].
  - exact (reversed_discrete lnB bpdf JS PS A).
  - exact (reversed_weights lnB bpdf JS PS A).
  - exact (reversed_gibbs_weights lnB dpdf bpdf prs r PS A).
  - exact (reversed_effects lnB bpdf JS PS A).
  - exact (reversed_gibbs_effect lnB bpdf JS PS A).
Qed.
Print Assumptions C95_reversible.

(** C95, the density: it is the product of the likelihood and the prior that the sampler evaluates for acceptance, and
    does not depend on the representation of the numbers. *)
Theorem C95_target : forall su lnB dpdf prs r s, joint_setting su dpdf prs r -> positive_sample su s ->
  dens (full_ll su (fs_params s) (fs_cstate s)) * dens (full_prior su lnB prs r (fs_params s) (fs_cstate s)) = joint_density su lnB prs r s /\
  0 <= joint_density su lnB prs r s /\
  forall s', same_sample s s' -> joint_density su lnB prs r s = joint_density su lnB prs r s'.
Proof.
  intros su lnB dpdf prs r s JS PS. assert (E := sample_value' lnB JS PS). conj; auto.
  - assert (N : forall v, 0 <= dens v) by (intros v; unfold dens; destruct v; try lra; left; apply exp_pos). rewrite <- E. apply Rmult_le_pos; auto.
  - intros s' SS. apply joint_density_same; auto.
Qed.
Print Assumptions C95_target.

(** A setting with one cluster, one confounder with a Dirichlet prior, and a move of every operator. *)
Definition demo_prior : nat -> nat -> effect_prior := fun _ _ => DirichletPrior [[1; 2]].
Definition demo_dpdf (x a : list Q) : R := Q2R (Qred (Qsum (map2 (fun y b => (y * b)%Q) x a))).
Definition demo_size (cl : bmat) : R := 1 / INR (1 + length (filter (fun b => b) (concat cl))).
Definition demo_sample : fsample := demo_start demo_src1.
Lemma demo_joint : joint_setting (demo_su 1) demo_dpdf demo_prior demo_size.
Proof.
  constructor.
  - apply demo_complete. lia.
  - split; discriminate.
  - intros [|[|o]] [|f] [|[|x]] H; cbn in H; repeat match goal with H : context [match ?x with 0%nat => _ | S _ => _ end] |- _ => destruct x; cbn in H end; try discriminate;
      (split; [reflexivity|]); intros [|[|x']] H'; cbn in H'; auto; try discriminate; destruct x'; discriminate.
  - intros cl. unfold demo_size. apply Rlt_le, Rdiv_lt_0_compat; [lra|]. apply lt_0_INR. lia.
  - intros k g. split; [reflexivity|]. split; [reflexivity|]. intros f Hf. cbn in Hf. assert (f = 0)%nat by lia. subst f. reflexivity.
  - intros x x' a a' Hx Ha. unfold demo_dpdf. f_equal. apply Qred_complete. revert a a' Ha. induction Hx as [|y y' x x' Hy Hx IH]; intros a a' Ha; [reflexivity|].
    destruct Ha as [|b b' a a' Hb Ha]; [reflexivity|]. cbn [map2]. unfold Qsum in *. cbn [fold_right]. rewrite Hy, Hb, (IH _ _ Ha). reflexivity.
Qed.
Definition demo_moves : list full_move :=
  [ Discrete Source {| x_clusters := [[true; false]]; x_source := Some demo_src2 |};
    Param (AlterWeights 0 0 1 (Some [1 # 4; 3 # 4]%Q));
    Param (GibbsWeights 1 0 [(2 # 3, true)%Q]);
    Param (AlterEffect None 0 0 0 1 (Some [1 # 5; 4 # 5]%Q));
    Param (AlterEffect (Some 0%nat) 0 0 1 0 (Some [1 # 3; 2 # 3]%Q));
    Param (GibbsEffect (Some 0%nat) 0 [[1 # 3; 2 # 3]%Q]);
    Param (GibbsEffect None 0 [[1 # 7; 6 # 7]%Q]) ].
Example C95_case : joint_setting (demo_su 1) demo_dpdf demo_prior demo_size /\ positive_sample (demo_su 1) demo_sample /\
  Forall (fun mv => admissible_move (demo_su 1) mv demo_sample /\ ~ same_sample (target (demo_su 1) mv demo_sample) demo_sample) demo_moves /\
  (data_density (env_of (demo_su 1) (fs_params demo_sample)) (fs_cstate demo_sample) == 1 # 6)%Q.
Proof.
  conj; [apply demo_joint|apply demo_positive_start| |reflexivity].
  assert (P2 : positive_sample (demo_su 1) (demo_start demo_src2)).
  { destruct demo_positive_start as [[V1 V2 V3 V4 V5 V6 V7] P]. split; auto. constructor; auto. split; [reflexivity|]. 
    split; [reflexivity|]. intros [|[|o]] row H; cbn in H; try (injection H as <-); try (destruct o; discriminate);
      (split; [reflexivity|]); intros [|f] v Hv; cbn in Hv; try (injection Hv as <-); try (destruct f; discriminate);
      (split; [reflexivity|]); exists 1%nat; (split; [reflexivity|]); intros [|[|d]] Hd; cbn in Hd; auto; try discriminate; destruct d; discriminate. }
  constructor; [split; [exact P2|intros (_ & _ & E); discriminate]|].
  repeat constructor; cbn; try lia; try discriminate; try (intros ((A & B & C) & _); cbn in A, B, C; repeat match goal with H : Forall2 _ _ _ |- _ => inversion H; subst; clear H | H : vec_eq _ _ |- _ => inversion H; subst; clear H end; discriminate).
Qed.
