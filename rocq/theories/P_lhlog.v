(** C71: the likelihood log. *)
From Coq Require Import Lia.
From Verif Require Import L_mcmc P_mcmc S_lhlog L_lhlog P_cache.
Set Implicit Arguments.
Unset Strict Implicit.
Close Scope R_scope.
Close Scope Q_scope.
Open Scope nat_scope.

(** C71. Operators that keep the shapes and one source per observation (C26): the file has one row per logged
    sample; the entry of object [o] and feature [f] in the row of a logged sample is the likelihood of that
    observation in that sample, and the logged log-likelihood is the sum of the logarithms of the row. *)
Theorem C71_rows : forall (V : Type) (M : mdl V) no nf nc pr n_ops (ss : list pars) draws steps samples,
  let obs := spec_likelihood M in
  valid_spacing steps samples -> 1 < steps -> positive_draws draws -> ss <> [] ->
  Forall (fits M no nf nc) ss -> keeps (fits M no nf nc) draws ->
  exists sm log last rows,
    generate_samples (eval_ll obs) pr false n_ops ss steps samples draws = Ok (sm, log, last) /\
    lh_run obs pr false (cells M) n_ops ss steps samples draws = Ok (LhOpen (no * nf) rows) /\
    length log = samples /\ length rows = samples /\
    forall j id s row, nth_error log j = Some (id, s) -> nth_error rows j = Some row ->
      length row = no * nf /\ (exists x, last_lh s = Some x /\ is_log_sum row x) /\
      forall o f, o < no -> f < nf -> nth_error row (o * nf + f) = Some (obs_lh M (content s) o f).
Proof.
  intros V M no nf nc pr n_ops ss draws steps samples obs Hv Hs Hp Hne Hg Hk.
  destruct (C20_samples_partial _ (eval_ll obs) pr false n_ops ss draws steps samples Hv Hs Hp Hne) as (sm & os & Hgen & _ & Hlen & _).
  exists sm. do 2 eexists.
  assert (Hfits : forall s, fits M no nf nc s -> length (obs s) = no * nf /\ cells M s = no * nf).
  { intros s Hf. split; [apply (row_entries Hf)|]. destruct Hf as (F1 & F2 & _). unfold cells. congruence. }
  unfold generate_samples in Hgen.
  edestruct (@lh_loop_rows pars obs pr (cells M) (fits M no nf nc) (no * nf) Hfits draws steps samples Hk steps 0
    (init_sampler (eval_ll obs) pr false n_ops ss) (map (obs_init obs false) ss) [] None LhClosed) as (f & rows & H1 & H2 & H3).
  - cbn [chains init_sampler]. clear -Hg. induction Hg as [|s ss Hs Hg IH]; cbn [map]; constructor; auto. split; auto.
  - apply init_recorded.
  - cbn [chains init_sampler]. destruct ss; [congruence|discriminate].
  - left. auto.
  - constructor.
  - exact Hgen.
  - assert (L : length rows = samples).
    { transitivity (length (combine (seq 0 samples) os)).
      - clear -H3. induction H3; simpl; auto.
      - rewrite combine_length, seq_length, Hlen. lia. }
    exists rows. split; [exact Hgen|]. split.
    { unfold lh_run. rewrite H1. f_equal. destruct H2 as [[-> ->]| ->]; [|reflexivity]. simpl in L. destruct Hv as (_ & Hv & _). lia. }
    split; [rewrite combine_length, seq_length, Hlen; lia|]. split; [exact L|].
    intros j id s row Hj Hr.
    assert (R : row_of obs (fits M no nf nc) s row).
    { clear -H3 Hj Hr. revert j Hj Hr. induction H3 as [|p r l rs H H3 IH]; intros [|j]; simpl; try discriminate; [|apply IH].
      intros [= ->] [= ->]. exact H. }
    destruct R as (-> & R2 & R3). destruct (row_entries R3) as [E1 E2]. split; [exact E1|]. split; [|exact E2]. eexists. split; [exact R2|apply log_sum_spec].
Qed.
Print Assumptions C71_rows.

(** The model and the parameters of C03 (three objects, two features, a missing observation); the operator
    sets the source of the first observation to the confounder; a second proposal is rejected. *)
Definition fresh A (v : list A) : pval A := {| v_value := v; v_version := 0; v_gv := repeat 0%Z (length v) |}.
Definition demo_pars (src : cube) : pars :=
  {| clusters := fresh [[true; false; false]; [false; true; false]];
     weights := fresh [[1#2; 1#2]; [1#3; 2#3]]%Q;
     cluster_effect := fresh [[[1#4; 3#4]; [1#5; 4#5]]; [[1#2; 1#2]; [1#10; 9#10]]]%Q;
     confounding_effects := [fresh [[[1#3; 2#3]; [1#2; 1#2]]; [[1#6; 5#6]; [1#7; 6#7]]]%Q];
     source := Some (fresh src) |}.
Definition src0 : cube := [[[true; false]; [false; true]]; [[true; false]; [false; true]]; [[false; true]; [false; true]]].
Definition src1 : cube := [[[false; true]; [false; true]]; [[true; false]; [false; true]]; [[false; true]; [false; true]]].
Definition src_two : cube := [[[true; true]; [false; true]]; [[true; false]; [false; true]]; [[false; true]; [false; true]]].
Definition lh_draws (i c : nat) : draw pars :=
  match i with
  | 1 => {| d_op := 0; d_prop := fun _ => RGibbs (demo_pars src1); d_u := (1/2)%R |}
  | _ => {| d_op := 1; d_prop := fun _ => RReject pars; d_u := (1/2)%R |}
  end.
Definition demo_lhs (p : pars) := map (option_map Qred) (spec_likelihood demo_model p).
Lemma demo_fits s : In s [src0; src1] -> fits demo_model 3 2 2 (demo_pars s).
Proof.
  intros H. split; [reflexivity|]. split; [reflexivity|]. cbn.
  simpl in H. destruct H as [<-|[<-|[]]]; (split; [reflexivity|]); repeat constructor;
    first [exists 0; split; [reflexivity|intros [|[|[|d]]]; cbn; intros; congruence]
          |exists 1; split; [reflexivity|intros [|[|[|d]]]; cbn; intros; congruence]].
Qed.
Example C71_case : valid_spacing 4 4 /\ positive_draws lh_draws /\
  Forall (fits demo_model 3 2 2) [demo_pars src0] /\ keeps (fits demo_model 3 2 2) lh_draws /\
  exists rows, lh_run demo_lhs (fun _ => Fin 0) false (cells demo_model) 2 [demo_pars src0] 4 4 lh_draws = Ok (LhOpen 6 rows) /\
    rows = [[Some (1#4); Some (1#2); Some (1#2); Some 1; Some (1#6); Some (1#7)];
            [Some (1#3); Some (1#2); Some (1#2); Some 1; Some (1#6); Some (1#7)];
            [Some (1#3); Some (1#2); Some (1#2); Some 1; Some (1#6); Some (1#7)];
            [Some (1#3); Some (1#2); Some (1#2); Some 1; Some (1#6); Some (1#7)]]%Q.
Proof.
  split; [repeat split; lia|]. split; [intros i c; unfold lh_draws; destruct i as [|[|i]]; simpl; Lra.lra|].
  split; [constructor; [apply demo_fits; simpl; auto|constructor]|].
  split; [intros i c s Hs; unfold lh_draws; destruct i as [|[|i]]; cbn [d_prop res_content]; auto; apply demo_fits; simpl; auto|].
  eexists. split; [vm_compute; reflexivity|reflexivity].
Qed.
(** One source per observation is needed: with two sources the row does not fit and logging fails. *)
Example C71_two_sources : ~ fits demo_model 3 2 2 (demo_pars src_two) /\
  lh_run demo_lhs (fun _ => Fin 0) false (cells demo_model) 2 [demo_pars src_two] 4 4 (fun _ _ => {| d_op := 1; d_prop := fun _ => RReject pars; d_u := (1/2)%R |}) = Ok LhError.
Proof.
  split; [|vm_compute; reflexivity]. intros (_ & _ & _ & H). cbn in H. inversion H as [|? ? [_ H1] _]; subst.
  inversion H1 as [|? ? [_ (c & _ & H2)] _]; subst. pose proof (H2 0 eq_refl). pose proof (H2 1 eq_refl). congruence.
Qed.
(** When only the prior is sampled the attribute is never set; the logger could not be used (it is not created
    in that case, mcmc_setup.py:117-118). *)
Example C71_from_prior :
  lh_run demo_lhs (fun _ => Fin 0) true (cells demo_model) 2 [demo_pars src0] 4 4 lh_draws = Ok LhError.
Proof. vm_compute. reflexivity. Qed.
