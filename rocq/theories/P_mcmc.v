(** Property theorems C15-C21: the accept/reject step and the sampler loop. *)
From Verif Require Import M_mcmc S_mcmc L_mcmc L_balance.
From Coq Require Import Lra.
Open Scope R_scope.

Lemma ln_half : ln (1/2) < 0.
Proof. rewrite <- ln_1. apply ln_increasing; lra. Qed.

(** C15. For a draw [u] the candidate is accepted iff [u < acc_prob]: acceptance has probability
    [acc_prob]. *)
Theorem C15_acceptance_probability : forall ll_new ll_prev prior_new prior_prev q qb u, 0 < u < 1 ->
  accept ll_new ll_prev prior_new prior_prev q qb u = Ok true <-> u < acc_prob 1 ll_new ll_prev prior_new prior_prev q qb.
Proof. exact acceptance_probability. Qed.
Print Assumptions C15_acceptance_probability.

(** For every state space, every likelihood and prior (also zero), every proposal distribution and
    every temperature: if the proposals between [x] and [y] report their true probabilities up to a
    common factor (or all report NaN), the posterior flow from [x] to [y] equals that from [y] to [x]. *)
Theorem C15_detailed_balance : forall T (dec : forall x y : T, {x = y} + {x <> y}) t ll prior props c x y,
  0 < t -> (forall x out p, In (out, p) (props x) -> 0 <= p) ->
  (forall x, log_density (ll x)) -> (forall x, log_density (prior x)) -> 0 < c ->
  honest dec props c x y ->
  target_density t ll prior x * kernel dec t ll prior props x y =
  target_density t ll prior y * kernel dec t ll prior props y x.
Proof. intros. eapply detailed_balance; eauto. Qed.
Print Assumptions C15_detailed_balance.

(** Hence on a finite set of states the posterior is invariant under a step. *)
Theorem C15_stationary : forall T (dec : forall x y : T, {x = y} + {x <> y}) t ll prior props c states y,
  0 < t -> (forall x out p, In (out, p) (props x) -> 0 <= p) ->
  (forall x, log_density (ll x)) -> (forall x, log_density (prior x)) -> 0 < c ->
  (forall x z, In x states -> In z states -> x <> z -> honest dec props c x z) ->
  NoDup states -> In y states ->
  Rsum (map (fun x => target_density t ll prior x * matrix dec t ll prior props states x y) states) = target_density t ll prior y.
Proof. intros. eapply stationary; eauto. Qed.
Print Assumptions C15_stationary.

(** Two states; from [true] the other one is always proposed, from [false] only half of the time. *)
Definition coin_props (x : bool) : list (option (bool * xf * xf) * R) :=
  if x then [(Some (false, Fin (ln 1), Fin (ln (1/2))), 1)]
  else [(Some (true, Fin (ln (1/2)), Fin (ln 1)), 1/2); (None, 1/2)].
Definition coin_ll (x : bool) : xf := if x then Fin 1 else Fin 3.
Lemma coin_mass x y : x <> y -> mass_r Bool.bool_dec coin_props x y = if x then 1 else 1/2.
Proof. destruct x, y; intros H; try congruence; unfold mass_r; simpl; lra. Qed.
Example C15_case :
  (forall x out p, In (out, p) (coin_props x) -> 0 <= p) /\
  (forall x z, In x [true; false] -> In z [true; false] -> x <> z -> honest Bool.bool_dec coin_props 1 x z) /\
  NoDup [true; false] /\
  kernel Bool.bool_dec 1 coin_ll (fun _ => Fin 0) coin_props false true = 1/2 * exp (-2 + ln 2).
Proof.
  repeat apply conj.
  - intros [] out p H; simpl in H; repeat (destruct H as [[= <- <-]|H]; [lra|]); contradiction.
  - intros x z _ _ Hne. left. split; intros q qb p H _; rewrite !coin_mass by congruence.
    + destruct x, z; try congruence; simpl in H; repeat (destruct H as [[= <- <- <-]|H]); try discriminate; try contradiction;
        rewrite !Rmult_1_l, !xln_pos by lra; auto.
    + destruct x, z; try congruence; simpl in H; repeat (destruct H as [[= <- <- <-]|H]); try discriminate; try contradiction;
        rewrite !Rmult_1_l, !xln_pos by lra; auto.
  - repeat constructor; simpl; intuition congruence.
  - unfold kernel, coin_props, coin_ll, acc_prob, metropolis_hastings_ratio, xsub; simpl.
    rewrite ln_1. replace (1/2) with (/2) by lra. rewrite ln_Rinv by lra.
    match goal with |- context [exp ?v] => replace v with (-2 + ln 2) by lra end.
    rewrite Rmin_right; [lra|]. rewrite <- exp_0. left. apply exp_increasing.
    assert (ln 2 < ln (exp 1)); [|rewrite ln_exp in *; lra]. apply ln_increasing; [lra|].
    pose proof (exp_ineq1 1). lra.
Qed.

(** C16. The special markers and the decision in the remaining cases.  The last part concerns
    Metropolis-Hastings proposals; a Gibbs proposal is accepted whatever its posterior. *)
Theorem C16_markers : forall ll_new ll_prev prior_new prior_prev q qb u,
  accept ll_new ll_prev prior_new prior_prev q NInf u = Ok false /\
  (qb <> NInf -> accept ll_new ll_prev prior_new prior_prev NInf qb u = Ok true) /\
  (forall a b c d r s, 0 < u -> ll_new = Fin a -> ll_prev = Fin b -> prior_new = Fin c -> prior_prev = Fin d ->
     q = Fin r -> qb = Fin s ->
     accept ll_new ll_prev prior_new prior_prev q qb u =
     Ok (if Rlt_dec (ln u) ((a - b) - (r - s) + (c - d)) then true else false)) /\
  (0 < u -> log_density ll_new -> log_density prior_new -> ll_new = NInf \/ prior_new = NInf ->
     (exists r, ll_prev = Fin r) -> (exists r, prior_prev = Fin r) -> q <> NInf -> log_density qb -> q <> PInf ->
     accept ll_new ll_prev prior_new prior_prev q qb u = Ok false).
Proof.
  intros. repeat apply conj.
  - apply accept_impossible.
  - apply accept_gibbs.
  - intros; subst. apply accept_finite; auto.
  - apply accept_zero.
Qed.
Print Assumptions C16_markers.
Example C16_case : accept (Fin 2) (Fin 1) (Fin 0) (Fin 0) (Fin 0) (Fin 0) (1/2) = Ok true /\
  accept NInf (Fin 1) (Fin 0) (Fin 0) (Fin 0) (Fin 0) (1/2) = Ok false.
Proof.
  pose proof ln_half. split.
  - rewrite accept_finite by lra. destruct (Rlt_dec _ _); [auto|lra].
  - apply accept_zero; simpl; eauto; try discriminate; lra.
Qed.

(** A demonstration: states are numbers; operator 0 resamples (Gibbs) to [i + c], operator 1 proposes
    a copy that is always rejected, operator 2 proposes the next number with equal probabilities. *)
Definition demo_ll (s : nat) : xf := Fin (INR s).
Definition demo_draws (i c : nat) : draw nat :=
  match (i mod 3)%nat with
  | 0%nat => {| d_op := 0; d_prop := fun s => RGibbs (i + c)%nat; d_u := 1/2 |}
  | 1%nat => {| d_op := 1; d_prop := fun s => RCopy 7%nat (Fin 0) NInf; d_u := 1/2 |}
  | _ => {| d_op := 2; d_prop := fun s => RCopy (Datatypes.S s) (Fin 0) (Fin 0); d_u := 1/2 |}
  end.
Lemma demo_configured : configured demo_draws.
Proof. intros i c s. unfold demo_draws. destruct (i mod 3) as [|[|n]]; simpl; auto. Qed.
Lemma demo_positive : positive_draws demo_draws.
Proof. intros i c. unfold demo_draws. destruct (i mod 3) as [|[|n]]; simpl; lra. Qed.
Lemma demo_below : ops_below 3 demo_draws.
Proof. intros i c. unfold demo_draws. destruct (i mod 3) as [|[|n]]; simpl; lia. Qed.

(** C17. After any number of steps of any configured operators, for all chains: the values used for
    the next acceptance and the values stored in the sample are those of its contents; and so are the
    values of all logged samples. *)
Theorem C17_values_of_state : forall S ll pr fp n_ops (ss : list S) draws, configured draws ->
  (forall n sm, after ll pr fp draws (init_sampler ll pr fp n_ops ss) n = Ok sm ->
     Forall (recorded ll pr fp) (chains sm)) /\
  (forall n_steps n_samples sm log last,
     generate_samples ll pr fp n_ops ss n_steps n_samples draws = Ok (sm, log, last) ->
     Forall (fun '(_, o) => last_lh o = Some (lh_of ll fp (content o)) /\ last_prior o = Some (pr (content o))) log).
Proof.
  intros S ll pr fp n_ops ss draws Hc. split.
  - intros n sm. apply after_recorded; auto.
  - intros n_steps n_samples sm log last H.
    assert (F : Forall (fun p => last_lh (snd p) = Some (lh_of ll fp (content (snd p))) /\ last_prior (snd p) = Some (pr (content (snd p)))) log).
    { eapply loop_recorded; eauto. apply init_recorded. }
    eapply Forall_impl; [|exact F]. intros [j o] H'. exact H'.
Qed.
Print Assumptions C17_values_of_state.
Example C17_case : configured demo_draws /\ exists sm,
  after demo_ll demo_ll false demo_draws (init_sampler demo_ll demo_ll false 3 [5; 6]%nat) 3 = Ok sm /\
  map (fun ch => content (c_obj ch)) (chains sm) = [1; 2]%nat /\ map (@c_ll nat) (chains sm) = [Fin (INR 1); Fin (INR 2)].
Proof.
  split; [apply demo_configured|]. pose proof ln_half as Hl.
  eexists. unfold after, step_all, init_sampler, demo_draws, demo_ll.
  simpl. unfold step. simpl. unfold lh_of.
  rewrite !accept_finite by lra. simpl.
  destruct (Rlt_dec (ln (1/2)) (1 - 0 - (0 - 0) + (1 - 0))) as [?|Hn]; [|exfalso; lra]. simpl.
  match goal with |- context [Rlt_dec ?a ?b] => destruct (Rlt_dec a b) as [?|Hn]; [|exfalso; lra] end. simpl.
  split; [reflexivity|]. split; reflexivity.
Qed.
(** An operator changing the sample in place without the Gibbs markers would break C17. *)
Example C17_in_place : exists (S : Type) ll pr (ss : list S) draws sm,
  after ll pr false draws (init_sampler ll pr false 1 ss) 1 = Ok sm /\ ~ Forall (recorded ll pr false) (chains sm).
Proof.
  exists bool, (fun b : bool => if b then Fin 0 else Fin 1), (fun _ => Fin 0), [true],
    (fun _ _ => {| d_op := 0; d_prop := fun s => RInPlace (negb s) (Fin 0) NInf; d_u := 1/2 |}).
  eexists. split; [reflexivity|]. intros H. inversion H as [|? ? H1 H2]; subst. destruct H1 as [H1 _]. simpl in H1.
  unfold lh_of in H1. simpl in H1. injection H1. lra.
Qed.

(** C18. The counters after [n] steps of all chains. *)
Theorem C18_counts : forall S ll pr fp n_ops (ss : list S) draws n sm, ops_below n_ops draws ->
  after ll pr fp draws (init_sampler ll pr fp n_ops ss) n = Ok sm ->
  let st := statistics sm in
  (sum_fst (st_ops st) + sum_snd (st_ops st) = n * length ss)%nat /\
  st_total st = sum_fst (st_ops st) /\ op_ops st = st_ops st.
Proof.
  intros S ll pr fp n_ops ss draws n sm Hb H. destruct (after_good (n_ops := n_ops) Hb H) as [_ (H1 & H2 & H3 & H4)].
  cbv zeta. repeat apply conj; auto; congruence.
Qed.
Print Assumptions C18_counts.
(** Every single counter: the number of times the operator was drawn and its candidate accepted / rejected. *)
Theorem C18_per_operator : forall S ll pr fp n_ops (ss : list S) draws n sm k, ops_below n_ops draws ->
  after ll pr fp draws (init_sampler ll pr fp n_ops ss) n = Ok sm ->
  let count := tally ll pr fp draws (init_sampler ll pr fp n_ops ss) n (length ss) k in
  nth k (st_ops (statistics sm)) (0, 0)%nat = (count true, count false) /\
  nth k (op_ops (statistics sm)) (0, 0)%nat = (count true, count false).
Proof.
  intros S ll pr fp n_ops ss draws n sm k Hb H. destruct (after_ops k Hb H) as [_ H1].
  destruct (C18_counts _ _ _ _ _ _ _ _ _ Hb H) as (_ & _ & H2). cbv zeta. rewrite H2. auto.
Qed.
Print Assumptions C18_per_operator.
Example C18_case : ops_below 3 demo_draws /\ exists sm,
  after demo_ll demo_ll false demo_draws (init_sampler demo_ll demo_ll false 3 [5; 6]%nat) 2 = Ok sm /\
  st_ops (statistics sm) = [(2, 0); (0, 2); (0, 0)]%nat.
Proof. split; [apply demo_below|]. eexists. split; reflexivity. Qed.

(** C19 is false: the number of accepted steps is divided by the number of samples. *)
Theorem C19_rate_refuted : exists (S : Type) ll pr (ss : list S) draws steps samples sm log last a b,
  configured draws /\ positive_draws draws /\ valid_spacing steps samples /\
  generate_samples ll pr false 1 ss steps samples draws = Ok (sm, log, last) /\
  acceptance_rate (statistics sm) samples = Some (a, b) /\ (b < a)%nat.
Proof.
  exists unit, (fun _ => Fin 0), (fun _ => Fin 0), [tt],
    (fun _ _ => {| d_op := 0; d_prop := fun _ => RGibbs tt; d_u := 1/2 |}), 2%nat, 1%nat.
  do 5 eexists. repeat apply conj.
  - intros i c s. simpl. exact I.
  - intros i c. simpl. lra.
  - repeat constructor.
  - repeat constructor.
  - reflexivity.
  - reflexivity.
  - reflexivity.
  - constructor.
Qed.
Print Assumptions C19_rate_refuted.

(** What holds: the rate is at most (number of steps) * (number of chains) / (number of samples). *)
Theorem C19_rate_partial : forall S ll pr fp n_ops (ss : list S) draws n samples sm a b, ops_below n_ops draws ->
  after ll pr fp draws (init_sampler ll pr fp n_ops ss) n = Ok sm ->
  acceptance_rate (statistics sm) samples = Some (a, b) -> (0 < b)%nat /\ b = samples /\ (a <= n * length ss)%nat.
Proof.
  intros S ll pr fp n_ops ss draws n samples sm a b Hb H. destruct (C18_counts _ _ _ _ _ _ _ _ _ Hb H) as (H1 & H2 & _).
  unfold acceptance_rate. destruct (Nat.eqb_spec samples 0) as [|Hn]; [discriminate|]. intros [= <- <-].
  repeat apply conj; auto; lia.
Qed.
Print Assumptions C19_rate_partial.
Example C19_case : exists sm,
  after demo_ll demo_ll false demo_draws (init_sampler demo_ll demo_ll false 3 [5; 6]%nat) 2 = Ok sm /\
  acceptance_rate (statistics sm) 2 = Some (2, 2)%nat.
Proof. eexists. split; reflexivity. Qed.

(** C20 is false for [steps = samples = 1], which passes validation: the first step divides by zero. *)
Theorem C20_samples_refuted : exists (S : Type) ll pr (ss : list S) draws steps samples,
  configured draws /\ positive_draws draws /\ valid_spacing steps samples /\ ss <> [] /\
  generate_samples ll pr false 1 ss steps samples draws = Err ZeroDivision.
Proof.
  exists unit, (fun _ => Fin 0), (fun _ => Fin 0), [tt],
    (fun _ _ => {| d_op := 0; d_prop := fun _ => RGibbs tt; d_u := 1/2 |}), 1%nat, 1%nat.
  repeat apply conj; try reflexivity; [intros i c s; exact I|intros i c; simpl; lra|auto|auto|discriminate].
Qed.
Print Assumptions C20_samples_refuted.

(** For more than one step it holds (missing: [steps = 1]; uniform draws that are exactly 0, see
    [C16_zero_draw]). Observation [j] is the state of the first chain after step number [j * spacing]
    (counting from 0). *)
Theorem C20_samples_partial : forall S ll pr fp n_ops (ss : list S) draws steps samples,
  valid_spacing steps samples -> (1 < steps)%nat -> positive_draws draws -> ss <> [] ->
  exists sm obs, generate_samples ll pr fp n_ops ss steps samples draws =
      Ok (sm, combine (seq 0 samples) obs, cold_sample ll pr fp draws (init_sampler ll pr fp n_ops ss) steps) /\
    after ll pr fp draws (init_sampler ll pr fp n_ops ss) steps = Ok sm /\
    length obs = samples /\
    forall j, (j < samples)%nat -> nth_error obs j =
      cold_sample ll pr fp draws (init_sampler ll pr fp n_ops ss) (Datatypes.S (j * (steps / samples))).
Proof. intros. eapply samples_logged; eauto. Qed.
Print Assumptions C20_samples_partial.
Example C20_case : valid_spacing 6 3 /\ positive_draws demo_draws /\
  cold_sample demo_ll demo_ll false demo_draws (init_sampler demo_ll demo_ll false 3 [5; 6]%nat) 1 <> None.
Proof. repeat apply conj; auto; try (simpl; lia); [apply demo_positive|discriminate]. Qed.

(** A uniform draw of exactly 0 ends the run with "math domain error" in every Metropolis-Hastings step. *)
Theorem C16_zero_draw : forall ll_new ll_prev prior_new prior_prev q qb, qb <> NInf -> q <> NInf ->
  accept ll_new ll_prev prior_new prior_prev q qb 0 = Err MathDomain.
Proof. exact accept_crash. Qed.
Print Assumptions C16_zero_draw.

(** C21. The warm-up returns the final sample of the first chain with maximal posterior (posteriors
    that are not NaN). *)
Theorem C21_warm_up_best : forall S ll pr fp n_ops (ss : list S) draws steps o sm,
  configured draws -> ss <> [] ->
  warm_up ll pr fp n_ops ss steps draws = Ok (o, sm) ->
  let post (ch : chain S) := xadd (lh_of ll fp (content (c_obj ch))) (pr (content (c_obj ch))) in
  Forall (fun ch => post ch <> NaN) (chains sm) ->
  after ll pr fp draws (init_sampler ll pr fp n_ops ss) steps = Ok sm /\ length (chains sm) = length ss /\
  exists i ch, nth_error (chains sm) i = Some ch /\ o = Some (c_obj ch) /\
    Forall (fun ch' => xle (post ch') (post ch)) (chains sm) /\
    forall j ch', (j < i)%nat -> nth_error (chains sm) j = Some ch' -> post ch' <> post ch.
Proof.
  intros S ll pr fp n_ops ss draws steps o sm Hc Hss H post Hnan. unfold warm_up in H.
  destruct (warm_loop ll pr fp draws steps 0 _) as [sm0|] eqn:E; simpl in H; [|discriminate]. injection H as H <-.
  destruct (@warm_after _ ll pr fp draws (init_sampler ll pr fp n_ops ss) steps 0 _ eq_refl) as [E'|[err E']]; [|congruence].
  rewrite E in E'. simpl in E'. symmetry in E'. pose proof (after_recorded Hc E') as Hr.
  assert (Hp : forall ch, In ch (chains sm0) -> posterior ch = post ch).
  { intros ch Hin. rewrite Forall_forall in Hr. destruct (Hr _ Hin) as (R1 & R2 & _). unfold posterior, post. congruence. }
  assert (Hl : length (chains sm0) = length ss).
  { rewrite (after_chains_length E'). simpl. apply map_length. }
  split; [auto|]. split; [auto|].
  destruct (@best_sample_spec S (chains sm0)) as (i & ch & H1 & H2 & H3 & H4).
  - intros H0. rewrite H0 in Hl. destruct ss; [auto|discriminate].
  - rewrite Forall_forall in *. intros ch Hin. rewrite Hp by auto. auto.
  - exists i, ch. pose proof (nth_error_In _ _ H1) as Hin. rewrite <- (Hp _ Hin).
    repeat apply conj; auto; [congruence| |].
    + rewrite Forall_forall in *. intros ch' Hin'. rewrite <- (Hp _ Hin'). auto.
    + intros j ch' Hj Hch'. rewrite <- (Hp _ (nth_error_In _ _ Hch')). eapply H4; eauto.
Qed.
Print Assumptions C21_warm_up_best.
Example C21_case : exists sm, warm_up demo_ll demo_ll false 3 [5; 6; 6]%nat 1
    (fun i c => {| d_op := 0; d_prop := fun s => RGibbs (if (c =? 0)%nat then s else 9%nat); d_u := 1/2 |}) =
  Ok (Some {| content := 9%nat; i_step := 0; last_lh := Some (demo_ll 9); last_prior := Some (demo_ll 9) |}, sm) /\
  Forall (fun ch => posterior ch <> NaN) (chains sm).
Proof.
  unfold warm_up. cbn -[best_sample demo_ll]. unfold best_sample, demo_ll, lh_of.
  assert (H1 : INR 5 + INR 5 < INR 9 + INR 9) by (simpl; lra).
  assert (H2 : ~ INR 9 + INR 9 < INR 9 + INR 9) by lra.
  assert (H3 : INR 5 + INR 5 <> INR 9 + INR 9) by lra.
  remember (INR 5) as r5. remember (INR 9) as r9. eexists. split.
  - cbn. destruct (Rlt_dec (r5 + r5) (r9 + r9)); [|contradiction]. simpl.
    destruct (Rlt_dec (r9 + r9) (r9 + r9)); [contradiction|].
    destruct (Req_EM_T (r5 + r5) (r9 + r9)); [contradiction|].
    destruct (Req_EM_T (r9 + r9) (r9 + r9)); [|congruence]. reflexivity.
  - cbn. repeat constructor; unfold posterior; simpl; discriminate.
Qed.
