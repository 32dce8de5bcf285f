(** Lemmas for C100: the probabilities of the moves on objects are those of C95. *)
From Coq Require Import Lra.
From Verif Require Import M_source M_conj M_gweights S_model S_operators S_source S_params S_mcmc S_honest S_gsource S_ergodic S_collapsed
  S_sampler S_progress P_conj P_gweights L_model L_cache L_operators L_source L_params L_balance L_honest L_honest2 L_gsource L_gsource2 L_collapsed L_sampler L_progress S_joint L_joint L_joint2
  L_tracked L_tracked2 S_program L_program P_joint.
From Verif Require Import M_dist M_operators.
Set Implicit Arguments.
Unset Strict Implicit.
Open Scope R_scope.

Lemma remembers_memory s g : remembers s g <-> geo_memory s = Some g.
Proof.
  unfold remembers, geo_memory. destruct (n_ver (k_geo (s_cache s))) as [[|z l]|]; split; try (intros [E ?]; discriminate); try discriminate.
  - intros [_ ->]. reflexivity.
  - intros [= <-]. auto.
Qed.
Lemma acc_shift ll' ll pr' pr q qb g : log_density pr' -> log_density pr ->
  acc_prob 1 ll' ll (xadd pr' (Fin g)) (xadd pr (Fin g)) q qb = acc_prob 1 ll' ll pr' pr q qb.
Proof.
  intros H1 H2. unfold acc_prob, metropolis_hastings_ratio.
  assert (E : xsub (xadd pr' (Fin g)) (xadd pr (Fin g)) = xsub pr' pr).
  { destruct pr' as [a| | |]; try contradiction; destruct pr as [b| | |]; try contradiction; cbn [xadd xsub xopp]; auto. f_equal. ring. }
  rewrite E. reflexivity.
Qed.

Section Program.
Variable su : setup.
Variables (size geo : bmat -> xf).
Variable lnB : list R -> R.
Variable dpdf : list Q -> list Q -> R.
Variable bpdf : R -> R -> R -> R.
Variable prs : nat -> nat -> effect_prior.
Variable checks : bool.
Notation r0 := (by_size size).
Hypothesis JS : joint_setting su dpdf prs r0.
Hypothesis Hsize : forall cl, log_density (size cl).
Notation M := (configured_model su size geo lnB prs).
Notation env p := (env_of su p).
Notation joint_ := (joint_density su lnB prs r0).

Notation safe := (safe geo checks).

Lemma eval_value i s g : history M s -> positive_sample su (view s) -> remembers s (Fin g) -> safe g ->
  exists s', t_eval su M checks i s = Done (s', full_ll su (fs_params (view s)) (fs_cstate (view s)),
                xadd (full_prior su lnB prs r0 (fs_params (view s)) (fs_cstate (view s))) (Fin g)) /\
    history M s' /\ view s' = view s /\ remembers s' (Fin g).
Proof.
  intros H PS R S. pose proof (configured_fits size geo lnB prs (js_setup JS)) as F.
  assert (HP : P su M s) by (split; [exact H|apply PS]).
  destruct (@eval_sim su M F checks i s HP) as [E K]. apply remembers_memory in R.
  assert (Nl : log_density (full_ll su (fs_params (view s)) (fs_cstate (view s)))) by apply full_ll_density.
  assert (Np : log_density (full_prior su lnB prs r0 (fs_params (view s)) (fs_cstate (view s)))) by apply full_prior_density.
  set (LL := full_ll su (fs_params (view s)) (fs_cstate (view s))) in *. set (PR := full_prior su lnB prs r0 (fs_params (view s)) (fs_cstate (view s))) in *.
  assert (Em : memory_eval su M checks i (mview s) = Done ((view s, Some (Fin g)), LL, xadd PR (Fin g))).
  { unfold memory_eval, mview. rewrite R. rewrite (@ll_value su size geo lnB prs (js_setup JS) _ PS). fold LL.
    assert (C : checked checks i LL = true) by (unfold checked; destruct LL; try contradiction; apply orb_true_r). rewrite C. cbn [negb].
    pose proof (@prior_value su size geo lnB prs (js_setup JS) Hsize (view s) g PS) as Pv. fold PR in Pv.
    destruct S as [S|S].
    - assert (D : due checks i = false) by (rewrite S; reflexivity). rewrite D. cbn [andb]. rewrite Pv. reflexivity.
    - cbn [configured_model geo_fn]. rewrite S. assert (E' : (if due checks i && negb (su_from_prior su) then None else Some (Fin g)) = Some (Fin g) \/ (if due checks i && negb (su_from_prior su) then None else Some (Fin g)) = None)
        by (destruct (_ && _)%bool; auto).
      assert (U : (match (if due checks i && negb (su_from_prior su) then None else Some (Fin g)) with Some g0 => g0 | None => Fin g end) = Fin g) by (destruct (_ && _)%bool; auto).
      rewrite U. rewrite Pv. destruct (due checks i); [|reflexivity]. rewrite xeqb_refl. destruct PR; try contradiction; reflexivity. }
  rewrite Em in E. destruct (t_eval su M checks i s) as [[[s' ll] p]| | |]; try discriminate. cbn [ext_map] in E.
  assert (E1 : view s = view s') by exact (f_equal (fun x : ext (memory * xf * xf) => match x with Done (m, _, _) => fst m | _ => view s end) E).
  assert (E2 : Some (Fin g) = geo_memory s') by exact (f_equal (fun x : ext (memory * xf * xf) => match x with Done (m, _, _) => snd m | _ => None end) E).
  assert (E3 : LL = ll) by exact (f_equal (fun x : ext (memory * xf * xf) => match x with Done (_, y, _) => y | _ => LL end) E).
  assert (E4 : xadd PR (Fin g) = p) by exact (f_equal (fun x : ext (memory * xf * xf) => match x with Done (_, _, y) => y | _ => LL end) E).
  exists s'. rewrite E3, E4. split; [reflexivity|]. destruct (K s' ll p eq_refl) as [K1 _]. split; [exact K1|]. split; [congruence|].
  apply remembers_memory. congruence.
Qed.

Lemma accepted_value g ch s' q qb : running su M g ch -> history M s' -> positive_sample su (view s') -> geo_memory s' = geo_memory (content (c_obj ch)) ->
  safe g -> let s := view (content (c_obj ch)) in
  accepted su M checks ch s' q qb = acc_prob 1 (full_ll su (fs_params (view s')) (fs_cstate (view s'))) (full_ll su (fs_params s) (fs_cstate s))
    (full_prior su lnB prs r0 (fs_params (view s')) (fs_cstate (view s'))) (full_prior su lnB prs r0 (fs_params s) (fs_cstate s)) q qb.
Proof.
  intros [R1 R2 R3 R4 R5] H PS Eg S s. apply remembers_memory in R3. assert (R : remembers s' (Fin g)) by (apply remembers_memory; congruence).
  destruct (eval_value (i_step (c_obj ch)) H PS R S) as (s'' & E & _). unfold accepted. rewrite E, R4, R5.
  rewrite (@ll_value su size geo lnB prs (js_setup JS) _ R2), (@prior_value su size geo lnB prs (js_setup JS) Hsize _ g R2). fold s.
  apply acc_shift; apply full_prior_density.
Qed.

(** * Cluster and source operators *)
Definition step_sim (s : tsample) (x : tsample * tout) (out : outcome) : Prop :=
  match snd x, out with
  | TReject, Reject | TFail, Fail => True
  | TPropose s' q qb, Propose y q' qb' =>
      q = q' /\ qb = qb' /\ fs_cstate (view s') = y /\ fs_params (view s') = fs_params (view s) /\ history M s' /\ geo_memory s' = geo_memory s
  | _, _ => False
  end.
Lemma dsim_weaken A B (R R' : A -> B -> Prop) d d' : (forall a b, R a b -> R' a b) -> dsim R d d' -> dsim R' d d'.
Proof. unfold dsim. intros H D. induction D as [|[a p] [b q] l l' [H1 H2] D IH]; constructor; auto. Qed.
Lemma move_sim m s : history M s -> valid_sample su (view s) ->
  dsim (step_sim s) (run_tracked su M (move_kind m) s) (run_move (env (fs_params (view s))) m (fs_cstate (view s))).
Proof.
  intros H V. pose proof (configured_fits size geo lnB prs (js_setup JS)) as F. pose proof (vs_disjoint V) as D. pose proof (vs_shape V) as Sh. cbn [view fs_clusters] in D, Sh.
  assert (W : forall x out, out_sim M s x out -> step_sim s x out).
  { intros [c o] out [_ K]. cbn [fst snd] in K. unfold step_sim. cbn [snd]. destruct o, out; auto. destruct K as (A1 & A2 & A3 & A4 & A5 & A6). conj; auto. apply geo_memory_eq; auto. }
  destruct m as [[]|]; cbn [move_kind run_tracked run_move run_op].
  - eapply dsim_weaken; [exact W|]. apply alter_sim; auto.
  - eapply dsim_weaken; [exact W|]. apply gibbsish_sim; auto.
  - eapply dsim_weaken; [exact W|]. apply gibbsish2_sim; auto.
  - eapply dsim_weaken; [|apply source_sim; auto]. intros [c o] out K. unfold src_sim in K. unfold step_sim. cbn [fst snd] in *. destruct o, out; auto.
    destruct K as (_ & A1 & A2 & A3 & A4 & _ & A5 & A6 & _). conj; auto. apply geo_memory_eq; auto.
Qed.
Lemma sum_possible A (f : A -> R) (d : dist A) : S_mcmc.Rsum (map (fun '(x, p) => Q2R p * f x) d) = S_mcmc.Rsum (map (fun '(x, p) => Q2R p * f x) (possible d)).
Proof.
  induction d as [|[x p] d IH]; [reflexivity|]. unfold possible. cbn [filter]. change (filter (fun '(_, q) => negb (Qeq_bool q 0)) d) with (possible d).
  destruct (Qeq_bool p 0) eqn:E; cbn [negb map]; unfold S_mcmc.Rsum in *; cbn [fold_right]; [|rewrite IH; reflexivity].
  apply Qeq_bool_iff, Qeq_eqR in E. rewrite E, RMicromega.Q2R_0, IH. ring.
Qed.
Lemma log_q_xq q : log_q q = xq q.
Proof. destruct q; reflexivity. Qed.
Lemma object_discrete g m y ch : running su M g ch -> safe g -> positive_sample su (target su (Discrete m y) (view (content (c_obj ch)))) ->
  object_density su M lnB dpdf bpdf prs checks (Discrete m y) ch = density su lnB dpdf bpdf prs r0 (Discrete m y) (view (content (c_obj ch))).
Proof.
  intros R S PS. set (s := content (c_obj ch)) in *. pose proof (@move_sim m s (ru_history R) (proj1 (ru_sample R))) as D.
  cbn [object_density density]. fold s. set (p := fs_params (view s)) in *.
  set (f := fun x : tsample * tout => match snd x with
      | TPropose s' q qb => if cstate_eq_dec (fs_cstate (view s')) y then accepted su M checks ch s' (log_q q) (log_q qb) else 0 | _ => 0 end).
  set (h := fun out : outcome => proposes cstate_eq_dec y (match out with Propose y q qb => Some (y, xq q, xq qb) | _ => None end)
      (fun q qb => acc_prob 1 (full_ll su p y) (full_ll su p (fs_cstate (view s))) (full_prior su lnB prs r0 p y) (full_prior su lnB prs r0 p (fs_cstate (view s))) q qb)).
  transitivity (S_mcmc.Rsum (map (fun '(x, q) => Q2R q * f x) (run_tracked su M (move_kind m) s))).
  { f_equal. apply map_ext. intros [[c o] q]. unfold f. cbn [snd]. destruct o as [|s' q1 q2|]; try ring. destruct (cstate_eq_dec _ _); ring. }
  transitivity (S_mcmc.Rsum (map (fun '(x, q) => Q2R q * h x) (run_move (env p) m (fs_cstate (view s))))).
  2:{ unfold kernel, move_props. rewrite map_map. f_equal. apply map_ext. intros [out q]. unfold h. reflexivity. }
  rewrite (sum_possible f), (sum_possible h). f_equal. unfold dsim in D.
  assert (Hd : forall x out, step_sim s x out -> f x = h out).
  { intros [c o] out K. unfold step_sim in K. unfold f, h. cbn [snd] in *. destruct o as [|s' q1 q2|], out as [|y' q1' q2'|]; try contradiction; cbn [proposes]; auto.
    destruct K as (-> & -> & Ey & Ep & Hh & Hg). rewrite Ey. destruct (cstate_eq_dec y' y) as [->|]; auto.
    assert (Ev : view s' = target su (Discrete m y) (view s)).
    { cbn [target]. subst y. destruct (view s') as [a b c']. cbn in *. subst. reflexivity. }
    rewrite (@accepted_value g ch s' _ _ R Hh) by (auto; rewrite Ev; exact PS). fold s. rewrite Ey, Ep, !log_q_xq. reflexivity. }
  induction D as [|[a q] [b q'] l l' [H1 H2] D IH]; [reflexivity|]. cbn [fst snd] in H1, H2. subst q'. cbn [map]. rewrite (Hd _ _ H1). f_equal. exact IH.
Qed.

(** * Operators on weights and effects *)
Lemma object_weights g f i j d ch : running su M g ch -> safe g ->
  let mv := Param (AlterWeights f i j d) in positive_sample su (target su mv (view (content (c_obj ch)))) ->
  object_density su M lnB dpdf bpdf prs checks mv ch = density su lnB dpdf bpdf prs r0 mv (view (content (c_obj ch))).
Proof.
  intros R S mv PS. set (s := content (c_obj ch)) in *. unfold mv in *. cbn [object_density density]. fold s.
  unfold t_alter_weights. change (p_weights (fs_params (view s))) with (tv_weights s).
  cbn [target propose_params] in *. change (p_weights (fs_params (view s))) with (tv_weights s) in *.
  pose proof (alter_pair_any (fun _ _ => tt) dpdf prec_weights (nth f (tv_weights s) []) i j d) as A.
  destruct (alter_pair (fun _ _ => tt) _ _ _ _ _) as [[[row ?] ?]|], (alter_pair dpdf _ _ _ _ _) as [[[row' q] qb]|]; try contradiction; [|reflexivity].
  subst row'. cbn [copy_density proposal_density]. f_equal.
  set (s' := edited (EdWeights (Edit (upd f (fun _ => row)))) (copied M s)).
  rewrite (@accepted_value g ch s' _ _ R).
  - reflexivity.
  - apply hi_edit; [exact I|]. apply hi_copy. apply R.
  - exact PS.
  - reflexivity.
  - exact S.
Qed.
Lemma object_effects g which gr f i j d ch : running su M g ch -> safe g ->
  let mv := Param (AlterEffect which gr f i j d) in positive_sample su (target su mv (view (content (c_obj ch)))) ->
  object_density su M lnB dpdf bpdf prs checks mv ch = density su lnB dpdf bpdf prs r0 mv (view (content (c_obj ch))).
Proof.
  intros R S mv PS. set (s := content (c_obj ch)) in *. unfold mv in *. cbn [object_density density]. fold s.
  unfold t_alter_effect. rewrite t_effect_view. cbn [target propose_params] in *.
  pose proof (alter_pair_any (fun _ _ => tt) dpdf (prec_effect which) (nth f (get_effect which gr (fs_params (view s))) []) i j d) as A.
  destruct (alter_pair (fun _ _ => tt) _ _ _ _ _) as [[[row ?] ?]|], (alter_pair dpdf _ _ _ _ _) as [[[row' q] qb]|]; try contradiction; [|reflexivity].
  subst row'. cbn [copy_density proposal_density]. f_equal.
  set (s' := edited (ed_effect which gr (upd f (fun _ => row))) (copied M s)).
  assert (Ev : view s' = with_params (view s) (edit_effect which gr (upd f (fun _ => row)) (fs_params (view s)))).
  { unfold s'. rewrite view_effect, copied_view. reflexivity. }
  rewrite (@accepted_value g ch s' _ _ R).
  - rewrite Ev. reflexivity.
  - apply effect_history, hi_copy, R.
  - rewrite Ev. exact PS.
  - destruct which; reflexivity.
  - exact S.
Qed.
Lemma object_value g mv ch : running su M g ch -> safe g -> positive_sample su (target su mv (view (content (c_obj ch)))) ->
  object_density su M lnB dpdf bpdf prs checks mv ch = density su lnB dpdf bpdf prs r0 mv (view (content (c_obj ch))).
Proof.
  intros R S PS. destruct mv as [m y|[f i j d|i j draws|which gr f i j d|which gr draws]].
  - eapply object_discrete; eauto.
  - eapply object_weights; eauto.
  - cbn [object_density density]. change (fs_source (view (content (c_obj ch)))) with (tv_source (content (c_obj ch))). destruct (tv_source (content (c_obj ch))); [|reflexivity].
    rewrite (read_has_val (configured_fits size geo lnB prs (js_setup JS)) (ru_history R)). reflexivity.
  - eapply object_effects; eauto.
  - reflexivity.
Qed.
End Program.
