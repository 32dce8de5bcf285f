(** Lemmas for C75 and C76: transition probabilities of the sampler of clusters and sources. *)
From Coq Require Import Relations Reals Qreals Lra.
From Verif Require Import M_source S_model S_operators S_source S_mcmc S_honest S_gsource S_ergodic
  L_model L_cache L_operators L_reverse L_gibbsish L_gibbsish2 L_source L_params L_balance L_honest L_honest2 L_gsource L_gsource2
  L_progress L_doeblin L_labels L_reach1 L_reach2.
Set Implicit Arguments.
Unset Strict Implicit.
Close Scope R_scope.
Open Scope Q_scope.

(** * All proposal distributions have mass 1 *)
Definition unit A (d : M_dist.dist A) : Prop := E d (fun _ => 1) == 1.
Lemma unit_ret A (a : A) : unit (ret a).
Proof. unfold unit. rewrite E_ret. reflexivity. Qed.
Lemma unit_bind A B (d : M_dist.dist A) (f : A -> M_dist.dist B) : unit d -> (forall a, unit (f a)) -> unit (bind d f).
Proof. unfold unit. intros Hd Hf. rewrite E_bind. rewrite (E_ext (g := fun _ => 1)) by (intros; apply Hf). exact Hd. Qed.
Lemma unit_flip p : unit (flip p).
Proof. unfold unit. rewrite E_flip. ring. Qed.
Lemma unit_uniform A (l : list A) : l <> [] -> unit (uniform l).
Proof.
  intros H. unfold unit. rewrite E_uniform. assert (Hs : Qsum (map (fun _ : A => 1) l) == inject_Z (Z.of_nat (length l))).
  { clear H. induction l as [|a l IH]; [reflexivity|]. rewrite map_cons, Qsum_cons, IH. simpl length. rewrite Nat2Z.inj_succ. unfold Z.succ. rewrite inject_Z_plus. ring. }
  rewrite Hs. unfold inv_nat. field. destruct l; [congruence|]. unfold Qeq. simpl. lia.
Qed.
Lemma unit_choose l f : (forall a, unit (f a)) -> unit (choose l f).
Proof. intros H. unfold choose. destruct l; [apply unit_ret|]. apply unit_bind; auto. apply unit_uniform. discriminate. Qed.
Lemma unit_mapi A (g : nat -> A) l : Qsum l == 1 -> unit (mapi (fun c q => (g c, q)) l).
Proof.
  intros H. unfold unit, E, mapi. rewrite <- H. clear H. generalize 0%nat. induction l as [|q l IH]; intros i; [reflexivity|].
  cbn [mapi_from map]. rewrite !Qsum_cons, IH. ring.
Qed.
Lemma normalized_sum v : ~ Qsum v == 0 -> Qsum (map (fun q => q / Qsum v) v) == 1.
Proof. intros H. rewrite L_params.Qsum_div; [field|]; auto. Qed.
Lemma normalize_sum v l : normalize v = Some l -> Qsum l == 1.
Proof. intros H. apply normalize_inv in H as [-> H]. apply normalized_sum. auto. Qed.
Lemma normalize_row_sum w h l : normalize_row w h = Some l -> Qsum l == 1.
Proof.
  unfold normalize_row. cbv zeta. destruct (Qeq_bool _ 0) eqn:Eq; [discriminate|]. apply Qeq_bool_neq in Eq. intros [= <-]. apply normalized_sum. auto.
Qed.
Lemma unit_prod A (ds : list (M_dist.dist A)) : Forall (@unit A) ds -> unit (prod_dist ds).
Proof. induction 1; simpl; [apply unit_ret|]. apply unit_bind; auto. intros a. apply unit_bind; auto. intros b. apply unit_ret. Qed.
Lemma unit_obs e p : (forall l, p = Some l -> Qsum l == 1) -> unit (sample_obs e p).
Proof. intros H. destruct p as [l|]; simpl; [|apply unit_ret]. apply unit_mapi. auto. Qed.
Lemma unit_rows e cl objs : unit (prod_dist (map (fun o => prod_dist (map (sample_obs e) (source_probs e cl o))) objs)).
Proof.
  apply unit_prod. rewrite Forall_map. apply Forall_forall. intros o _. apply unit_prod. rewrite Forall_map. apply Forall_forall.
  intros p Hp. apply unit_obs. intros l ->. unfold source_probs in Hp. apply in_map_iff in Hp as (f & Hp & _).
  destruct (e_from_prior e); [eapply normalize_row_sum; eauto|]. unfold source_posterior in Hp. destruct (normalize_row _ _); [|discriminate].
  eapply normalize_sum; eauto.
Qed.
Lemma unit_finish e must x cl' objs q qb : unit (finish e must x cl' objs q qb).
Proof.
  unfold finish. destruct (e_resample e); [|apply unit_ret]. destruct (x_source x); [|apply unit_ret]. apply unit_bind; [apply unit_rows|]. intros; apply unit_ret.
Qed.
Lemma unit_choose_p p f : (forall l, p = Some l -> Qsum l == 1) -> (forall a, unit (f a)) -> unit (choose_p p f).
Proof. intros H Hf. destruct p as [l|]; simpl; [|apply unit_ret]. apply unit_bind; auto. apply (unit_mapi (fun o => o)). auto. Qed.
Theorem run_op_unit e o x : unit (run_op e o x).
Proof.
  destruct o; simpl.
  - apply unit_bind; [apply unit_flip|]. intros [|]; apply unit_choose; intros z.
    + unfold shrink_at. cbv zeta. destruct (_ <=? _)%nat; [apply unit_ret|]. apply unit_choose. intros; apply unit_finish.
    + unfold grow_at. cbv zeta. destruct (_ <=? _)%nat; [apply unit_ret|]. apply unit_bind; [apply unit_flip|]. intros c.
      destruct (negb _); [apply unit_ret|]. apply unit_choose. intros; apply unit_finish.
  - apply unit_bind; [apply unit_flip|]. intros [|]; apply unit_choose; intros z.
    + unfold gibbsish_shrink_at. cbv zeta. destruct (_ =? _)%nat; [apply unit_ret|]. destruct (posteriors _ _ _); [|apply unit_ret].
      apply unit_choose_p; [intros l0; apply normalize_sum|]. intros; apply unit_finish.
    + unfold gibbsish_grow_at. cbv zeta. destruct (negb _); [apply unit_ret|]. destruct (_ =? _)%nat; [apply unit_ret|]. destruct (posteriors _ _ _); [|apply unit_ret].
      apply unit_choose_p; [intros l0; apply normalize_sum|]. intros; apply unit_finish.
  - apply unit_choose. intros z. unfold gibbsish2_at. cbv zeta. apply unit_bind.
    + apply unit_prod. rewrite Forall_map. apply Forall_forall. intros [p|] _; simpl; [apply unit_flip|apply unit_ret].
    + intros new. destruct (negb _); [apply unit_ret|]. destruct (forallb _ _); [apply unit_ret|]. apply unit_finish.
Qed.
Theorem run_move_unit e m x : unit (run_move e m x).
Proof.
  destruct m as [o|]; simpl; [apply run_op_unit|]. unfold gibbs_source. destruct (x_source x); [|apply unit_ret]. cbv zeta.
  apply unit_bind; [apply unit_rows|]. intros; apply unit_ret.
Qed.
Lemma run_move_nonneg e m x out p : valid_env e -> In (out, p) (run_move e m x) -> 0 <= p.
Proof.
  intros V H. destruct m as [o|]; [exact (run_op_nonneg V H)|]. simpl in H. unfold gibbs_source in H. destruct (x_source x) as [s|].
  2:{ destruct H as [[= <- <-]|[]]. discriminate. }
  cbv zeta in H. revert out p H. change (dnn (bind (prod_dist (map (fun o => prod_dist (map (sample_obs e) (source_probs e (x_clusters x) o))) (seq 0 (n_objects e))))
    (fun rows => ret (Propose {| x_clusters := x_clusters x; x_source := Some (set_rows s (seq 0 (n_objects e)) rows) |} (Some 0) (Some 1))))).
  apply dnn_bind; [|intros; apply dnn_ret]. apply dnn_sources; auto.
Qed.

Open Scope R_scope.
(** * The transition matrix *)
Lemma acc_bounds t a b c d q qb : 0 <= acc_prob t a b c d q qb <= 1.
Proof.
  unfold acc_prob. destruct (is_ninf qb); [lra|]. destruct (is_ninf q); [lra|]. destruct (metropolis_hastings_ratio _ _ _ _ _ _ _) as [r| | |]; try lra.
  split; [|apply Rmin_l]. apply Rmin_glb; [lra|]. apply Rlt_le, exp_pos.
Qed.
Lemma acc_pos a b c d q qb : 0 < acc_prob 1 (Fin a) (Fin b) (Fin c) (Fin d) (Fin q) (Fin qb).
Proof. unfold acc_prob, metropolis_hastings_ratio, xsub. simpl. apply Rmin_glb_lt; [lra|apply exp_pos]. Qed.

Section Kernel.
Variables (e : env) (ll prior : cstate -> xf) (m : move).
Hypothesis V : valid_env e.
Let K := kernel cstate_eq_dec 1 ll prior (move_props e m).
Lemma move_props_nonneg x out p : In (out, p) (move_props e m x) -> 0 <= p.
Proof.
  intros H. unfold move_props in H. apply in_map_iff in H as ([out' q] & [= <- <-] & H). apply run_move_nonneg in H; auto.
  apply Qle_Rle in H. rewrite RMicromega.Q2R_0 in H. exact H.
Qed.
Lemma proposes_bounds y out (v : xf -> xf -> R) : (forall q qb, 0 <= v q qb <= 1) -> 0 <= proposes cstate_eq_dec y out v <= 1.
Proof. intros H. unfold proposes. destruct out as [[[y' q] qb]|]; [|lra]. destruct (cstate_eq_dec y' y); [auto|lra]. Qed.
Lemma kernel_nonneg x y : 0 <= K x y.
Proof.
  unfold K, kernel. apply Rsum_nonneg. intros [out p] H. apply Rmult_le_pos; [eapply move_props_nonneg; eauto|].
  apply proposes_bounds. intros. apply acc_bounds.
Qed.
Lemma kernel_pos x y q qb : supp (run_move e m x) (Propose y q qb) -> 0 < acc_prob 1 (ll y) (ll x) (prior y) (prior x) (xq q) (xq qb) -> 0 < K x y.
Proof.
  intros (p & Hin & Hp) Ha. unfold K, kernel.
  set (f := fun '(out, p) => _). assert (Hm : In (Some (y, xq q, xq qb), Q2R p) (move_props e m x)).
  { unfold move_props. apply in_map_iff. exists (Propose y q qb, p). auto. }
  apply Rlt_le_trans with (f (Some (y, xq q, xq qb), Q2R p)).
  - unfold f. cbn [proposes]. destruct (cstate_eq_dec y y); [|congruence]. apply Rmult_lt_0_compat; auto.
    pose proof (run_move_nonneg V Hin) as Hn. assert (0 < p)%Q by (apply Qle_lteq in Hn as [Hn|Hn]; auto; symmetry in Hn; contradiction).
    apply Qlt_Rlt in H. rewrite RMicromega.Q2R_0 in H. exact H.
  - apply Rsum_term; auto. intros [out p'] H. unfold f. apply Rmult_le_pos; [eapply move_props_nonneg; eauto|].
    apply proposes_bounds. intros. apply acc_bounds.
Qed.
Lemma Q2R_Rsum l : Q2R (Qsum l) = Rsum (map Q2R l).
Proof. induction l as [|q l IH]; [apply RMicromega.Q2R_0|]. simpl. unfold Qsum, Rsum in *. simpl. rewrite Q2R_plus, IH. reflexivity. Qed.
Lemma mass_one x : Rsum (map snd (move_props e m x)) = 1.
Proof.
  pose proof (run_move_unit e m x) as H. unfold unit, E in H. apply Qeq_eqR in H. rewrite RMicromega.Q2R_1, Q2R_Rsum, map_map in H.
  rewrite <- H. unfold move_props. rewrite map_map. apply Rsum_ext. intros [out p] _. simpl. rewrite Q2R_mult, RMicromega.Q2R_1. ring.
Qed.
Lemma kernel_row states x : NoDup states -> Rsum (map (K x) states) <= 1.
Proof.
  intros Hn. unfold K, kernel. rewrite Rsum_swap. apply Rle_trans with (Rsum (map snd (move_props e m x))); [|rewrite mass_one; apply Rle_refl]. apply Rsum_le. intros [out p] H. cbn [snd].
  pose proof (move_props_nonneg H) as Hp.
  rewrite Rsum_scal. assert (Rsum (map (fun z => proposes cstate_eq_dec z out (fun q qb => acc_prob 1 (ll z) (ll x) (prior z) (prior x) q qb)) states) <= 1).
  2:{ apply Rle_trans with (p * 1); [apply Rmult_le_compat_l; auto|lra]. }
  destruct out as [[[y' q] qb]|]; cbn [proposes].
  2:{ rewrite Rsum_zero by auto. lra. }
  destruct (in_dec cstate_eq_dec y' states) as [Hi|Hi].
  - rewrite (@Rsum_ext _ _ (fun z => if cstate_eq_dec z y' then acc_prob 1 (ll y') (ll x) (prior y') (prior x) q qb else 0)).
    + rewrite Rsum_single by auto. apply acc_bounds.
    + intros z _. destruct (cstate_eq_dec y' z) as [E|E], (cstate_eq_dec z y') as [E'|E']; try congruence; subst; auto.
  - rewrite Rsum_zero; [lra|]. intros z Hz. destruct (cstate_eq_dec y' z) as [->|]; auto; contradiction.
Qed.
Lemma off_diagonal states x : NoDup states -> In x states ->
  Rsum (map (fun z => if cstate_eq_dec x z then 0 else K x z) states) + K x x = Rsum (map (K x) states).
Proof.
  intros Hn Hx. rewrite (@Rsum_ext _ (K x) (fun z => (if cstate_eq_dec x z then 0 else K x z) + (if cstate_eq_dec z x then K x x else 0))).
  - rewrite Rsum_plus, Rsum_single by auto. reflexivity.
  - intros z _. destruct (cstate_eq_dec x z) as [E|E], (cstate_eq_dec z x) as [E'|E']; try congruence; try ring. subst z. ring.
Qed.
Lemma matrix_kernel states x y : NoDup states -> In x states -> K x y <= move_matrix e m ll prior states x y.
Proof.
  intros Hn Hx. unfold move_matrix, matrix. destruct (cstate_eq_dec x y) as [->|Hne]; [|apply Rle_refl].
  pose proof (off_diagonal Hn Hx) as H. pose proof (kernel_row y Hn) as H1. unfold K in *. lra.
Qed.
Lemma move_matrix_stochastic states : NoDup states -> stochastic states (move_matrix e m ll prior states).
Proof.
  intros Hn. split.
  - intros x y Hx _. eapply Rle_trans; [apply kernel_nonneg|]. apply matrix_kernel; auto.
  - intros x Hx. unfold move_matrix, matrix. fold K. set (out := Rsum (map (fun z => if cstate_eq_dec x z then 0 else K x z) states)).
    rewrite (@Rsum_ext _ _ (fun y => (if cstate_eq_dec y x then 1 - out else 0) + (if cstate_eq_dec x y then 0 else K x y))).
    + rewrite Rsum_plus, Rsum_single by auto. fold out. ring.
    + intros y _. destruct (cstate_eq_dec x y) as [E|E], (cstate_eq_dec y x) as [E'|E']; try congruence; fold K out; ring.
Qed.
End Kernel.

Section Matrix.
Variables (e : env) (moves : list (R * move)) (ll prior : cstate -> xf) (states : list cstate).
Hypothesis V : valid_env e.
Hypothesis Hn : NoDup states.
Hypothesis Hw : forall w m, In (w, m) moves -> 0 <= w.
Let M := sampler_matrix e moves ll prior states.
Lemma sampler_stochastic : Rsum (map fst moves) = 1 -> stochastic states M.
Proof.
  intros H1. split.
  - intros x y Hx Hy. unfold M, sampler_matrix. apply Rsum_nonneg. intros [w m] H. apply Rmult_le_pos; [eapply Hw; eauto|].
    apply (move_matrix_stochastic ll prior m V Hn); auto.
  - intros x Hx. unfold M, sampler_matrix. rewrite Rsum_swap. rewrite <- H1. apply Rsum_ext. intros [w m] _. cbn [fst].
    rewrite Rsum_scal. rewrite (proj2 (move_matrix_stochastic ll prior m V Hn) x Hx). ring.
Qed.
Lemma sampler_pos w m x y : In (w, m) moves -> 0 < w -> In x states -> In y states -> 0 < kernel cstate_eq_dec 1 ll prior (move_props e m) x y -> 0 < M x y.
Proof.
  intros Hm Hp Hx Hy Hk. unfold M, sampler_matrix. set (f := fun '(w, m) => _). apply Rlt_le_trans with (f (w, m)).
  - unfold f. apply Rmult_lt_0_compat; auto. eapply Rlt_le_trans; [exact Hk|]. apply matrix_kernel; auto.
  - apply Rsum_term; auto. intros [w' m'] H. unfold f. apply Rmult_le_pos; [eapply Hw; eauto|].
    apply (move_matrix_stochastic ll prior m' V Hn); auto.
Qed.
End Matrix.
