(** Lemmas for C78: irreducibility and convergence of the sampler of clusters without sources. *)
From Coq Require Import Relations Reals Qreals Lra.
From Verif Require Import M_source S_model S_operators S_source S_mcmc S_honest S_gsource S_ergodic S_collapsed
  L_model L_cache L_operators L_reverse L_gibbsish L_gibbsish2 L_source L_params L_balance L_honest L_honest2 L_gsource L_gsource2
  L_progress L_doeblin L_labels L_reach1 L_reach2 L_lreach L_reach3 L_reach4.
Set Implicit Arguments.
Unset Strict Implicit.
Open Scope R_scope.

Lemma good_none_finite e k : exists states, NoDup states /\ forall x, In x states <-> good_none e k x.
Proof.
  destruct (good_finite e k) as (l & _ & H). apply (@select _ (good_none e k)) with (l := l).
  - intros x. unfold good_none. apply and_dec; [apply good_dec|]. destruct (x_source x) as [s|]; [right; discriminate|left; auto].
  - exact cstate_eq_dec.
  - intros x [Hx _]. apply H. auto.
Qed.
Lemma good_none_closed e k o x y q qb : good_none e k x -> supp (run_op e o x) (Propose y q qb) -> good_none e k y.
Proof.
  intros [G N] H. assert (Hc : can_propose e o x y) by (exists q, qb; exact H). split; [eapply good_closed; eauto|].
  destruct (propose_finishes Hc (proj1 G)) as (must & cl' & objs & q0 & qb0 & q' & qb' & Hf & _). unfold finish in Hf. rewrite N in Hf.
  destruct (e_resample e); apply supp_ret in Hf; [destruct must; [discriminate|]|]; injection Hf as -> _ _; reflexivity.
Qed.
Lemma mixture_evidence e cl : mixture e cl = evidence e cl.
Proof. reflexivity. Qed.
Section Density.
Variables (e : env) (k : nat).
Hypothesis P : positive_env e.
Hypothesis Hce : length (e_ce e) = k.
Lemma mixture_positive x : good e k x -> (0 < mixture e (x_clusters x))%Q.
Proof.
  intros G. destruct (good_clusters Hce G) as [D L]. unfold mixture. destruct (e_from_prior e) eqn:Ef; [reflexivity|]. unfold state_weights. rewrite (weights_W P D L).
  destruct (@mixture_prod (component_lhs e (x_clusters x)) (W e (x_clusters x)) (n_objects e) (e_nf e) (n_comps e)) as (m & -> & Em).
  - apply W_length.
  - apply W_shape; auto.
  - rewrite Em. apply Qprod_pos. rewrite Forall_map. apply Forall_forall. intros o Ho. apply in_seq in Ho. apply Qprod_pos.
    rewrite Forall_map. apply Forall_forall. intros f Hf. apply in_seq in Hf. apply mixture_pos; auto; lia.
Qed.
End Density.

(** A direct rejection with positive probability keeps the state. *)
Lemma reject_loop e ll prior states x o : valid_env e -> NoDup states -> In x states -> supp (run_op e o x) Reject ->
  0 < move_matrix e (Cluster o) ll prior states x x.
Proof.
  intros V Hn Hx (p & Hin & Hp). set (K := kernel cstate_eq_dec 1 ll prior (move_props e (Cluster o))).
  assert (H : Rsum (map (K x) states) < 1).
  { unfold K, kernel. rewrite Rsum_swap. pose proof (mass_one e (Cluster o) x) as M1.
    set (f := fun b : option (cstate * xf * xf) * R => _).
    assert (Hb : forall b, In b (move_props e (Cluster o) x) -> f b <= snd b).
    { intros [out p'] H. unfold f. cbv beta iota. cbn [snd]. pose proof (move_props_nonneg V H) as Hp'. rewrite Rsum_scal.
      assert (Rsum (map (fun z => proposes cstate_eq_dec z out (fun q qb => acc_prob 1 (ll z) (ll x) (prior z) (prior x) q qb)) states) <= 1).
      2:{ apply Rle_trans with (p' * 1); [apply Rmult_le_compat_l; auto|lra]. }
      destruct out as [[[y' q] qb]|]; cbn [proposes].
      2:{ rewrite Rsum_zero by auto. lra. }
      destruct (in_dec cstate_eq_dec y' states) as [Hi|Hi].
      - rewrite (@Rsum_ext _ _ (fun z => if cstate_eq_dec z y' then acc_prob 1 (ll y') (ll x) (prior y') (prior x) q qb else 0)).
        + rewrite Rsum_single by auto. apply acc_bounds.
        + intros z _. destruct (cstate_eq_dec y' z) as [E|E], (cstate_eq_dec z y') as [E'|E']; try congruence; subst; auto.
      - rewrite Rsum_zero; [lra|]. intros z Hz. destruct (cstate_eq_dec y' z) as [->|]; auto; contradiction. }
    assert (Hq : 0 < Q2R p).
    { pose proof (@run_move_nonneg e (Cluster o) x Reject p V Hin) as Hnn. apply Qle_lteq in Hnn as [Hnn|Hnn]; [apply Q2R_pos; auto|symmetry in Hnn; contradiction]. }
    assert (Hm : In (None, Q2R p) (move_props e (Cluster o) x)).
    { unfold move_props. apply in_map_iff. exists (Reject, p). auto. }
    assert (Hf : f (None, Q2R p) = 0) by (unfold f; apply Rsum_zero; intros; cbn [proposes]; ring).
    rewrite <- M1. clear M1. revert Hb Hm. generalize (move_props e (Cluster o) x) as l.
    induction l as [|b l IH]; intros Hb Hl; [contradiction|]. destruct Hl as [Hl|Hl]; simpl.
    - subst b. unfold Rsum in *. simpl. rewrite Hf. cbn [snd]. pose proof (@Rsum_le _ f snd l (fun b H => Hb b (or_intror H))) as H. unfold Rsum in H. lra.
    - pose proof (Hb b (or_introl eq_refl)). specialize (IH (fun b H => Hb b (or_intror H)) Hl). unfold Rsum in *. simpl. lra. }
  pose proof (kernel_nonneg ll prior (Cluster o) V x x) as Hk. fold K in Hk.
  pose proof (@off_diagonal e ll prior (Cluster o) states x Hn Hx) as Ho. fold K in Ho.
  unfold move_matrix, matrix. fold K. destruct (cstate_eq_dec x x); [|congruence]. lra.
Qed.

(** A clustering in which the first cluster has the minimal size. *)
Lemma labels_min k mn mx n : forall m u, lab_ok k mn mx n u -> (0 < k)%nat -> (cnt (Some 0%nat) u - mn <= m)%nat ->
  exists v, lab_ok k mn mx n v /\ cnt (Some 0%nat) v = mn.
Proof.
  induction m as [|m IH]; intros u Hu Hk Hm.
  - exists u. split; auto. destruct Hu as (_ & _ & C). specialize (C 0%nat Hk). lia.
  - destruct (Nat.eq_dec (cnt (Some 0%nat) u) mn) as [E|E]; [exists u; auto|].
    pose proof Hu as (_ & _ & C). specialize (C 0%nat Hk).
    assert (Hin : In (Some 0%nat) u) by (apply (count_occ_In lab_dec); unfold cnt in *; lia).
    apply In_nth_error in Hin as (a & Ha).
    apply IH with (setl a None u); auto.
    + eapply lmove_ok; [exact Hu|]. apply lm_remove with 0%nat; auto. lia.
    + pose proof (@cnt_lose u a None (Some 0%nat) Ha ltac:(discriminate)). lia.
Qed.
Lemma reject_at e k o u : positive_env e -> length (e_ce e) = k -> capable e o -> (0 < k)%nat -> lab_ok k (e_min e) (e_max e) (n_objects e) u ->
  cnt (Some 0%nat) u = e_min e -> supp (run_op e o (alone (mat k u))) Reject.
Proof.
  intros P Hce C Hk Hu Hm. assert (Hi : In 0%nat (ids (alone (mat k u)))) by (unfold ids; simpl; rewrite mat_length; apply in_seq; lia).
  destruct o; simpl.
  - unfold alter_cluster. eapply bind_supp; [apply (@flip_supp _ true); discriminate|]. unfold shrink. apply (@choose_supp _ _ 0%nat); auto.
    unfold shrink_at. cbv zeta. cbn [alone x_clusters]. rewrite nth_mat_lt, size_lrow, Hm, Nat.leb_refl by auto. apply ret_supp.
  - unfold gibbsish. eapply bind_supp; [apply (@flip_supp _ true); discriminate|]. unfold gibbsish_shrink. apply (@choose_supp _ _ 0%nat); auto.
    unfold gibbsish_shrink_at. cbv zeta. cbn [alone x_clusters]. rewrite nth_mat_lt, size_lrow, Hm, Nat.eqb_refl by auto. apply ret_supp.
  - unfold gibbsish2. apply (@choose_supp _ _ 0%nat); auto. unfold gibbsish2_at. cbv zeta. cbn [alone x_clusters].
    set (cl := mat k u). set (old := nth 0 cl []). set (avail := available e cl 0). set (ps := gather avail _).
    assert (Lold : length old = n_objects e) by (unfold old, cl; rewrite nth_mat_lt, lrow_length by auto; apply Hu).
    assert (Lav : length avail = n_objects e).
    { unfold avail, available. rewrite map2_length, any_length. fold old. rewrite Lold. apply Nat.min_id. }
    assert (Hps : Forall (fun p => exists q, p = Some q /\ (0 < q < 1)%Q) ps).
    { apply gather_all. rewrite Forall_map. apply Forall_forall. intros a Ha. apply in_seq in Ha. apply posterior_inner; auto. lia. }
    assert (Lnew : length (gather avail old) = length ps).
    { unfold ps. rewrite !gather_length; rewrite ?map_length, ?seq_length; congruence. }
    eapply bind_supp; [apply (proj1 (@members_supp ps Hps (gather avail old) Lnew))|].
    destruct (negb _); [apply ret_supp|]. destruct (forallb _ _) eqn:Ef; [apply ret_supp|].
    exfalso. clear -Ef. induction (gather avail old) as [|b l IH]; [discriminate|]. simpl in Ef. rewrite Bool.eqb_reflx in Ef. apply IH. exact Ef.
Qed.

Section Reach.
Variables (e : env) (k : nat) (moves : list (R * move)) (ll prior : cstate -> xf) (states : list cstate).
Hypothesis P : positive_env e.
Hypothesis Hpc : (0 <= e_pconn e <= 1)%Q.
Hypothesis Hce : length (e_ce e) = k.
Hypothesis Hres : e_resample e = false.
Hypothesis Hll : forall x, good_none e k x -> exists a b, ll x = Fin a /\ prior x = Fin b.
Hypothesis Hf : cluster_schedule e moves.
Hypothesis Hn : NoDup states.
Hypothesis Hs : forall x, In x states <-> good_none e k x.
Let M := sampler_matrix e moves ll prior states.
Let V : valid_env e := positive_valid P Hpc.
Lemma none_stochastic : stochastic states M.
Proof. apply (sampler_stochastic ll prior V Hn (proj1 (proj2 Hf)) (proj1 Hf)). Qed.
Notation nstep := (nstep cstate_eq_dec M states).
Definition reaches (x y : cstate) : Prop := exists m, 0 < nstep m x y.

Lemma none_finishes x : good_none e k x -> x_source x = None -> finishes_at e k (fun y => x_source y = None) x.
Proof.
  intros [G N] _ must cl' objs a b _ _ _ _ _ Ha Hb. exists (alone cl'), a, b. conj; auto. unfold finish. rewrite Hres, N. apply ret_supp.
Qed.
Lemma none_step w o x cl' : In (w, Cluster o) moves -> 0 < w -> good_none e k x -> steps_to e (fun y => x_source y = None) o x cl' ->
  exists y, reaches x y /\ good_none e k y /\ x_source y = None /\ x_clusters y = cl'.
Proof.
  intros Hm Hp G (y & q & qb & S & Hq & Hqb & Hc & Ny).
  assert (Gy : good_none e k y) by (eapply good_none_closed; eauto).
  exists y. conj; auto. exists 1%nat. rewrite nstep_one by (auto; apply Hs; auto).
  apply (@sampler_pos e moves ll prior states V Hn (proj1 (proj2 Hf)) w (Cluster o)); auto; try (apply Hs; auto).
  apply kernel_pos with (Some q) (Some qb); auto.
  destruct (Hll G) as (a & b & -> & ->). destruct (Hll Gy) as (a' & b' & -> & ->). cbn [xq]. rewrite !xln_pos by (apply Q2R_pos; auto). apply acc_pos.
Qed.
Theorem none_irreducible x y : (k * e_min e < n_objects e)%nat -> good_none e k x -> good_none e k y -> reaches x y.
Proof.
  intros Hk Gx Gy. pose proof none_stochastic as Hst.
  pose proof Gx as [(S1 & D1 & Z1 & _) N1]. destruct (clusters_labels S1 D1 Z1) as (u & Lu & Eu).
  pose proof Gy as [(S2 & D2 & Z2 & _) N2]. destruct (clusters_labels S2 D2 Z2) as (v & Lv & Ev).
  pose proof Hf as (_ & _ & _ & w & o & Ho & Hp & C).
  destruct (@label_reach e k o P Hpc Hce C (good_none e k) (fun y => x_source y = None) reaches) with (u := u) (v := v) (x := x) as (z & R & Gz & Nz & _ & Ez).
  - intros z Gz Nz. apply none_finishes; auto.
  - intros z. exists 0%nat. simpl. destruct (cstate_eq_dec z z); [lra|congruence].
  - intros a b c Ga Gb Gc (m & H1) (m' & H2). exists (m + m')%nat. apply nstep_pos_trans with b; auto; apply Hs; auto.
  - intros z cl' Gz Nz. apply (@none_step w o z cl' Ho Hp Gz).
  - apply (labels_connected Hk Lu Lv).
  - unfold at_labels. auto.
  - replace y with z; auto. destruct y, z. simpl in *. congruence.
Qed.
Lemma none_loop x0 : (0 < k)%nat -> good_none e k x0 -> exists y, good_none e k y /\ 0 < M y y.
Proof.
  intros Hk [(S1 & D1 & Z1 & _) N1]. destruct (clusters_labels S1 D1 Z1) as (u0 & Lu0 & _).
  destruct (@labels_min k (e_min e) (e_max e) (n_objects e) _ u0 Lu0 Hk (le_n _)) as (u & Lu & Em).
  pose proof Hf as (_ & _ & _ & w & o & Ho & Hp & C).
  assert (G : good_none e k (alone (mat k u))).
  { split; auto. unfold good. conj.
    - destruct Lu as (L & _). simpl. rewrite <- L. apply mat_shape.
    - simpl. apply mat_disjoint.
    - simpl. eapply mat_sizes; eauto.
    - exact I. }
  exists (alone (mat k u)). split; auto.
  unfold M, sampler_matrix. set (f := fun '(w, m) => _). apply Rlt_le_trans with (f (w, Cluster o)).
  - unfold f. apply Rmult_lt_0_compat; auto. apply reject_loop; auto; [apply Hs; auto|]. apply reject_at; auto.
  - apply Rsum_term; auto. intros [w' m'] H. unfold f. apply Rmult_le_pos; [eapply (proj1 (proj2 Hf)); eauto|].
    apply (move_matrix_stochastic ll prior m' V Hn); apply Hs; auto.
Qed.
End Reach.

(** * The posterior *)
Lemma Rsum_perm A (f : A -> R) l l' : Permutation.Permutation l l' -> Rsum (map f l) = Rsum (map f l').
Proof. induction 1; unfold Rsum in *; simpl; try congruence; ring. Qed.
Lemma Rsum_filter A (b : A -> bool) (f : A -> R) l : Rsum (map (fun a => if b a then f a else 0) l) = Rsum (map f (filter b l)).
Proof. induction l as [|a l IH]; simpl; auto. destruct (b a); unfold Rsum in *; simpl; rewrite IH; ring. Qed.
Section Posterior.
Variables (e : env) (k : nat) (r : bmat -> R).
Hypothesis P : positive_env e.
Hypothesis Hpc : (0 <= e_pconn e <= 1)%Q.
Hypothesis Hce : length (e_ce e) = k.
Hypothesis Hr : forall cl, 0 < r cl.
Lemma collapsed_positive x : good e k x -> 0 < collapsed e r (x_clusters x).
Proof. intros G. unfold collapsed. apply Rmult_lt_0_compat; auto. apply Q2R_pos. eapply mixture_positive; eauto. Qed.
Lemma log_mix_finite x : good e k x -> log_mix e x = Fin (ln (Q2R (mixture e (x_clusters x)))).
Proof.
  intros G. pose proof (mixture_positive P Hce G) as H. apply Q2R_pos in H. unfold log_mix, mixture in *. destruct (e_from_prior e).
  - f_equal. rewrite RMicromega.Q2R_1, ln_1. reflexivity.
  - destruct (oprod _); [apply xln_pos; auto|]. rewrite RMicromega.Q2R_0 in H. lra.
Qed.
Lemma target_collapsed x : good e k x -> target_density 1 (log_mix e) (log_cluster_prior r) x = collapsed e r (x_clusters x).
Proof.
  intros G. unfold target_density. rewrite xscale_one, (log_mix_finite G). unfold log_cluster_prior. rewrite xln_pos by auto. unfold collapsed. simpl.
  rewrite !exp_ln; auto. apply Q2R_pos. eapply mixture_positive; eauto.
Qed.
Lemma log_mix_density x : log_density (log_mix e x).
Proof.
  unfold log_mix. destruct (e_from_prior e); [exact I|]. destruct (oprod _); [|exact I]. unfold xln. destruct (Rlt_dec _ _); exact I.
Qed.
Lemma log_cluster_prior_density x : log_density (log_cluster_prior r x).
Proof. unfold log_cluster_prior, xln. destruct (Rlt_dec _ _); exact I. Qed.
Lemma none_stationary moves states y : cluster_schedule e moves -> NoDup states -> (forall x, In x states <-> good_none e k x) -> good_none e k y ->
  Rsum (map (fun x => collapsed e r (x_clusters x) * sampler_matrix e moves (log_mix e) (log_cluster_prior r) states x y) states) = collapsed e r (x_clusters y).
Proof.
  intros (Hw & _ & Hc & _) Hn Hs Gy. set (ll := log_mix e). set (prior := log_cluster_prior r).
  rewrite <- (target_collapsed (proj1 Gy)). fold ll prior.
  rewrite (@Rsum_ext _ _ (fun x => target_density 1 ll prior x * sampler_matrix e moves ll prior states x y)).
  2:{ intros x Hx. apply Hs in Hx. unfold ll, prior. rewrite (target_collapsed (proj1 Hx)). reflexivity. }
  unfold sampler_matrix.
  transitivity (Rsum (map (fun '(w, m) => w * Rsum (map (fun x => target_density 1 ll prior x * move_matrix e m ll prior states x y) states)) moves)).
  - clear. induction moves as [|[w m] moves IH]; simpl.
    + apply Rsum_zero. intros; ring.
    + unfold Rsum at 2; simpl. fold (Rsum (map (fun '(w, m) => w * Rsum (map (fun x => target_density 1 ll prior x * move_matrix e m ll prior states x y) states)) moves)).
      rewrite <- IH, <- Rsum_scal, <- Rsum_plus. apply Rsum_ext. intros x _. unfold Rsum; simpl. ring.
  - rewrite (@Rsum_ext _ _ (fun wm => target_density 1 ll prior y * fst wm)).
    + rewrite Rsum_scal, Hw. ring.
    + intros [w m] Hm. simpl. rewrite Rmult_comm. f_equal. destruct m as [o|]; [|elim (Hc w Source Hm); auto].
      unfold move_matrix. change (move_props e (Cluster o)) with (op_props e o).
      eapply stationary with (c := factor' k o); auto.
      * lra.
      * intros z out p. apply props_nonneg. apply (positive_valid P Hpc).
      * apply log_mix_density.
      * apply log_cluster_prior_density.
      * apply factor'_pos.
      * intros x z Hx Hz _. apply op_honest'; auto; [apply (positive_valid P Hpc)|apply Hs in Hx; apply Hx|apply Hs in Hz; apply Hz].
      * apply Hs. auto.
Qed.

(** Summing the posterior of clusters and sources over the sources. *)
Lemma good_src_at cl s : good e k (alone cl) -> valid_source (n_objects e) (e_nf e) (n_comps e) s -> good_src e k {| x_clusters := cl; x_source := Some s |}.
Proof.
  intros (G1 & G2 & G3 & _) [V1 V2]. split; [|simpl; eauto]. unfold good. simpl in *. conj; auto. split; auto.
  eapply Forall_impl; [|exact V2]. intros row [R1 R2]. split; auto. eapply Forall_impl; [|exact R2]. intros v [Hv He].
  assert (H : In v (one_hots (n_comps e))) by (apply exactly_one_one_hot; auto). unfold one_hots in H. apply in_map_iff in H as (c & <- & Hc).
  apply in_seq in Hc. exists c. split; auto. lia.
Qed.
Lemma marginal_sum states cl : NoDup states -> (forall x, In x states <-> good_src e k x) -> good e k (alone cl) ->
  Rsum (map (fun y => if bmat_dec (x_clusters y) cl then posterior e r y else 0) states) = collapsed e r cl.
Proof.
  intros Hn Hs G. destruct (good_clusters Hce G) as [D L]. simpl in D, L.
  set (b := fun y => if bmat_dec (x_clusters y) cl then true else false).
  rewrite (@Rsum_ext _ _ (fun y => if b y then posterior e r y else 0)) by (intros y _; unfold b; destruct (bmat_dec _ _); auto).
  rewrite Rsum_filter. set (at_ := fun s => {| x_clusters := cl; x_source := Some s |}).
  rewrite (@Rsum_perm _ _ (filter b states) (map at_ (all_sources (n_objects e) (e_nf e) (n_comps e)))).
  - unfold collapsed. rewrite mixture_evidence. pose proof (evidence_sum P D L) as E. apply Qeq_eqR in E. rewrite E. rewrite Q2R_Rsum, !map_map.
    rewrite Rmult_comm, <- Rsum_scal. apply Rsum_ext. intros s _. unfold posterior. unfold at_. cbn [x_clusters]. ring.
  - apply Permutation.NoDup_Permutation.
    + apply NoDup_filter. auto.
    + apply FinFun.Injective_map_NoDup; [intros s s' [= H]; auto|apply all_sources_nodup].
    + intros y. rewrite filter_In, in_map_iff, Hs. unfold b. split.
      * intros [[Gy (s & Hy)] Hb]. destruct (bmat_dec (x_clusters y) cl) as [Ey|]; [|discriminate]. exists s. split.
        -- unfold at_. destruct y; simpl in *; congruence.
        -- apply all_sources_complete. exact (good_valid Hce Gy Hy).
      * intros (s & <- & Hin). apply all_sources_complete in Hin. split; [apply good_src_at; auto|]. simpl. destruct (bmat_dec cl cl); auto.
Qed.
Lemma marginal_total states states' : NoDup states -> (forall x, In x states <-> good_src e k x) -> NoDup states' -> (forall x, In x states' <-> good_none e k x) ->
  Rsum (map (posterior e r) states) = Rsum (map (fun y => collapsed e r (x_clusters y)) states').
Proof.
  intros Hn Hs Hn' Hs'.
  rewrite (@Rsum_ext _ (fun y => collapsed e r (x_clusters y)) (fun y' => Rsum (map (fun y => if bmat_dec (x_clusters y) (x_clusters y') then posterior e r y else 0) states))).
  - rewrite Rsum_swap. apply Rsum_ext. intros y Hy. apply Hs in Hy.
    rewrite (@Rsum_ext _ _ (fun y' => if cstate_eq_dec y' (alone (x_clusters y)) then posterior e r y else 0)).
    + symmetry. apply Rsum_single; auto. apply Hs'. destruct Hy as [(H1 & H2 & H3 & _) _]. split; auto. unfold good. simpl. conj; auto. exact I.
    + intros y' Hy'. apply Hs' in Hy' as [_ N]. destruct (bmat_dec _ _) as [E1|E1], (cstate_eq_dec _ _) as [E2|E2]; auto; exfalso.
      * apply E2. destruct y'; simpl in *. unfold alone. congruence.
      * apply E1. rewrite E2. reflexivity.
  - intros y' Hy'. symmetry. apply marginal_sum; auto. apply Hs' in Hy' as [(H1 & H2 & H3 & _) _]. unfold good. simpl. conj; auto. exact I.
Qed.
End Posterior.
Lemma Un_cv_sum A (f : nat -> A -> R) (g : A -> R) l : (forall a, In a l -> Un_cv (fun n => f n a) (g a)) -> Un_cv (fun n => Rsum (map (f n) l)) (Rsum (map g l)).
Proof.
  induction l as [|a l IH]; intros H.
  - intros eps He. exists 0%nat. intros n _. unfold R_dist, Rsum. simpl. rewrite Rminus_0_r, Rabs_R0. auto.
  - apply (CV_plus (fun n => f n a) (fun n => Rsum (map (f n) l))); [apply H; left; auto|]. apply IH. intros b Hb. apply H. right. auto.
Qed.
