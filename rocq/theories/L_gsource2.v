(** Lemmas for C64: the sampler of clusters and sources leaves the posterior invariant. *)
From Coq Require Import Reals Qreals Lra.
From Verif Require Import M_source S_model S_operators S_source S_mcmc S_honest S_gsource
  L_model L_operators L_reverse L_source L_balance L_honest L_honest2 L_gsource.
Set Implicit Arguments.
Unset Strict Implicit.
Open Scope R_scope.

(** Invariance from detailed balance, for any kernel. *)
Lemma balance_stationary T (dec : forall x y : T, {x = y} + {x <> y}) (pi : T -> R) (K : T -> T -> R) states y :
  (forall x z, In x states -> In z states -> x <> z -> pi x * K x z = pi z * K z x) -> NoDup states -> In y states ->
  Rsum (map (fun x => pi x * (if dec x y then 1 - Rsum (map (fun z => if dec x z then 0 else K x z) states) else K x y)) states) = pi y.
Proof.
  intros Hb Hn Hy. set (out := Rsum (map (fun z => if dec y z then 0 else K y z) states)).
  rewrite (@Rsum_ext _ _ (fun x => (if dec x y then pi y * (1 - out) else 0) + (if dec y x then 0 else pi y * K y x))).
  - rewrite Rsum_plus, (Rsum_single dec (pi y * (1 - out)) (a := y)) by auto.
    rewrite (@Rsum_ext _ _ (fun x => pi y * (if dec y x then 0 else K y x))).
    + rewrite Rsum_scal. fold out. ring.
    + intros x _. destruct (dec y x); ring.
  - intros x Hx. destruct (dec x y) as [->|Hne].
    + destruct (dec y y); [|congruence]. fold out. ring.
    + destruct (dec y x) as [->|_]; [congruence|]. rewrite (Hb x y Hx Hy Hne). ring.
Qed.

Section S.
Variables (e : env) (k : nat).
Hypothesis P : positive_env e.
Hypothesis Hpc : (0 <= e_pconn e <= 1)%Q.
Hypothesis Hk : length (e_ce e) = k.
Hypothesis Hres : e_resample e = true.

Lemma positive_valid : valid_env e.
Proof.
  constructor; auto.
  - intros w q Hw Hq. pose proof (pe_weights_c P) as H. rewrite Forall_forall in H. destruct (H w Hw) as [_ H2].
    rewrite Forall_forall in H2. apply Qlt_le_weak. auto.
  - intros p r q Hp Hr Hq. destruct (pe_effects P Hp) as (_ & H & _). apply In_nth_error in Hr as (f & Hr). apply In_nth_error in Hq as (s & Hq).
    specialize (H f s). rewrite (nth_error_nth _ _ [] Hr), (nth_error_nth _ _ 0%Q Hq) in H. exact H.
Qed.
Lemma good_valid x s : good e k x -> x_source x = Some s -> valid_source (n_objects e) (e_nf e) (n_comps e) s.
Proof.
  intros (_ & _ & _ & H) Hs. unfold source_ok in H. rewrite Hs in H. destruct H as [H1 H2]. split; auto.
  eapply Forall_impl; [|exact H2]. intros r [Hr Hv]. split; auto. eapply Forall_impl; [|exact Hv]. intros v (c & Hc & ->).
  apply exactly_one_one_hot. unfold one_hots. apply in_map_iff. exists c. split; auto. apply in_seq. lia.
Qed.
Lemma good_clusters x : good e k x -> disjoint_groups (x_clusters x) /\ length (e_ce e) = length (x_clusters x).
Proof. intros ([H1 _] & H2 & _). split; auto. congruence. Qed.

(** A constant of the clusters: the probability of the data summed over all sources. *)
Definition evidence (cl : bmat) : Q :=
  if e_from_prior e then 1%Q else
  match oprod (mixture_lhs (component_lhs e cl) (state_weights e cl)) with Some m => m | None => 0%Q end.
Lemma evidence_sum cl : disjoint_groups cl -> length (e_ce e) = length cl ->
  (evidence cl == Qsum (map (fun s => source_density e {| x_clusters := cl; x_source := Some s |}) (all_sources (n_objects e) (e_nf e) (n_comps e))))%Q.
Proof.
  intros Hd Hl. unfold evidence, source_density, state_weights. simpl. destruct (e_from_prior e) eqn:Ef; rewrite (weights_W P Hd Hl).
  - symmetry. apply prior_total; auto.
  - destruct (@marginal_mixture (component_lhs e cl) (W e cl) (n_objects e) (e_nf e) (n_comps e)) as (l & m & Hl' & -> & <-).
    + apply W_length.
    + apply W_shape; auto.
    + revert l Hl'. set (js := joint _ _). generalize (all_sources (n_objects e) (e_nf e) (n_comps e)) as ss.
      induction ss as [|s ss IH]; intros l H; simpl in H; [injection H as <-; reflexivity|].
      destruct (js s) eqn:Es; [|discriminate]. destruct (all_some _) as [l'|] eqn:E; [|discriminate]. injection H as <-.
      rewrite map_cons, !Qsum_cons, Es, (IH l' eq_refl). reflexivity.
Qed.
Lemma source_mass x y : good_src e k x -> good_src e k y ->
  (mass (gibbs_source e x) y == if list_eq_dec (list_eq_dec Bool.bool_dec) (x_clusters x) (x_clusters y) then source_density e y / evidence (x_clusters x) else 0)%Q.
Proof.
  intros [Gx (s & Hs)] [Gy (s' & Hs')]. destruct (list_eq_dec _ (x_clusters x) (x_clusters y)) as [E|E].
  - destruct y as [cl' src']. simpl in *. subst cl' src'. unfold source_density, evidence, state_weights. simpl.
    destruct (good_clusters Gx) as [Hd Hl]. pose proof (good_valid Gx Hs) as Vs. pose proof (good_valid Gy eq_refl) as Vs'.
    rewrite (weights_W P Hd Hl). destruct (e_from_prior e) eqn:Ef.
    + destruct (@from_prior e _ P Hd Hl x s s' Ef eq_refl Hs (proj1 Vs) Vs') as (a & -> & ->). field.
    + destruct (@full_conditional e _ P Hd Hl x s s' Ef eq_refl Hs (proj1 Vs) Vs') as (a & m & -> & -> & Hm & ->). reflexivity.
  - apply mass_zero. intros q qb H. unfold gibbs_source in H. rewrite Hs in H. cbv zeta in H.
    apply supp_bind in H as (rows & _ & H). apply supp_ret in H. injection H as -> _ _. apply E. reflexivity.
Qed.
Lemma source_kernel ll prior x y : kernel cstate_eq_dec 1 ll prior (move_props e Source) x y = Q2R (mass (gibbs_source e x) y).
Proof.
  unfold kernel, move_props. simpl run_move. rewrite mass_E. unfold E. 
  assert (Hq : forall out p, In (out, p) (gibbs_source e x) -> out = Fail \/ exists y', out = Propose y' (Some 0%Q) (Some 1%Q)).
  { intros out p H. unfold gibbs_source in H. destruct (x_source x); [|destruct H as [[= <- <-]|[]]; auto]. cbv zeta in H.
    unfold bind at 1 in H. apply in_concat in H as (l & Hl & H). apply in_map_iff in Hl as ([rows q] & <- & _).
    simpl in H. destruct H as [[= <- <-]|[]]. right. eauto. }
  induction (gibbs_source e x) as [|[out p] d IH]; simpl.
  - symmetry. apply Q2R_0.
  - unfold Rsum, Qsum in *; simpl. rewrite Q2R_plus, Q2R_mult, IH by (intros; eapply Hq; right; eauto). f_equal. f_equal. unfold ind.
    destruct (Hq out p (or_introl eq_refl)) as [->|(y' & ->)]; simpl; [symmetry; apply Q2R_0|].
    destruct (cstate_eq_dec y' y); [|symmetry; apply Q2R_0]. rewrite Q2R_1, Q2R_0, xln_zero, xln_pos by lra. reflexivity.
Qed.
Variables (ll prior : cstate -> xf) (r : bmat -> R).
Hypothesis Hll : forall x, log_density (ll x).
Hypothesis Hpr : forall x, log_density (prior x).
Hypothesis Htarget : forall x, good_src e k x -> target_density 1 ll prior x = Q2R (source_density e x) * r (x_clusters x).

Lemma move_balance m x y : good_src e k x -> good_src e k y ->
  target_density 1 ll prior x * kernel cstate_eq_dec 1 ll prior (move_props e m) x y =
  target_density 1 ll prior y * kernel cstate_eq_dec 1 ll prior (move_props e m) y x.
Proof.
  intros Gx Gy. destruct m as [o|].
  - change (move_props e (Cluster o)) with (op_props e o). eapply detailed_balance with (c := factor' k o); auto.
    + lra.
    + intros z out p. apply props_nonneg. apply positive_valid.
    + apply factor'_pos.
    + apply op_honest'; [apply positive_valid|apply Gx|apply Gy].
  - rewrite !source_kernel. rewrite !Htarget by auto.
    pose proof (source_mass Gx Gy) as M1. pose proof (source_mass Gy Gx) as M2. apply Qeq_eqR in M1, M2. rewrite M1, M2.
    destruct (list_eq_dec _ (x_clusters x) (x_clusters y)) as [E|E], (list_eq_dec _ (x_clusters y) (x_clusters x)) as [E'|E']; try congruence.
    + rewrite <- E. unfold Qdiv. rewrite !Q2R_mult. ring.
    + rewrite Q2R_0. ring.
Qed.
Theorem sampler_stationary moves states y : Rsum (map fst moves) = 1 -> NoDup states -> (forall x, In x states <-> good_src e k x) ->
  good_src e k y ->
  Rsum (map (fun x => target_density 1 ll prior x * sampler_matrix e moves ll prior states x y) states) = target_density 1 ll prior y.
Proof.
  intros Hw Hn Hs Hy. unfold sampler_matrix.
  transitivity (Rsum (map (fun '(w, m) => w * Rsum (map (fun x => target_density 1 ll prior x * move_matrix e m ll prior states x y) states)) moves)).
  - clear. induction moves as [|[w m] moves IH]; simpl.
    + apply Rsum_zero. intros; ring.
    + unfold Rsum at 2; simpl. fold (Rsum (map (fun '(w, m) => w * Rsum (map (fun x => target_density 1 ll prior x * move_matrix e m ll prior states x y) states)) moves)).
      rewrite <- IH, <- Rsum_scal, <- Rsum_plus. apply Rsum_ext. intros x _. unfold Rsum; simpl. ring.
  - rewrite (@Rsum_ext _ _ (fun wm => target_density 1 ll prior y * fst wm)).
    + rewrite Rsum_scal, Hw. ring.
    + intros [w m] _. simpl. rewrite Rmult_comm. f_equal. unfold move_matrix, matrix. apply balance_stationary; auto.
      * intros x z Hx Hz _. apply move_balance; apply Hs; auto.
      * apply Hs. auto.
Qed.
End S.

(** The states with sources are finitely many and proposals do not leave them. *)
Lemma good_src_finite e k : exists states, NoDup states /\ forall x, In x states <-> good_src e k x.
Proof.
  destruct (good_finite e k) as (l & _ & H).
  apply (@select _ (good_src e k)) with (l := l).
  - intros x. unfold good_src. apply and_dec; [apply good_dec|]. destruct (x_source x) as [s|]; [left; eauto|right; intros (s & [=])].
  - exact cstate_eq_dec.
  - intros x [Hx _]. apply H. auto.
Qed.
Lemma good_src_closed e k m x y q qb : e_resample e = true -> good_src e k x -> supp (run_move e m x) (Propose y q qb) -> good_src e k y.
Proof.
  intros Hr [Gx (s & Hs)] H. destruct m as [o|]; simpl in H.
  - split; [eapply good_closed; eauto; exists q, qb; exact H|].
    pose proof Gx as (H1 & _). assert (Hc : can_propose e o x y) by (exists q, qb; exact H).
    destruct (propose_finishes Hc H1) as (must & cl' & objs & q0 & qb0 & q' & qb' & Hf & _). unfold finish in Hf. rewrite Hr, Hs in Hf.
    apply supp_bind in Hf as (rows & _ & Hf). apply supp_ret in Hf. injection Hf as -> _ _. simpl. eauto.
  - pose proof Gx as (H1 & H2 & H3 & H4). unfold gibbs_source in H. rewrite Hs in H. cbv zeta in H.
    apply supp_bind in H as (rows & Hrows & H). apply supp_ret in H. injection H as -> _ _. split; [|simpl; eauto].
    unfold good. simpl. conj; auto. unfold source_ok in *. rewrite Hs in H4. destruct H4 as [Hl Hok]. simpl.
    rewrite set_rows_length. split; auto.
    fold (rows_dist e (x_clusters x) (seq 0 (n_objects e))) in Hrows. pose proof (supp_rows_ok Hrows) as Hro. pose proof (supp_rows_length Hrows) as Hlen.
    assert (Hin : map (fun o => nth o (set_rows s (seq 0 (n_objects e)) rows) []) (seq 0 (n_objects e)) = rows).
    { apply set_rows_in; auto; [apply seq_NoDup|]. apply Forall_forall. intros o Ho. apply in_seq in Ho. lia. }
    assert (Hsl : length (set_rows s (seq 0 (n_objects e)) rows) = n_objects e) by (rewrite set_rows_length; auto).
    assert (Hall : set_rows s (seq 0 (n_objects e)) rows = rows).
    { rewrite <- Hin at 2. rewrite <- Hsl at 2. apply list_as_map_seq. }
    cbv beta. fold (n_comps e). rewrite Hall. exact Hro.
Qed.

(** The log-densities of the sampler give the posterior. *)
Lemma dens_xln a : 0 <= a -> dens (xln a) = a.
Proof.
  intros [H|<-].
  - rewrite xln_pos by auto. simpl. apply exp_ln. auto.
  - rewrite xln_zero. reflexivity.
Qed.
Lemma xscale_one a : xscale 1 a = a.
Proof. destruct a; simpl; auto; try (destruct (Rlt_dec 0 1); [reflexivity|lra]). f_equal. ring. Qed.
Lemma xln_density a : log_density (xln a).
Proof. unfold xln. destruct (Rlt_dec 0 a); simpl; auto. Qed.
Lemma oprod_nonneg l q : oprod l = Some q -> (forall v, In (Some v) l -> (0 <= v)%Q) -> (0 <= q)%Q.
Proof.
  unfold oprod. revert q. induction l as [|[v|] l IH]; simpl; intros q H Hl.
  - injection H as <-. discriminate.
  - destruct (all_some l) as [l'|]; [|discriminate]. simpl in *. injection H as <-. change (Qprod (v :: l')) with (v * Qprod l')%Q.
    apply Qmult_le_0_compat; auto.
  - discriminate.
Qed.
Lemma in_positions no nf nc s o f c : valid_source no nf nc s -> In (o, f, c) (source_positions s) -> (o < no)%nat /\ (f < nf)%nat.
Proof.
  intros [Hl Hs] Hin. unfold source_positions in Hin. apply in_concat in Hin as (l1 & H1 & Hin).
  apply In_nth_error in H1 as (i & H1). rewrite nth_error_mapi in H1. destruct (nth_error s i) as [row|] eqn:Er; [|discriminate]. injection H1 as <-.
  apply in_concat in Hin as (l2 & H2 & Hin). apply In_nth_error in H2 as (j & H2). rewrite nth_error_mapi in H2.
  destruct (nth_error row j) as [v|] eqn:Ev; [|discriminate]. injection H2 as <-.
  apply in_concat in Hin as (l3 & H3 & Hin). apply In_nth_error in H3 as (d & H3). rewrite nth_error_mapi in H3.
  destruct (nth_error v d) as [[|]|]; try discriminate; injection H3 as <-; [|contradiction]. destruct Hin as [[= <- <- <-]|[]].
  split.
  - rewrite <- Hl. apply nth_error_Some. congruence.
  - rewrite Forall_forall in Hs. destruct (Hs row (nth_error_In _ _ Er)) as [<- _]. apply nth_error_Some. congruence.
Qed.
Lemma log_lh_density e x : log_density (log_lh e x).
Proof. unfold log_lh. destruct (e_from_prior e); simpl; auto. destruct (x_source x); simpl; auto. destruct (oprod _); simpl; auto. apply xln_density. Qed.
Lemma log_prior_density e r x : log_density (log_prior e r x).
Proof. unfold log_prior. destruct (x_source x); simpl; auto. destruct (oprod _); simpl; auto. apply xln_density. Qed.
Lemma posterior_value e k r x : positive_env e -> length (e_ce e) = k -> (forall cl, 0 <= r cl) -> good_src e k x ->
  target_density 1 (log_lh e) (log_prior e r) x = posterior e r x.
Proof.
  intros P Hk Hr [G (s & Hs)]. destruct (good_clusters Hk G) as [Hd Hl]. pose proof (good_valid Hk G Hs) as V.
  unfold target_density. rewrite xscale_one. unfold log_lh, log_prior, posterior, source_density, state_weights. rewrite Hs, (weights_W P Hd Hl).
  destruct (@source_prod (component_lhs e (x_clusters x)) (W e (x_clusters x)) (n_objects e) (e_nf e) (n_comps e) (W_length e (x_clusters x)) (W_shape P Hd Hl) s V) as (a & b & Ha & Hb & _).
  unfold joint. rewrite Ha, Hb.
  assert (Pa : (0 <= a)%Q).
  { apply (oprod_nonneg Ha). intros v Hv. unfold source_weights in Hv. apply in_map_iff in Hv as ([[o f] c] & Hv & _).
    destruct (nth f (nth o _ []) None) as [w|] eqn:E; [|discriminate]. injection Hv as <-.
    assert (Hw : Forall (fun q => (0 <= q)%Q) w).
    { destruct (Nat.lt_ge_cases o (n_objects e)) as [Ho|Ho].
      - unfold W in E. rewrite map_map, nth_map_seq in E by auto. rewrite map_map in E.
        destruct (Nat.lt_ge_cases f (e_nf e)) as [Hf|Hf].
        + rewrite nth_map_seq in E by auto. injection E as <-. apply wrow_nonneg; auto.
        + rewrite nth_overflow in E by (rewrite map_length, seq_length; auto). discriminate.
      - rewrite (nth_overflow (map _ _)) in E by (rewrite map_length, W_length; auto). destruct f; discriminate. }
    destruct (nth_in_or_default c w 0%Q) as [H| ->]; [|discriminate]. rewrite Forall_forall in Hw. auto. }
  assert (Pb : (0 <= b)%Q).
  { apply (oprod_nonneg Hb). intros v Hv. unfold source_lhs in Hv. apply in_map_iff in Hv as ([[o f] c] & [= <-] & Hp).
    destruct (in_positions V Hp) as [Ho Hf]. apply lh_nonneg; auto. }
  apply Qle_Rle in Pa, Pb. rewrite RMicromega.Q2R_0 in Pa, Pb. 
  rewrite (dens_xln (a := Q2R a * r (x_clusters x))) by (apply Rmult_le_pos; auto).
  destruct (e_from_prior e).
  - simpl. rewrite exp_0. ring.
  - rewrite dens_xln by auto. rewrite Q2R_mult. ring.
Qed.
