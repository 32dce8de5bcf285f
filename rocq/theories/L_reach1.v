(** Lemmas for C75: admissible sources have positive probability. *)
From Coq Require Import Lqa.
From Verif Require Import M_source S_model S_operators S_source S_mcmc S_honest S_gsource
  L_model L_cache L_operators L_reverse L_source L_params L_honest L_honest2 L_gsource L_gsource2 L_progress.
Set Implicit Arguments.
Unset Strict Implicit.
Close Scope R_scope.
Open Scope Q_scope.

(** * Supports *)
Lemma in_bind A B (d : M_dist.dist A) (f : A -> M_dist.dist B) a p b q : In (a, p) d -> In (b, q) (f a) -> In (b, p * q) (bind d f).
Proof.
  intros H1 H2. unfold bind. apply in_concat. exists (scale p (f a)). split.
  - apply in_map_iff. exists (a, p). auto.
  - unfold scale. apply in_map_iff. exists (b, q). auto.
Qed.
Lemma Qmult_nz a b : ~ a == 0 -> ~ b == 0 -> ~ a * b == 0.
Proof. intros Ha Hb H. apply Qmult_integral in H as [H|H]; auto. Qed.
Lemma bind_supp A B (d : M_dist.dist A) (f : A -> M_dist.dist B) a b : supp d a -> supp (f a) b -> supp (bind d f) b.
Proof. intros (p & H1 & H2) (q & H3 & H4). exists (p * q). split; [eapply in_bind; eauto|apply Qmult_nz; auto]. Qed.
Lemma ret_supp A (a : A) : supp (ret a) a.
Proof. exists 1. split; [left; reflexivity|discriminate]. Qed.
Lemma flip_supp p b : ~ p == 0 -> ~ p == 1 -> supp (flip p) b.
Proof. intros H0 H1. destruct b; [exists p|exists (1 - p)]; (split; [simpl; auto|]); auto. intros E. apply H1. lra. Qed.
Lemma flip_false p : ~ p == 1 -> supp (flip p) false.
Proof. intros H1. exists (1 - p). split; [simpl; auto|]. intros E. apply H1. lra. Qed.
Lemma uniform_supp A (l : list A) a : In a l -> supp (uniform l) a.
Proof.
  intros H. exists (1 / inject_Z (Z.of_nat (length l))). split; [unfold uniform; apply in_map_iff; eauto|].
  assert (0 < inject_Z (Z.of_nat (length l))).
  { destruct l; [contradiction|]. unfold Qlt. simpl. lia. }
  assert (0 < 1 / inject_Z (Z.of_nat (length l))) by (apply Qlt_shift_div_l; lra). lra.
Qed.
Lemma choose_supp l f a out : In a l -> supp (f a) out -> supp (choose l f) out.
Proof. intros H1 H2. destruct l; [contradiction|]. unfold choose. eapply bind_supp; [apply uniform_supp; eauto|auto]. Qed.
Lemma choose_p_supp l f a q out : nth_error l a = Some q -> ~ q == 0 -> supp (f a) out -> supp (choose_p (Some l) f) out.
Proof.
  intros H1 H2 H3. unfold choose_p. eapply bind_supp; [|eauto]. exists q. split; auto. apply nth_error_In with a.
  rewrite nth_error_mapi, H1. reflexivity.
Qed.
Lemma prod_dist_supp A (ds : list (M_dist.dist A)) l : Forall2 (fun d x => supp d x) ds l -> supp (prod_dist ds) l.
Proof.
  induction 1 as [|d x ds l H _ IH]; simpl; [apply ret_supp|]. eapply bind_supp; [exact H|]. eapply bind_supp; [exact IH|]. apply ret_supp.
Qed.
Lemma inv_nat_pos n : (0 < n)%nat -> 0 < inv_nat n.
Proof.
  intros H. unfold inv_nat. assert (0 < inject_Z (Z.of_nat n)) by (unfold Qlt; simpl; lia). apply Qlt_shift_div_l; lra.
Qed.

Section Adm.
Variable e : env.
Hypothesis P : positive_env e.

Lemma lh_pos_cluster cl o f : disjoint_groups cl -> length (e_ce e) = length cl -> (o < n_objects e)%nat -> (f < e_nf e)%nat ->
  any_group cl o = true -> 0 < lh_at (component_lhs e cl) o f 0.
Proof.
  intros Hd Hk Ho Hf Hg. destruct (nth_error (e_features e) o) as [f_o|] eqn:Eo; [|apply nth_error_None in Eo; unfold n_objects in Ho; lia].
  assert (Hl : length f_o = e_nf e).
  { pose proof (pe_features P) as F. rewrite Forall_forall in F. apply F. eapply nth_error_In; eauto. }
  unfold lh_at, component_lhs. cbn [nth].
  assert (Ef : forall p, In p (e_ce e) -> length p = e_nf e /\ (forall f s, 0 <= nth s (nth f p []) 0) /\
    forall o f s, nth s (nth f (nth o (e_features e) []) []) false = true -> 0 < nth s (nth f p []) 0).
  { intros p Hp. apply (pe_effects P). auto. }
  rewrite component_spec; auto. rewrite (spec_value (f_o := f_o)); auto.
  2:{ apply Forall_forall. intros p Hp. apply Ef; auto. }
  destruct (forallb _ _) eqn:En; [lra|]. rewrite any_group_spec in Hg. destruct (group_of cl o) as [i|] eqn:E; [|discriminate].
  apply group_of_lt in E. destruct (not_na En) as [s Hs]. destruct (Ef (nth i (e_ce e) [])) as (_ & N & Pos); [apply nth_In; unfold effect, bmat in *; lia|].
  eapply state_prob_pos; eauto. apply (Pos o). rewrite (nth_error_nth _ _ [] Eo). exact Hs.
Qed.

Section Clusters.
Variable cl : bmat.
Hypothesis Hd : disjoint_groups cl.
Hypothesis Hk : length (e_ce e) = length cl.

Lemma lh_pos_any o f c : (o < n_objects e)%nat -> (f < e_nf e)%nat -> nth c (has_row e cl o) false = true ->
  0 < lh_at (component_lhs e cl) o f c.
Proof.
  intros Ho Hf Hc. destruct c as [|c].
  - apply lh_pos_cluster; auto.
  - unfold has_row in Hc. cbn [map nth] in Hc. destruct (nth_error (e_conf e) c) as [gs|] eqn:E.
    + eapply lh_pos; eauto. rewrite (nth_error_nth _ _ _ (map_nth_error (fun gs => any_group gs o) _ _ E)) in Hc. exact Hc.
    + rewrite nth_overflow in Hc; [discriminate|]. rewrite map_length. apply nth_error_None. auto.
Qed.
Lemma wrow_pos o f c : (o < n_objects e)%nat -> (f < e_nf e)%nat -> nth c (has_row e cl o) false = true ->
  exists q, nth_error (wrow e cl o f) c = Some q /\ 0 < q.
Proof.
  intros Ho Hf Hc. pose proof (wrow_some P Hd Hk Ho Hf) as E. destruct (weight_row P Hf) as [W1 W2].
  assert (Hl : length (has_row e cl o) = length (nth f (e_weights e) [])) by (rewrite W1; apply has_row_length).
  pose proof (normalize_row_distribution W2 Hl E) as (D1 & D2 & D3 & D4 & _).
  assert (Hh : nth_error (has_row e cl o) c = Some true).
  { destruct (nth_error (has_row e cl o) c) as [b|] eqn:Eb; [rewrite (nth_error_nth _ _ _ Eb) in Hc; subst; auto|].
    apply nth_error_None in Eb. rewrite nth_overflow in Hc by auto. discriminate. }
  destruct (nth_error (wrow e cl o f) c) as [q|] eqn:Eq.
  2:{ apply nth_error_None in Eq. pose proof (wrow_length P Hd Hk Ho Hf) as L. assert (c < length (has_row e cl o))%nat by (apply nth_error_Some; congruence).
      rewrite has_row_length in H. rewrite L in Eq. lia. }
  exists q. split; auto. specialize (D4 _ _ _ Eq Hh). rewrite Forall_forall in D2. specialize (D2 q (nth_error_In _ _ Eq)).
  destruct (Qlt_le_dec 0 q); auto. exfalso. assert (q == 0) by lra. apply D4 in H. discriminate.
Qed.

(** The probabilities of the sources are positive for all available components. *)
Lemma probs_pos o f c : (o < n_objects e)%nat -> (f < e_nf e)%nat -> nth c (has_row e cl o) false = true ->
  exists l q, nth_error (source_probs e cl o) f = Some (Some l) /\ nth_error l c = Some q /\ 0 < q.
Proof.
  intros Ho Hf Hc. destruct (wrow_pos Ho Hf Hc) as (w & Ew & Hw). pose proof (wrow_some P Hd Hk Ho Hf) as E.
  unfold source_probs. rewrite nth_error_map. rewrite (nth_error_nth' (seq 0 (e_nf e)) 0%nat) by (rewrite seq_length; auto). rewrite seq_nth by auto.
  cbn [option_map Nat.add]. destruct (e_from_prior e) eqn:Ef.
  - exists (wrow e cl o f), w. rewrite E. auto.
  - unfold source_posterior. rewrite E. set (v := mapi _ _). 
    assert (Ev : nth_error v c = Some (lh_at (component_lhs e cl) o f c * w)) by (unfold v; rewrite nth_error_mapi, Ew; reflexivity).
    assert (Pv : 0 < lh_at (component_lhs e cl) o f c * w) by (apply Qmult_lt_0_compat; auto using lh_pos_any).
    assert (V : Forall (fun q => 0 <= q) v).
    { apply Forall_forall. intros q Hq. apply In_nth_error in Hq as (d & Hdd). unfold v in Hdd. rewrite nth_error_mapi in Hdd.
      destruct (nth_error (wrow e cl o f) d) as [r|] eqn:Er; [|discriminate]. injection Hdd as <-. apply Qmult_le_0_compat.
      - apply lh_nonneg; auto.
      - pose proof (wrow_nonneg P Hd Hk Ho Hf) as N. rewrite Forall_forall in N. apply N. eapply nth_error_In; eauto. }
    assert (Pos : 0 < Qsum v) by (eapply Qsum_pos_term; eauto).
    unfold normalize. destruct (Qeq_bool (Qsum v) 0) eqn:E0; [apply Qeq_bool_iff in E0; lra|].
    exists (map (fun q => q / Qsum v) v), (lh_at (component_lhs e cl) o f c * w / Qsum v). conj; auto.
    + rewrite nth_error_map, Ev. reflexivity.
    + apply Qlt_shift_div_l; lra.
Qed.
Lemma some_component o : (o < n_objects e)%nat -> exists c, (c < n_comps e)%nat /\ nth c (has_row e cl o) false = true.
Proof.
  intros Ho. destruct (pe_group P Ho) as (gs & g & Hgs & Hg & Hog). apply In_nth_error in Hgs as (j & Hj). exists (S j). split.
  - unfold n_comps. assert (j < length (e_conf e))%nat by (apply nth_error_Some; congruence). lia.
  - apply nth_has. exists gs, g. auto.
Qed.

(** Admissible rows are drawn with positive probability. *)
Lemma obs_hot l c q : nth_error l c = Some q -> (c < n_comps e)%nat -> exists r, obs_prob (Some l) (one_hot_row e c) = Some r /\ r == q.
Proof.
  intros Hq Hc. exists (Qprod (mapi (fun d (b : bool) => if b then nth d l 0 else 1) (one_hot (n_comps e) c))). split.
  - unfold obs_prob, mapi. apply fold_omult_mapi. intros i x _. destruct x; reflexivity.
  - rewrite hot_prod by auto. rewrite (nth_error_nth _ _ 0 Hq). reflexivity.
Qed.
Lemma row_prob_pos o r : (o < n_objects e)%nat -> row_adm e cl o r -> exists v, row_prob (source_probs e cl o) r = Some v /\ 0 < v.
Proof.
  intros Ho [L F]. unfold row_prob.
  assert (G : forall (r : list (list bool)) (ps : list (option (list Q))) k, length r = length ps -> (forall f, (f < length ps)%nat -> nth_error ps f = nth_error (source_probs e cl o) (k + f)) -> 
    Forall (fun v => exists c, (c < n_comps e)%nat /\ v = one_hot_row e c /\ nth c (has_row e cl o) false = true) r ->
    exists v, fold_right omult (Some 1) (map2 obs_prob ps r) = Some v /\ 0 < v).
  { clear r L F. induction r as [|v r IH]; intros [|p ps] k L Hp F; try discriminate; [exists 1; split; [reflexivity|lra]|].
    inversion F as [|? ? (c & Hc & -> & Hh) F']; subst.
    destruct (IH ps (S k)) as (a & Ea & Ha); auto.
    { intros f Hf. specialize (Hp (S f)). simpl in Hp. rewrite Hp by lia. f_equal. lia. }
    pose proof (Hp 0%nat) as Hp0. cbn [nth_error length] in Hp0. specialize (Hp0 ltac:(lia)). rewrite Nat.add_0_r in Hp0. symmetry in Hp0.
    assert (Hk' : (k < e_nf e)%nat) by (rewrite <- (source_probs_length e cl o); apply nth_error_Some; congruence).
    destruct (probs_pos Ho Hk' Hh) as (l & q & El & Eq & Hq). assert (p = Some l) by congruence. subst p.
    destruct (obs_hot Eq Hc) as (b & Eb & Hb). cbn [map2 fold_right]. rewrite Ea, Eb. cbn [omult]. eexists. split; [reflexivity|].
    apply Qmult_lt_0_compat; auto. lra. }
  apply (G r (source_probs e cl o) 0%nat); auto. rewrite source_probs_length. auto.
Qed.
Lemma rows_prob_pos objs s : Forall (fun o => (o < n_objects e)%nat) objs ->
  (forall o, (o < n_objects e)%nat -> row_adm e cl o (nth o s [])) -> exists v, rows_prob e cl objs s = Some v /\ 0 < v.
Proof.
  intros Hlt Ha. unfold rows_prob. induction Hlt as [|o objs Ho _ IH]; [exists 1; split; [reflexivity|lra]|].
  destruct IH as (a & Ea & Pa). destruct (row_prob_pos Ho (Ha o Ho)) as (b & Eb & Pb). cbn [map fold_right]. rewrite Ea, Eb. cbn [omult].
  eexists. split; [reflexivity|]. apply Qmult_lt_0_compat; auto.
Qed.
Lemma rows_supp objs : Forall (fun o => (o < n_objects e)%nat) objs -> exists rows, supp (rows_dist e cl objs) rows.
Proof.
  intros Hlt. assert (G : exists rows, Forall2 (fun d x => supp d x) (map (fun o => prod_dist (map (sample_obs e) (source_probs e cl o))) objs) rows).
  { induction Hlt as [|o objs Ho _ (rows & IH)]; [exists []; constructor|].
    assert (R : exists r, Forall2 (fun d x => supp d x) (map (sample_obs e) (source_probs e cl o)) r).
    { destruct (some_component Ho) as (c & Hc & Hh). exists (repeat (one_hot_row e c) (e_nf e)).
      assert (G : forall ps k, (forall f, (f < length ps)%nat -> nth_error ps f = nth_error (source_probs e cl o) (k + f)) ->
        Forall2 (fun d x => supp d x) (map (sample_obs e) ps) (repeat (one_hot_row e c) (length ps))).
      { induction ps as [|p ps IHp]; intros k Hp; cbn [length repeat map]; constructor.
        - pose proof (Hp 0%nat) as Hp0. cbn [nth_error length] in Hp0. specialize (Hp0 ltac:(lia)). rewrite Nat.add_0_r in Hp0. symmetry in Hp0.
          assert (Hk' : (k < e_nf e)%nat) by (rewrite <- (source_probs_length e cl o); apply nth_error_Some; congruence).
          destruct (probs_pos Ho Hk' Hh) as (l & q & El & Eq & Hq). assert (p = Some l) by congruence. subst p.
          exists q. split; [|lra]. cbn [sample_obs]. apply nth_error_In with c. rewrite nth_error_mapi, Eq. reflexivity.
        - apply (IHp (S k)). intros f Hf. specialize (Hp (S f)). simpl in Hp. rewrite Hp by lia. f_equal. lia. }
      rewrite <- (source_probs_length e cl o). apply (G _ 0%nat). auto. }
    destruct R as (r & R). exists (r :: rows). constructor; auto. apply prod_dist_supp. auto. }
  destruct G as (rows & G). exists rows. apply prod_dist_supp. auto.
Qed.
End Clusters.

(** * Positive density *)
Variable k : nat.
Hypothesis Hce : length (e_ce e) = k.
Lemma adm_density x : good_src e k x -> rows_adm e x -> 0 < source_density e x.
Proof.
  intros [G (s & Hs)] Ha. destruct (good_clusters Hce G) as [Hd Hl]. pose proof (good_valid Hce G Hs) as V.
  unfold rows_adm in Ha. rewrite Hs in Ha. destruct Ha as [Ls Ha].
  destruct (@rows_prob_pos _ Hd Hl (seq 0 (n_objects e)) s) as (v & Ev & Hv); auto.
  { apply Forall_forall. intros o Ho. apply in_seq in Ho. lia. }
  pose proof (@gibbs_mass e (x_clusters x) x s s v eq_refl Hs Ls V Ev) as M.
  assert (Ex : x = {| x_clusters := x_clusters x; x_source := Some s |}) by (destruct x; simpl in *; subst; reflexivity).
  unfold source_density, state_weights. rewrite Hs, (weights_W P Hd Hl). destruct (e_from_prior e) eqn:Ef.
  - destruct (@from_prior e _ P Hd Hl x s s Ef eq_refl Hs Ls V) as (a & -> & E). rewrite M in E. lra.
  - destruct (@full_conditional e _ P Hd Hl x s s Ef eq_refl Hs Ls V) as (a & m & -> & _ & Hm & E). rewrite M in E.
    assert (E' : a == v * m) by (rewrite E; field; lra). rewrite E'. apply Qmult_lt_0_compat; auto.
Qed.

(** Proposals that change the clusters and draw the sources of some objects. *)
Lemma finish_step x must cl' objs a b : e_resample e = true -> good_src e k x -> rows_adm e x ->
  disjoint_groups cl' -> length cl' = k -> NoDup objs -> Forall (fun o => (o < n_objects e)%nat) objs ->
  (forall i, ~ In i objs -> any_group cl' i = any_group (x_clusters x) i) -> 0 < a -> 0 < b ->
  exists y q qb, supp (finish e must x cl' objs (Some a) (Some b)) (Propose y (Some q) (Some qb)) /\ 0 < q /\ 0 < qb /\
    x_clusters y = cl' /\ rows_adm e y.
Proof.
  intros Hr [G (s & Hs)] Ha Hd' Hl' Hn Hlt Hany Pa Pb. destruct (good_clusters Hce G) as [Hd Hl].
  assert (Hl2 : length (e_ce e) = length cl') by congruence.
  destruct (@rows_supp cl' Hd' Hl2 objs Hlt) as (rows & Hrows).
  set (y := {| x_clusters := cl'; x_source := Some (set_rows s objs rows) |}).
  assert (F : forall q qb, supp (finish e must x cl' objs q qb) (Propose y (omult q (rows_prob e cl' objs (set_rows s objs rows))) (omult qb (rows_prob e (x_clusters x) objs s)))).
  { intros q qb. unfold finish. rewrite Hr, Hs. eapply bind_supp; [exact Hrows|]. apply ret_supp. }
  assert (Hy : rows_adm e y).
  { apply (@finishes_adm e x y k); auto; [|eauto|exact (proj1 G)|].
    - exists must, cl', objs, None, None, None, None. conj; auto. exact (F None None).
    - intros o Ho. apply probs_defined; auto. }
  pose proof Hy as Hy'. unfold rows_adm in Hy', Ha. rewrite Hs in Ha. cbn [y x_source x_clusters] in Hy'. destruct Ha as [Ls Ha]. destruct Hy' as [Ls' Hy'].
  destruct (@rows_prob_pos _ Hd Hl objs s Hlt Ha) as (u & Eu & Pu). destruct (@rows_prob_pos _ Hd' Hl2 objs _ Hlt Hy') as (v & Ev & Pv).
  specialize (F (Some a) (Some b)). rewrite Eu, Ev in F. cbn [omult] in F.
  exists y, (a * v), (b * u). conj; auto; apply Qmult_lt_0_compat; auto.
Qed.
(** The source operator makes the sources admissible. *)
Lemma source_step x : good_src e k x -> exists y q qb, supp (gibbs_source e x) (Propose y q qb) /\ x_clusters y = x_clusters x /\ rows_adm e y.
Proof.
  intros [G (s & Hs)]. destruct (good_clusters Hce G) as [Hd Hl].
  assert (Hlt : Forall (fun o => (o < n_objects e)%nat) (seq 0 (n_objects e))) by (apply Forall_forall; intros o Ho; apply in_seq in Ho; lia).
  destruct (@rows_supp _ Hd Hl _ Hlt) as (rows & Hrows).
  set (y := {| x_clusters := x_clusters x; x_source := Some (set_rows s (seq 0 (n_objects e)) rows) |}).
  assert (F : supp (gibbs_source e x) (Propose y (Some 0) (Some 1))).
  { unfold gibbs_source. rewrite Hs. cbv zeta. eapply bind_supp; [exact Hrows|]. apply ret_supp. }
  exists y, (Some 0), (Some 1). split; auto. split; auto.
  eapply (@gibbs_adm e x y); eauto.
  - intros s' Hs'. assert (s' = s) by congruence. subst s'. apply (good_valid Hce G Hs).
  - intros o Ho. apply probs_defined; auto.
Qed.
End Adm.
