(** Lemmas for C64: the mass of a proposal of [GibbsSampleSource]. *)
From Coq Require Import Lqa.
From Verif Require Import M_source S_model S_operators S_source L_model L_operators L_reverse L_source.
Set Implicit Arguments.
Unset Strict Implicit.
Open Scope Q_scope.

Lemma Qprod_div A (f g : A -> Q) l : Qprod (map (fun i => f i / g i) l) == Qprod (map f l) / Qprod (map g l).
Proof.
  induction l as [|x l IH]; [reflexivity|]. simpl map. rewrite !Qprod_cons, IH. unfold Qdiv. rewrite Qinv_mult_distr. ring.
Qed.
Lemma Qprod_pos l : Forall (fun q => 0 < q) l -> 0 < Qprod l.
Proof. induction 1 as [|x l Hx _ IH]; [reflexivity|]. rewrite Qprod_cons. apply Qmult_lt_0_compat; auto. Qed.
Lemma fold_omult_mapi A (f : nat -> A -> option Q) (g : nat -> A -> Q) l : forall k,
  (forall i x, nth_error l i = Some x -> f (k + i)%nat x = Some (g (k + i)%nat x)) ->
  fold_right omult (Some 1) (mapi_from k f l) = Some (Qprod (mapi_from k g l)).
Proof.
  induction l as [|x l IH]; intros k H; [reflexivity|]. simpl. rewrite (IH (S k)).
  - pose proof (H 0%nat x eq_refl) as H0. rewrite Nat.add_0_r in H0. rewrite H0. reflexivity.
  - intros i y Hy. specialize (H (S i) y Hy). rewrite Nat.add_succ_r in H. exact H.
Qed.
Lemma list_as_map_seq A (l : list A) d : l = map (fun i => nth i l d) (seq 0 (length l)).
Proof.
  induction l as [|x l IH]; [reflexivity|]. simpl. f_equal. rewrite <- seq_shift, map_map. exact IH.
Qed.
Lemma nth_map_seq A (g : nat -> A) d n i : (i < n)%nat -> nth i (map g (seq 0 n)) d = g i.
Proof.
  intros H. apply nth_error_nth. rewrite nth_error_map, (nth_error_nth' (seq 0 n) 0%nat) by (rewrite seq_length; auto).
  rewrite seq_nth by auto. reflexivity.
Qed.
Lemma option_map_some' A B (f : A -> B) o b : option_map f o = Some b -> exists a, o = Some a /\ b = f a.
Proof. destruct o; simpl; [intros [= <-]; eauto|discriminate]. Qed.
(** Exactly one factor counts. *)
Lemma hot_prod (F : nat -> Q) n c : (c < n)%nat -> Qprod (mapi (fun d (b : bool) => if b then F d else 1) (one_hot n c)) == F c.
Proof.
  intros Hc. assert (H : forall m k, (k <= c < k + m)%nat ->
    Qprod (mapi_from k (fun d (b : bool) => if b then F d else 1) (map (Nat.eqb c) (seq k m))) == F c).
  { induction m as [|m IH]; intros k Hk; [lia|]. simpl seq. simpl map. simpl mapi_from. rewrite Qprod_cons.
    destruct (Nat.eqb_spec c k) as [->|Hne].
    - assert (H1 : forall m' k', (k < k')%nat ->
        Qprod (mapi_from k' (fun d (b : bool) => if b then F d else 1) (map (Nat.eqb k) (seq k' m'))) == 1).
      { induction m' as [|m' IH']; intros k' Hk'; [reflexivity|]. simpl seq. simpl map. simpl mapi_from.
        rewrite Qprod_cons. destruct (Nat.eqb_spec k k'); [lia|]. rewrite IH' by lia. ring. }
      rewrite H1 by lia. ring.
    - rewrite IH by lia. ring. }
  unfold mapi, one_hot. apply H. lia.
Qed.

Section G.
Variables (e : env) (cl : bmat).
Let n := n_objects e.
Let nf := e_nf e.
Let nc := n_comps e.

(** All factors of a source array under the probabilities [L]. *)
Definition cube_prod (F : nat -> nat -> nat -> Q) (s : cube) : Q :=
  Qprod (mapi (fun o s_o => Qprod (mapi (fun f s_of => Qprod (mapi (fun c (x : bool) => if x then F o f c else 1) s_of)) s_o)) s).

Lemma valid_row s o : valid_source n nf nc s -> (o < n)%nat -> row_ok e (nth o s []).
Proof.
  intros [Hl Hs] Ho. rewrite Forall_forall in Hs. destruct (Hs (nth o s [])) as [H1 H2]; [apply nth_In; lia|]. split; auto.
  eapply Forall_impl; [|exact H2]. intros v Hv. apply exactly_one_one_hot in Hv. unfold one_hots in Hv.
  apply in_map_iff in Hv as (c & <- & Hc). apply in_seq in Hc. exists c. split; [lia|reflexivity].
Qed.
Lemma valid_hot s o f : valid_source n nf nc s -> (o < n)%nat -> (f < nf)%nat ->
  exists c, (c < nc)%nat /\ nth f (nth o s []) [] = one_hot nc c.
Proof.
  intros H Ho Hf. destruct (valid_row H Ho) as [H1 H2]. rewrite Forall_forall in H2.
  destruct (H2 (nth f (nth o s []) [])) as (c & Hc & E); [apply nth_In; rewrite H1; auto|]. eauto.
Qed.

Lemma rows_prob_value s L : valid_source n nf nc s ->
  (forall o, (o < n)%nat -> source_probs e cl o = map (fun f => Some (L o f)) (seq 0 nf)) ->
  exists q, rows_prob e cl (seq 0 n) s = Some q /\ q == cube_prod (fun o f c => nth c (L o f) 0) s.
Proof.
  intros Hv HL. destruct Hv as [Hl Hs]. unfold rows_prob. 
  exists (cube_prod (fun o f c => nth c (L o f) 0) s). split; [|reflexivity]. unfold cube_prod, mapi at 1.
  rewrite (mapi_from_seq _ ([] : list (list bool))). unfold bmat, cube in *. rewrite Hl. fold n.
  assert (G : forall l, (forall o, In o l -> (o < n)%nat) ->
    fold_right omult (Some 1) (map (fun o => row_prob (source_probs e cl o) (nth o s [])) l) =
    Some (Qprod (map (fun i => Qprod (mapi (fun f s_of => Qprod (mapi (fun c (x : bool) => if x then nth c (L (0 + i)%nat f) 0 else 1) s_of)) (nth i s []))) l))).
  { induction l as [|o l IH]; intros Hlt; [reflexivity|]. simpl map. cbn [fold_right]. rewrite IH by (intros; apply Hlt; right; auto).
    assert (Ho : (o < n)%nat) by (apply Hlt; left; auto). rewrite (HL o Ho). unfold row_prob.
    rewrite Forall_forall in Hs. destruct (Hs (nth o s [])) as [H1 _]; [apply nth_In; lia|].
    assert (R : forall (r : list (list bool)) k, fold_right omult (Some 1) (map2 obs_prob (map (fun f => Some (L o f)) (seq k (length r))) r) =
      Some (Qprod (mapi_from k (fun f s_of => Qprod (mapi (fun c (x : bool) => if x then nth c (L o f) 0 else 1) s_of)) r))).
    { induction r as [|v r IHr]; intros k; [reflexivity|]. simpl seq. simpl map. simpl map2. cbn [fold_right]. rewrite IHr.
      assert (OP : obs_prob (Some (L o k)) v = Some (Qprod (mapi (fun c (x : bool) => if x then nth c (L o k) 0 else 1) v))).
      { unfold obs_prob, mapi. apply fold_omult_mapi. intros i x _. destruct x; reflexivity. }
      rewrite OP. reflexivity. }
    rewrite <- H1 at 1. rewrite R. reflexivity. }
  apply G. intros o Ho. apply in_seq in Ho. lia.
Qed.

Lemma gibbs_mass x src s q : x_clusters x = cl -> x_source x = Some src -> length src = n -> valid_source n nf nc s ->
  rows_prob e cl (seq 0 n) s = Some q ->
  mass (gibbs_source e x) {| x_clusters := cl; x_source := Some s |} == q.
Proof.
  intros Hc Hx Hl Hv Hq. unfold gibbs_source. rewrite Hx, Hc. cbv zeta. rewrite mass_bind.
  assert (Hok : Forall (fun o => row_ok e (nth o s [])) (seq 0 n)).
  { apply Forall_forall. intros o Ho. apply in_seq in Ho. apply valid_row; auto. lia. }
  rewrite <- (rows_point Hok Hq). unfold point, rows_dist. apply E_ext_supp. intros rows Hrows.
  rewrite mass_E, E_ret. unfold ind.
  assert (Hlt : Forall (fun o => (o < length src)%nat) (seq 0 n)) by (apply Forall_forall; intros o Ho; apply in_seq in Ho; lia).
  destruct (cstate_eq_dec _ _) as [He|He].
  - injection He as He. destruct (cube_dec rows _) as [Hr|Hr]; [reflexivity|]. exfalso; apply Hr.
    rewrite <- He. symmetry. apply set_rows_in; auto; [apply seq_NoDup|]. eapply supp_rows_length; exact Hrows.
  - destruct (cube_dec rows _) as [Hr|Hr]; [|reflexivity]. exfalso; apply He. f_equal. f_equal. subst rows.
    apply set_rows_back; auto; [apply seq_NoDup|]. destruct Hv as [Hvl _]. split; [congruence|]. intros i Hi.
    assert (n <= i)%nat by (destruct (Nat.lt_ge_cases i n); auto; exfalso; apply Hi; apply in_seq; lia).
    rewrite !nth_overflow by lia. reflexivity.
Qed.

Hypothesis P : positive_env e.
Hypothesis Hd : disjoint_groups cl.
Hypothesis Hk : length (e_ce e) = length cl.

Definition wrow (o f : nat) : list Q :=
  match normalize_row (nth f (e_weights e) []) (has_row e cl o) with Some w => w | None => [] end.
Definition W : list (list (list Q)) := map (fun o => map (wrow o) (seq 0 nf)) (seq 0 n).
Let lhs := component_lhs e cl.
Lemma weight_row f : (f < nf)%nat -> length (nth f (e_weights e) []) = nc /\ Forall (fun q => 0 < q) (nth f (e_weights e) []).
Proof.
  intros Hf. pose proof (pe_weights_c P) as H. rewrite Forall_forall in H. apply H. apply nth_In. rewrite (pe_weights P). exact Hf.
Qed.
Lemma wrow_some o f : (o < n)%nat -> (f < nf)%nat -> normalize_row (nth f (e_weights e) []) (has_row e cl o) = Some (wrow o f).
Proof.
  intros Ho Hf. destruct (probs_defined P Hd Hk Ho (p := if e_from_prior e then normalize_row (nth f (e_weights e) []) (has_row e cl o) else source_posterior e cl o f)) as (l & Hl & _).
  - unfold source_probs. apply in_map_iff. exists f. split; [reflexivity|]. apply in_seq. unfold nf in Hf. lia.
  - unfold wrow. destruct (normalize_row _ _) eqn:E; auto. destruct (e_from_prior e); [discriminate|].
    unfold source_posterior in Hl. rewrite E in Hl. discriminate.
Qed.
Lemma wrow_length o f : (o < n)%nat -> (f < nf)%nat -> length (wrow o f) = nc.
Proof.
  intros Ho Hf. pose proof (wrow_some Ho Hf) as H. destruct (weight_row Hf) as [H1 _].
  unfold normalize_row in H. destruct (Qeq_bool _ 0); [discriminate|]. injection H as <-.
  rewrite map_length, map2_length, H1, has_row_length. apply Nat.min_id.
Qed.
Lemma wrow_nonneg o f : (o < n)%nat -> (f < nf)%nat -> Forall (fun q => 0 <= q) (wrow o f).
Proof.
  intros Ho Hf. destruct (weight_row Hf) as [H1 H2]. assert (Hh : length (has_row e cl o) = length (nth f (e_weights e) [])) by (rewrite H1; apply has_row_length).
  destruct (normalize_row_distribution H2 Hh (wrow_some Ho Hf)) as (_ & H & _). exact H.
Qed.
Lemma W_length : length W = n.
Proof. unfold W. rewrite map_length, seq_length. reflexivity. Qed.
Lemma W_shape : Forall (fun row => length row = nf /\ Forall (fun w => length w = nc) row) W.
Proof.
  unfold W. rewrite Forall_map. apply Forall_forall. intros o Ho. apply in_seq in Ho. rewrite map_length, seq_length. split; auto.
  rewrite Forall_map. apply Forall_forall. intros f Hf. apply in_seq in Hf. apply wrow_length; lia.
Qed.
Lemma weights_W : normalize_weights (e_weights e) (has_components cl (e_conf e) n) = map (map Some) W.
Proof.
  unfold normalize_weights, has_components, W. rewrite !map_map. apply map_ext_in. intros o Ho. apply in_seq in Ho. rewrite map_map.
  rewrite (list_as_map_seq (e_weights e) []), (pe_weights P), map_map. apply map_ext_in. intros f Hf. apply in_seq in Hf.
  apply wrow_some; unfold nf; lia.
Qed.
Lemma W_at o f c : (o < n)%nat -> (f < nf)%nat -> wt W o f c = nth c (wrow o f) 0.
Proof.
  intros Ho Hf. unfold wt, W. rewrite !nth_map_seq by auto. reflexivity.
Qed.
Lemma mixture_wrow o f : (o < n)%nat -> (f < nf)%nat ->
  mixture_at lhs W nc o f == Qsum (mapi (fun c q => lh_at lhs o f c * q) (wrow o f)).
Proof.
  intros Ho Hf. unfold mixture_at, mapi. rewrite (mapi_from_seq _ 0), wrow_length by auto. apply Qsum_ext. intros c Hc.
  rewrite W_at by auto. simpl. ring.
Qed.
Lemma mixture_pos o f : (o < n)%nat -> (f < nf)%nat -> e_from_prior e = false -> 0 < mixture_at lhs W nc o f.
Proof.
  intros Ho Hf Hp. rewrite mixture_wrow by auto. set (v := mapi _ _).
  assert (V : Forall (fun q => 0 <= q) v).
  { apply Forall_forall. intros q Hq. apply In_nth_error in Hq as (c & Hc). unfold v in Hc. rewrite nth_error_mapi in Hc.
    destruct (nth_error (wrow o f) c) as [r|] eqn:Er; [|discriminate]. injection Hc as <-. apply Qmult_le_0_compat.
    - apply lh_nonneg; auto.
    - pose proof (wrow_nonneg Ho Hf) as H. rewrite Forall_forall in H. apply H. eapply nth_error_In; eauto. }
  pose proof (Qsum_nonneg V) as H0.
  destruct (probs_defined P Hd Hk Ho (p := source_posterior e cl o f)) as (l & Hl & _).
  - unfold source_probs. rewrite Hp. apply in_map_iff. exists f. split; [reflexivity|]. apply in_seq. unfold nf in Hf. lia.
  - unfold source_posterior in Hl. rewrite (wrow_some Ho Hf) in Hl. unfold normalize in Hl. fold lhs v in Hl.
    destruct (Qeq_bool (Qsum v) 0) eqn:E; [discriminate|]. apply Qeq_bool_neq in E. lra.
Qed.

Lemma joint_value s : valid_source n nf nc s -> exists a, joint lhs (map (map Some) W) s = Some a /\
  a == cube_prod (fun o f c => wt W o f c * lh_at lhs o f c) s.
Proof.
  intros Hv. destruct (@source_prod lhs W n nf nc W_length W_shape s Hv) as (a & b & Ha & Hb & E).
  exists (a * b). unfold joint. rewrite Ha, Hb. split; auto.
Qed.
Lemma prior_value s : valid_source n nf nc s -> exists a, oprod (source_weights (map (map Some) W) s) = Some a /\
  a == cube_prod (fun o f c => wt W o f c) s.
Proof.
  intros Hv. destruct (@source_prod [] W n nf nc W_length W_shape s Hv) as (a & b & Ha & Hb & _).
  exists a. split; auto. unfold oprod, source_weights in Ha.
  assert (H : all_some (map (fun '(o, f, c) => match nth f (nth o (map (map Some) W) []) None with None => None | Some w => Some (nth c w 0) end) (source_positions s)) =
    Some (map (fun '(o, f, c) => wt W o f c) (source_positions s))).
  { apply option_map_some' in Ha as (l & Hl & _). rewrite Hl. f_equal. revert l Hl. generalize (source_positions s) as ps.
    induction ps as [|[[o f] c] ps IH]; simpl; intros l Hl; [injection Hl as <-; reflexivity|].
    destruct (nth f (nth o (map (map Some) W) []) None) as [w|] eqn:E; [|discriminate].
    destruct (all_some _) as [r|] eqn:Er; [|discriminate]. injection Hl as <-. f_equal; auto.
    unfold wt. clear - E. destruct (nth_error W o) as [row|] eqn:Eo.
    - rewrite (nth_error_nth _ _ [] Eo). rewrite (nth_error_nth (map (map Some) W) o [] (x := map Some row)) in E by (rewrite nth_error_map, Eo; reflexivity).
      destruct (nth_error row f) as [v|] eqn:Ef.
      + rewrite (nth_error_nth _ _ [] Ef). rewrite (nth_error_nth (map Some row) f None (x := Some v)) in E by (rewrite nth_error_map, Ef; reflexivity). congruence.
      + rewrite nth_overflow in E; [discriminate|]. rewrite map_length. apply nth_error_None; auto.
    - rewrite (nth_overflow (map (map Some) W)) in E; [destruct f; discriminate|]. rewrite map_length. apply nth_error_None; auto. }
  rewrite H in Ha. simpl in Ha. injection Ha as <-. rewrite (prod_positions (fun '(o, f, c) => wt W o f c)). reflexivity.
Qed.
Lemma cube_prod_ext F G s : valid_source n nf nc s -> (forall o f c, (o < n)%nat -> (f < nf)%nat -> (c < nc)%nat -> F o f c == G o f c) ->
  cube_prod F s == cube_prod G s.
Proof.
  intros [Hl Hs] H. unfold cube_prod, mapi. apply Qprod_mapi_ext. intros o row Ho. simpl.
  assert (o < n)%nat by (rewrite <- Hl; apply nth_error_Some; congruence).
  rewrite Forall_forall in Hs. destruct (Hs row (nth_error_In _ _ Ho)) as [H1 H2].
  apply Qprod_mapi_ext. intros f v Hf. simpl. assert (f < nf)%nat by (rewrite <- H1; apply nth_error_Some; congruence).
  rewrite Forall_forall in H2. destruct (H2 v (nth_error_In _ _ Hf)) as [HL _].
  apply Qprod_mapi_ext. intros c b Hc. simpl. assert (c < nc)%nat by (rewrite <- HL; apply nth_error_Some; congruence).
  destruct b; [auto|reflexivity].
Qed.
Lemma cube_prod_seq F s : valid_source n nf nc s ->
  cube_prod F s == Qprod (map (fun o => Qprod (map (fun f => Qprod (mapi (fun c (x : bool) => if x then F o f c else 1) (nth f (nth o s []) []))) (seq 0 nf))) (seq 0 n)).
Proof.
  intros [Hl Hs]. unfold cube_prod, mapi at 1. rewrite (mapi_from_seq _ ([] : list (list bool))). unfold cube in *. rewrite Hl.
  apply Qprod_ext. intros o Ho. apply in_seq in Ho. unfold mapi at 1. rewrite (mapi_from_seq _ ([] : list bool)). simpl.
  rewrite Forall_forall in Hs. destruct (Hs (nth o s [])) as [-> _]; [apply nth_In; lia|]. reflexivity.
Qed.
Lemma cube_prod_div F G s : valid_source n nf nc s ->
  cube_prod (fun o f c => F o f c / G o f) s == cube_prod F s / Qprod (map (fun o => Qprod (map (G o) (seq 0 nf))) (seq 0 n)).
Proof.
  intros Hv. rewrite !cube_prod_seq by auto. rewrite <- Qprod_div. apply Qprod_ext. intros o Ho. apply in_seq in Ho.
  rewrite <- Qprod_div. apply Qprod_ext. intros f Hf. apply in_seq in Hf.
  destruct (@valid_hot s o f Hv) as (c & Hc & ->); try lia. rewrite !hot_prod by auto. reflexivity.
Qed.

Definition posterior_row (o f : nat) : list Q :=
  map (fun q => q / Qsum (mapi (fun c q => lh_at lhs o f c * q) (wrow o f))) (mapi (fun c q => lh_at lhs o f c * q) (wrow o f)).
Lemma nth_posterior o f c : (o < n)%nat -> (f < nf)%nat -> (c < nc)%nat ->
  nth c (posterior_row o f) 0 == wt W o f c * lh_at lhs o f c / mixture_at lhs W nc o f.
Proof.
  intros Ho Hf Hc. rewrite mixture_wrow by auto. unfold posterior_row. set (S := Qsum _).
  destruct (nth_error (wrow o f) c) as [q|] eqn:E; [|apply nth_error_None in E; rewrite wrow_length in E by auto; lia].
  rewrite (nth_error_nth _ c 0 (x := lh_at lhs o f c * q / S)).
  - rewrite W_at by auto. rewrite (nth_error_nth _ _ 0 E). unfold Qdiv. ring.
  - rewrite nth_error_map, nth_error_mapi, E. reflexivity.
Qed.

Theorem full_conditional x src s : e_from_prior e = false -> x_clusters x = cl -> x_source x = Some src -> length src = n ->
  valid_source n nf nc s ->
  exists a m, joint lhs (map (map Some) W) s = Some a /\ oprod (mixture_lhs lhs (map (map Some) W)) = Some m /\ 0 < m /\
    mass (gibbs_source e x) {| x_clusters := cl; x_source := Some s |} == a / m.
Proof.
  intros Hp Hc Hx Hl Hv. destruct (joint_value Hv) as (a & Ha & Ea).
  destruct (@mixture_prod lhs W n nf nc W_length W_shape) as (m & Hm & Em). exists a, m. conj; auto.
  - rewrite Em. apply Qprod_pos. rewrite Forall_map. apply Forall_forall. intros o Ho. apply in_seq in Ho. apply Qprod_pos.
    rewrite Forall_map. apply Forall_forall. intros f Hf. apply in_seq in Hf. apply mixture_pos; auto; lia.
  - destruct (@rows_prob_value s posterior_row Hv) as (q & Hq & Eq).
    { intros o Ho. unfold source_probs. rewrite Hp. apply map_ext_in. intros f Hf. apply in_seq in Hf.
      unfold source_posterior. rewrite wrow_some by (auto; lia). unfold normalize. fold lhs.
      destruct (Qeq_bool _ 0) eqn:E; [|reflexivity]. apply Qeq_bool_eq in E.
      assert (0 < mixture_at lhs W nc o f) as H by (apply mixture_pos; auto; lia). rewrite mixture_wrow, E in H by (auto; lia). discriminate H. }
    rewrite (gibbs_mass Hc Hx Hl Hv Hq), Eq, Ea, Em. rewrite <- cube_prod_div by auto.
    apply cube_prod_ext; auto. intros o f c Ho Hf Hcc. apply nth_posterior; auto.
Qed.
Theorem from_prior x src s : e_from_prior e = true -> x_clusters x = cl -> x_source x = Some src -> length src = n ->
  valid_source n nf nc s ->
  exists a, oprod (source_weights (map (map Some) W) s) = Some a /\
    mass (gibbs_source e x) {| x_clusters := cl; x_source := Some s |} == a.
Proof.
  intros Hp Hc Hx Hl Hv. destruct (prior_value Hv) as (a & Ha & Ea). exists a. split; auto.
  destruct (@rows_prob_value s wrow Hv) as (q & Hq & Eq).
  { intros o Ho. unfold source_probs. rewrite Hp. apply map_ext_in. intros f Hf. apply in_seq in Hf. apply wrow_some; auto. lia. }
  rewrite (gibbs_mass Hc Hx Hl Hv Hq), Eq, Ea. apply cube_prod_ext; auto. intros o f c Ho Hf Hcc. rewrite W_at by auto. reflexivity.
Qed.
Lemma prior_total : Qsum (map (fun s => match oprod (source_weights (map (map Some) W) s) with Some q => q | None => 0 end) (all_sources n nf nc)) == 1.
Proof.
  transitivity (Qsum (map (fun s => Qprod (mapi (fun o s_o => Qprod (mapi (fun f s_of => Qprod (mapi (fun c (x : bool) =>
      if x then wt W o f c else 1) s_of)) s_o)) s)) (all_sources n nf nc))).
  { apply Qsum_ext. intros s Hs. apply all_sources_complete in Hs. destruct (prior_value Hs) as (a & -> & E). exact E. }
  unfold all_sources, mapi at 1. rewrite sum_choices.
  rewrite (mapi_from_seq _ ([] : list (list (list bool)))), repeat_length.
  transitivity (Qprod (map (fun _ => 1) (seq 0 n))); [|generalize (seq 0 n); intros l; induction l; [reflexivity|]; rewrite map_cons, Qprod_cons, IHl; ring].
  apply Qprod_ext. intros o Ho. apply in_seq in Ho. rewrite nth_repeat_lt by lia. cbv beta. rewrite Nat.add_0_l.
  unfold mapi at 1. rewrite sum_choices.
  rewrite (mapi_from_seq _ ([] : list (list bool))), repeat_length.
  transitivity (Qprod (map (fun _ => 1) (seq 0 nf))); [|generalize (seq 0 nf); intros l; induction l; [reflexivity|]; rewrite map_cons, Qprod_cons, IHl; ring].
  apply Qprod_ext. intros f Hf. apply in_seq in Hf. rewrite nth_repeat_lt by lia. cbv beta. rewrite Nat.add_0_l.
  rewrite (@sum_one_hots (fun c => wt W o f c)).
  assert (Hof : (o < n)%nat /\ (f < nf)%nat) by (unfold nf in *; lia). destruct Hof as [Ho' Hf'].
  destruct (weight_row Hf') as [H1 H2]. assert (Hh : length (has_row e cl o) = length (nth f (e_weights e) [])) by (rewrite H1; apply has_row_length).
  destruct (normalize_row_distribution H2 Hh (wrow_some Ho' Hf')) as (_ & _ & Hs & _). rewrite <- Hs at 1.
  rewrite (list_as_map_seq (wrow o f) 0), wrow_length by auto. apply Qsum_ext. intros c _. rewrite W_at by auto. reflexivity.
Qed.
End G.
