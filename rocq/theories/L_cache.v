(** Proofs for C03, C04, C06, C07. *)
From Verif Require Import M_cache S_cache.
Set Implicit Arguments.
Open Scope nat_scope.

(** ** Generic facts *)

Definition vers_le (a b : list Z) : Prop := Forall2 Z.le a b.

Lemma vers_le_refl a : vers_le a a.
Proof. induction a; constructor; auto; lia. Qed.
Lemma vers_le_trans a b c : vers_le a b -> vers_le b c -> vers_le a c.
Proof.
  intros H; revert c; induction H; intros c K; inversion K; subst; constructor; auto; try lia.
  apply IHForall2; auto.
Qed.
Lemma vers_le_antisym a b : vers_le a b -> vers_le b a -> a = b.
Proof. intros H; induction H; intros K; inversion K; subst; auto. f_equal; auto; lia. Qed.

Lemma is_outdated_false T (n : node T) v : is_outdated n v = false -> n_ver n = Some v.
Proof.
  unfold is_outdated. destruct (n_ver n) as [u|]; [|discriminate].
  destruct (list_eq_dec Z.eq_dec u v); [congruence|discriminate].
Qed.

Definition node_inv T (n : node T) (vers : list Z) (x : T) : Prop :=
  match n_ver n with None => True | Some v => vers_le v vers /\ (v = vers -> n_val n = x) end.

Lemma node_inv_adv T (n : node T) vers vers' x x' : node_inv n vers x ->
  vers_le vers vers' -> (vers = vers' -> x = x') -> node_inv n vers' x'.
Proof.
  unfold node_inv. destruct (n_ver n) as [v|]; auto. intros [L E] L' E'. split.
  - eapply vers_le_trans; eauto.
  - intros ->. assert (vers = vers') by (apply vers_le_antisym; auto). subst. rewrite <- E'; auto.
Qed.

Lemma node_inv_update T (x : T) vers c : node_inv (update_value x vers c) vers x.
Proof. split; simpl; auto. apply vers_le_refl. Qed.

Lemma node_inv_none T (n : node T) vers x : n_ver n = None -> node_inv n vers x.
Proof. unfold node_inv; intros ->; auto. Qed.

Lemma node_inv_val T (n : node T) vers x : node_inv n vers x -> is_outdated n vers = false -> n_val n = x.
Proof. intros I O. apply is_outdated_false in O. unfold node_inv in I; rewrite O in I. apply I; auto. Qed.

(** A parameter after some completed modifications. *)
Definition adv A (x x' : pval A) : Prop :=
  (v_version x <= v_version x')%Z /\ (v_version x = v_version x' -> v_value x = v_value x').

Lemma adv_refl A (x : pval A) : adv x x.
Proof. split; auto; lia. Qed.

Lemma adv_pop A (o : pop A) x : completed o -> adv x (spec_pop o x).
Proof.
  destruct o; simpl; try tauto; intros _; try destruct (_ <? _)%nat; split; simpl; auto; lia.
Qed.

(** ** Components of the likelihood *)

Lemma group_of_in groups o i : group_of groups o = Some i -> nth o (nth i groups []) false = true.
Proof. intros H. apply find_some in H. tauto. Qed.

Lemma group_of_lt groups o i : group_of groups o = Some i -> i < length groups.
Proof. intros H. apply find_some in H as [H _]. apply in_seq in H; lia. Qed.

Lemma in_group_lt groups o i : nth o (nth i groups []) false = true -> i < length groups.
Proof.
  intros H. destruct (Nat.lt_ge_cases i (length groups)); auto.
  rewrite (nth_overflow groups) in H by auto. destruct o; discriminate.
Qed.

Lemma group_of_unique groups o i : disjoint_groups groups ->
  nth o (nth i groups []) false = true -> group_of groups o = Some i.
Proof.
  intros D H. destruct (group_of groups o) as [j|] eqn:E.
  - f_equal. apply group_of_in in E. eapply D; eauto.
  - unfold group_of in E. pose proof (find_none _ _ E i) as N; simpl in N.
    rewrite H in N. discriminate N. apply in_seq. pose proof (@in_group_lt _ _ _ H); lia.
Qed.

Lemma any_group_spec groups o : any_group groups o = match group_of groups o with Some _ => true | None => false end.
Proof.
  unfold any_group. destruct (group_of groups o) as [i|] eqn:E.
  - apply existsb_exists. exists (nth i groups []). split.
    + apply nth_In. eapply group_of_lt; eauto.
    + eapply group_of_in; eauto.
  - destruct (existsb _ groups) eqn:X; auto. apply existsb_exists in X as (g & I & G).
    apply In_nth with (d := []) in I as (i & L & <-).
    pose proof (find_none _ _ E i) as N; simpl in N. rewrite N in G; [discriminate|].
    apply in_seq; lia.
Qed.

Section Component.
Variables (nf : nat) (features : cube) (probs : list effect) (groups : bmat).
Hypothesis len : length probs = length groups.
Hypothesis dis : disjoint_groups groups.

Definition na_cells (o : nat) (row : list Q) : list Q :=
  map2 (fun (na : bool) v => if na then 1%Q else v) (na_row (nth o features [])) row.

Lemma na_cells_idem o row : na_cells o (na_cells o row) = na_cells o row.
Proof.
  unfold na_cells. generalize (na_row (nth o features [])) as l. clear. intros l; revert row.
  induction l as [|b l IH]; intros [|x row]; simpl; auto. rewrite IH. destruct b; reflexivity.
Qed.

Lemma nth_error_set_na out o : length out = length features ->
  nth_error (set_na features out) o = option_map (na_cells o) (nth_error out o).
Proof.
  intros L. unfold set_na, na_cells. rewrite nth_error_map2.
  destruct (nth_error features o) as [f|] eqn:F.
  - rewrite (nth_error_nth _ _ [] F). destruct (nth_error out o); reflexivity.
  - apply nth_error_None in F. rewrite <- L in F. apply nth_error_None in F. rewrite F; reflexivity.
Qed.

Lemma set_na_length out : length out = length features -> length (set_na features out) = length features.
Proof. intros L. unfold set_na. rewrite map2_length, L. apply Nat.min_id. Qed.

Lemma nth_error_spec_component o :
  nth_error (spec_component nf features probs groups) o =
  option_map (fun _ => na_cells o match group_of groups o with
                                  | None => repeat 0%Q nf
                                  | Some i => einsum_row (nth o features []) (nth i probs [])
                                  end) (nth_error features o).
Proof.
  unfold spec_component. rewrite nth_error_mapi. destruct (nth_error features o) as [f|] eqn:F; simpl; auto.
  unfold na_cells. rewrite (nth_error_nth _ _ [] F); reflexivity.
Qed.

Lemma update_group_length out i : length (update_group features probs groups out i) = length out.
Proof.
  unfold update_group. destruct (nth_error groups i), (nth_error probs i); auto. apply mapi_length.
Qed.

Lemma fold_update_length changed : forall out,
  length (fold_left (update_group features probs groups) changed out) = length out.
Proof. induction changed; intros; simpl; auto. rewrite IHchanged; apply update_group_length. Qed.

Lemma update_group_row out i o :
  nth_error (update_group features probs groups out i) o =
  if nth o (nth i groups []) false
  then option_map (fun _ => einsum_row (nth o features []) (nth i probs [])) (nth_error out o)
  else nth_error out o.
Proof.
  unfold update_group. destruct (nth_error groups i) as [g|] eqn:G.
  - rewrite (nth_error_nth _ _ [] G). destruct (nth_error probs i) as [p|] eqn:P.
    + replace (nth i probs []) with p by (symmetry; apply nth_error_nth; exact P). rewrite nth_error_mapi.
      destruct (nth o g false), (nth_error out o); reflexivity.
    + apply nth_error_None in P. apply nth_error_Some_lt in G. lia.
  - apply nth_error_None in G. rewrite (nth_overflow groups) by auto.
    destruct o; reflexivity.
Qed.

Lemma fold_update_row changed : forall out o,
  nth_error (fold_left (update_group features probs groups) changed out) o =
  match group_of groups o with
  | None => nth_error out o
  | Some i => if existsb (Nat.eqb i) changed
              then option_map (fun _ => einsum_row (nth o features []) (nth i probs [])) (nth_error out o)
              else nth_error out o
  end.
Proof.
  induction changed as [|j r IH]; intros out o.
  - simpl. destruct (group_of groups o); reflexivity.
  - cbn [fold_left existsb]. rewrite IH, update_group_row.
    destruct (group_of groups o) as [i|] eqn:E.
    + destruct (nth o (nth j groups []) false) eqn:J.
      * rewrite (@group_of_unique _ _ _ dis J) in E. injection E as <-. rewrite Nat.eqb_refl; simpl.
        destruct (nth_error out o); simpl; destruct (existsb _ r); reflexivity.
      * destruct (Nat.eqb_spec i j) as [->|n]; simpl; auto.
        rewrite (@group_of_in _ _ _ E) in J; discriminate.
    + destruct (nth o (nth j groups []) false) eqn:J; auto.
      rewrite (@group_of_unique _ _ _ dis J) in E; discriminate.
Qed.

Lemma component_correct changed out : length out = length features ->
  (forall o i, nth o (nth i groups []) false = true -> ~ In i changed ->
     nth_error (set_na features out) o = nth_error (spec_component nf features probs groups) o) ->
  set_na features (compute_component_likelihood nf features probs groups changed out) =
  spec_component nf features probs groups.
Proof.
  intros L H. apply nth_error_ext; intros o. unfold compute_component_likelihood.
  rewrite nth_error_set_na by (rewrite fold_update_length, mapi_length; auto).
  rewrite fold_update_row, !nth_error_mapi, any_group_spec.
  rewrite nth_error_spec_component.
  assert (X : nth_error features o = None -> nth_error out o = None).
  { intros N. apply nth_error_None. apply nth_error_None in N. lia. }
  assert (Y : nth_error features o <> None -> nth_error out o <> None).
  { intros N. apply nth_error_Some. apply nth_error_Some in N. lia. }
  destruct (group_of groups o) as [i|] eqn:E.
  - destruct (existsb (Nat.eqb i) changed) eqn:C.
    + destruct (nth_error features o) eqn:F; [|rewrite X; auto].
      destruct (nth_error out o) eqn:O; [|exfalso; apply Y; congruence]. reflexivity.
    + assert (N : ~ In i changed).
      { intros I. assert (existsb (Nat.eqb i) changed = true); [|congruence].
        apply existsb_exists. exists i; split; auto. apply Nat.eqb_refl. }
      specialize (H o i (@group_of_in _ _ _ E) N).
      rewrite nth_error_set_na, nth_error_spec_component, E in H by auto.
      destruct (nth_error out o); simpl in *; auto.
  - destruct (nth_error features o) eqn:F; [|rewrite X; auto].
    destruct (nth_error out o) eqn:O; [|exfalso; apply Y; congruence]. reflexivity.
Qed.

Lemma spec_component_length : length (spec_component nf features probs groups) = length features.
Proof. apply mapi_length. Qed.

Lemma compute_length changed out :
  length (compute_component_likelihood nf features probs groups changed out) = length out.
Proof. unfold compute_component_likelihood. rewrite fold_update_length, mapi_length; auto. Qed.

Lemma set_na_spec : set_na features (spec_component nf features probs groups)
                  = spec_component nf features probs groups.
Proof.
  apply nth_error_ext; intros o. rewrite nth_error_set_na by apply spec_component_length.
  rewrite nth_error_spec_component. destruct (nth_error features o); simpl; auto.
  rewrite na_cells_idem; auto.
Qed.
End Component.

(** ** Grouped parameters and their snapshots *)

Definition gwf A (x : pval A) : Prop :=
  length (v_gv x) = length (v_value x) /\ Forall (fun z => 0 <= z <= v_version x)%Z (v_gv x).

(** [x0] is an earlier state of [x]. *)
Definition snap A (x0 x : pval A) : Prop :=
  gwf x0 /\ gwf x /\ length (v_value x0) = length (v_value x) /\
  (v_version x0 <= v_version x)%Z /\
  (v_version x0 = v_version x -> v_value x0 = v_value x) /\
  (forall g, nth g (v_gv x0) (-1)%Z = nth g (v_gv x) (-1)%Z ->
             nth_error (v_value x0) g = nth_error (v_value x) g).

Lemma snap_refl A (x : pval A) : gwf x -> snap x x.
Proof. intros W. repeat split; auto; try apply W; try lia. Qed.

Lemma gwf_new A (v : list A) : gwf (new_pval v).
Proof.
  split; simpl; [apply repeat_length|]. apply Forall_forall. intros z Z; apply repeat_spec in Z; lia.
Qed.

Lemma Forall_upd A (P : A -> Prop) f l i : Forall P l -> (forall x, P x -> P (f x)) -> Forall P (upd i f l).
Proof.
  intros F H; revert i; induction F; intros [|i]; simpl; constructor; auto.
Qed.

Lemma gwf_group_op A (o : pop A) x : group_op o -> gwf x -> gwf (spec_pop o x).
Proof.
  intros G [L F].
  assert (K : forall g f, gwf (if (g <? length (v_value x))%nat then
        {| v_value := upd g f (v_value x); v_version := v_version x + 1;
           v_gv := upd g (fun _ => v_version x + 1)%Z (v_gv x) |} else x)%Z).
  { intros g f. destruct (Nat.ltb_spec g (length (v_value x))); [|split; auto].
    split; simpl; [rewrite !upd_length; auto|].
    assert (F' : Forall (fun z => 0 <= z <= v_version x + 1)%Z (v_gv x))
      by (eapply Forall_impl; [|exact F]; simpl; intros; lia).
    destruct (Nat.lt_ge_cases g (length (v_gv x))); [|rewrite upd_out; auto].
    assert (0 <= v_version x)%Z.
    { destruct (v_gv x) as [|z r]; simpl in *; [lia|]. inversion F; subst; lia. }
    apply Forall_upd; auto. intros; lia. }
  destruct o; simpl in *; try tauto; apply K.
Qed.

Lemma nth_error_nth_some A (l : list A) i d x : nth_error l i = Some x -> nth i l d = x.
Proof. intros; apply nth_error_nth; auto. Qed.

Lemma nth_of_error A (l : list A) i d : nth i l d = match nth_error l i with Some x => x | None => d end.
Proof.
  destruct (nth_error l i) eqn:E; [apply nth_error_nth; auto|].
  apply nth_overflow, nth_error_None; auto.
Qed.

Lemma gv_le A (x : pval A) g : gwf x -> (g < length (v_gv x))%nat ->
  (0 <= nth g (v_gv x) (-1) <= v_version x)%Z.
Proof.
  intros [_ F] L. rewrite Forall_forall in F. apply F, nth_In; auto.
Qed.

Lemma snap_group_op A (o : pop A) x0 x : group_op o -> snap x0 x -> snap x0 (spec_pop o x).
Proof.
  intros G S. pose proof S as (W0 & W & L & LV & EQ & GV).
  pose proof (@gwf_group_op _ _ _ G W) as W'.
  assert (K : forall g f,
    let x' := if (g <? length (v_value x))%nat then
        {| v_value := upd g f (v_value x); v_version := (v_version x + 1)%Z;
           v_gv := upd g (fun _ => v_version x + 1)%Z (v_gv x) |} else x in
    gwf x' -> snap x0 x').
  { intros g f. destruct (Nat.ltb_spec g (length (v_value x))) as [Lg|]; cbv zeta; [|auto].
    intros Wn. split; [|split; [|split; [|split; [|split]]]]; simpl; auto.
    - rewrite upd_length; auto.
    - lia.
    - lia.
    - intros h E. rewrite nth_error_upd. destruct (Nat.eqb_spec g h) as [<-|n].
      + exfalso. rewrite (nth_of_error (upd _ _ _)), nth_error_upd_same in E.
        assert (Lg' : (g < length (v_gv x))%nat) by (destruct W; lia).
        destruct (nth_error (v_gv x) g) eqn:Eg; [|apply nth_error_None in Eg; lia]. simpl in E.
        assert (g < length (v_gv x0))%nat by (destruct W0; lia).
        pose proof (@gv_le _ _ _ W0 H). lia.
      + apply GV. rewrite E. rewrite !nth_of_error, nth_error_upd_other; auto. }
  destruct o; simpl in *; try tauto; apply K; auto.
Qed.

Lemma in_what_changed caching c gv g :
  In g (what_changed caching c gv) <->
  (g < length gv)%nat /\ (caching = false \/ nth g c (-1)%Z <> nth g gv (-1)%Z).
Proof.
  unfold what_changed. rewrite filter_In, in_seq, orb_true_iff, !negb_true_iff, Z.eqb_neq.
  destruct caching; intuition lia.
Qed.

Lemma all_minus_one c g : Forall (eq (-1)%Z) c -> nth g c (-1)%Z = (-1)%Z.
Proof.
  intros F. rewrite nth_of_error. destruct (nth_error c g) eqn:E; auto.
  rewrite Forall_forall in F. symmetry; apply F. eapply nth_error_In; eauto.
Qed.

Lemma cleared_changed A caching c (x : pval A) g : gwf x -> Forall (eq (-1)%Z) c ->
  (g < length (v_value x))%nat -> In g (what_changed caching c (v_gv x)).
Proof.
  intros W F L. apply in_what_changed. destruct W as [E W]. split; [lia|right].
  rewrite all_minus_one by auto. assert (Lg : (g < length (v_gv x))%nat) by lia.
  pose proof (@gv_le _ _ _ (conj E W) Lg). lia.
Qed.

Lemma snap_changed A caching (x0 x : pval A) g : snap x0 x ->
  ~ In g (what_changed caching (v_gv x0) (v_gv x)) -> (g < length (v_value x))%nat ->
  nth_error (v_value x0) g = nth_error (v_value x) g.
Proof.
  intros (W0 & W & L & LV & EQ & GV) N Lg. apply GV.
  destruct (Z.eq_dec (nth g (v_gv x0) (-1)) (nth g (v_gv x) (-1)))%Z; auto.
  exfalso; apply N, in_what_changed. destruct W; split; [lia|auto].
Qed.

Lemma uncached_changed A c (x : pval A) g : gwf x -> (g < length (v_value x))%nat ->
  In g (what_changed false c (v_gv x)).
Proof. intros [E W] L. apply in_what_changed. split; [lia|auto]. Qed.

Lemma in_union_changed n a b g : In g (union_changed n a b) <-> (g < n)%nat /\ (In g a \/ In g b).
Proof.
  unfold union_changed. rewrite filter_In, in_seq, orb_true_iff.
  assert (E : forall l, existsb (Nat.eqb g) l = true <-> In g l).
  { intros l; rewrite existsb_exists. split.
    - intros (x & I & X). apply Nat.eqb_eq in X; subst; auto.
    - intros I; exists g; split; auto. apply Nat.eqb_refl. }
  rewrite !E. intuition lia.
Qed.

(** ** The whole model *)

Section Model.
Variable V : Type.
Variable v_zero v_one : V.
Variable M : mdl V.
Notation nf := (m_nfeatures M).
Notation feats := (m_features M).

Definition minus_ones (l : list (list Z)) : Prop := Forall (Forall (eq (-1)%Z)) l.

Lemma minus_ones_clear (l : list (list Z)) : minus_ones (map (fun l => outdated_group_version (length l)) l).
Proof.
  apply Forall_forall. intros x X. apply in_map_iff in X as (y & <- & _).
  apply Forall_forall. intros z Z. symmetry; eapply repeat_spec; eauto.
Qed.

(** Shapes of the tracked parameters. *)
Definition pars_wf (p : pars) : Prop :=
  gwf (clusters p) /\ gwf (cluster_effect p) /\
  length (v_value (cluster_effect p)) = length (v_value (clusters p)) /\
  Forall (@gwf effect) (confounding_effects p) /\
  map (fun e => length (v_value e)) (confounding_effects p) = map (@length _) (m_conf M).

Definition pars_snap (p0 p : pars) : Prop :=
  snap (clusters p0) (clusters p) /\ snap (cluster_effect p0) (cluster_effect p) /\
  Forall2 (@snap effect) (confounding_effects p0) (confounding_effects p).

Definition comp_inv (p : pars) (n : node (list lhmat)) : Prop :=
  length (n_val n) = S (length (m_conf M)) /\
  Forall (fun m => length m = length feats) (n_val n) /\
  length (n_cgv n) = S (S (length (m_conf M))) /\
  ((n_ver n = None /\ minus_ones (n_cgv n)) \/
   exists p0, pars_wf p0 /\ pars_snap p0 p /\ disjoint_pars p0 /\
     n_val n = spec_components M p0 /\ n_ver n = Some (ver_comp p0) /\ n_cgv n = gvs_comp p0).

Lemma Forall2_len A B (R : A -> B -> Prop) l r : Forall2 R l r -> length l = length r.
Proof. intros H; induction H; simpl; auto. Qed.

(** Ready for an update of the confounder components. *)
Fixpoint confs_ok (caching : bool) (groups : list bmat) (effs : list (pval effect))
    (cgvs : list (list Z)) (outs : list lhmat) : Prop :=
  match groups, effs, cgvs, outs with
  | [], [], [], [] => True
  | g :: gs, e :: es, c :: cs, out :: os =>
      disjoint_groups g /\ length (v_value e) = length g /\ length out = length feats /\
      (forall o i, nth o (nth i g []) false = true -> ~ In i (what_changed caching c (v_gv e)) ->
         nth_error (set_na feats out) o = nth_error (spec_component nf feats (v_value e) g) o) /\
      confs_ok caching gs es cs os
  | _, _, _, _ => False
  end.

Lemma update_confs_correct caching groups : forall effs cgvs outs,
  confs_ok caching groups effs cgvs outs ->
  map (set_na feats) (update_confs M caching groups effs cgvs outs) =
  map2 (fun g e => spec_component nf feats (v_value e) g) groups effs.
Proof.
  induction groups as [|g gs IH]; intros [|e es] [|c cs] [|out os] H; simpl in *; auto; try tauto.
  destruct H as (D & L & Lo & H & R). f_equal; auto. apply component_correct; auto.
Qed.

Lemma confs_ok_cleared caching groups : forall effs cgvs outs,
  Forall disjoint_groups groups -> Forall (@gwf effect) effs ->
  map (fun e => length (v_value e)) effs = map (@length _) groups ->
  length cgvs = length groups -> length outs = length groups ->
  Forall (fun m => length m = length feats) outs -> minus_ones cgvs ->
  confs_ok caching groups effs cgvs outs.
Proof.
  induction groups as [|g gs IH]; intros [|e es] [|c cs] [|out os] D W L Lc Lo Fo Mi; simpl in *;
    try discriminate; auto.
  inversion D; inversion W; inversion Fo; inversion Mi; subst. injection L as L1 L2.
  conj; auto. intros o i I N. exfalso; apply N. apply cleared_changed; auto.
  rewrite L1. eapply in_group_lt; eauto.
Qed.

Lemma spec_component_same g probs probs0 : length probs = length g -> length probs0 = length g ->
  disjoint_groups g -> forall o i, nth o (nth i g []) false = true ->
  nth_error probs0 i = nth_error probs i ->
  nth_error (spec_component nf feats probs0 g) o = nth_error (spec_component nf feats probs g) o.
Proof.
  intros L L0 D o i I E. rewrite !nth_error_spec_component.
  rewrite (@group_of_unique _ _ _ D I). destruct (nth_error feats o); simpl; auto.
  rewrite !nth_of_error, E. reflexivity.
Qed.

Lemma confs_ok_snap caching groups : forall effs0 effs,
  Forall disjoint_groups groups -> Forall2 (@snap effect) effs0 effs ->
  map (fun e => length (v_value e)) effs = map (@length _) groups ->
  confs_ok caching groups effs (map (@v_gv effect) effs0)
    (map2 (fun g e => spec_component nf feats (v_value e) g) groups effs0).
Proof.
  induction groups as [|g gs IH]; intros effs0 effs D S L; destruct S as [|e0 e es0 es S Ss];
    simpl in *; try discriminate; auto.
  inversion D; subst. injection L as L1 L2.
  assert (L0 : length (v_value e0) = length g) by (destruct S as (_ & _ & X & _); lia).
  conj; auto.
  - apply spec_component_length.
  - intros o i I N. rewrite set_na_spec. apply spec_component_same with (i := i); auto.
    eapply snap_changed; eauto. rewrite L1. eapply in_group_lt; eauto.
Qed.

Lemma confs_ok_uncached groups : forall effs cgvs outs,
  Forall disjoint_groups groups -> Forall (@gwf effect) effs ->
  map (fun e => length (v_value e)) effs = map (@length _) groups ->
  length cgvs = length groups -> length outs = length groups ->
  Forall (fun m => length m = length feats) outs ->
  confs_ok false groups effs cgvs outs.
Proof.
  induction groups as [|g gs IH]; intros [|e es] [|c cs] [|out os] D W L Lc Lo Fo; simpl in *;
    try discriminate; auto.
  inversion D; inversion W; inversion Fo; subst. injection L as L1 L2.
  conj; auto. intros o i I N. exfalso; apply N. apply uncached_changed; auto.
  rewrite L1. eapply in_group_lt; eauto.
Qed.

Lemma map2_len_eq A B C (f : A -> B -> C) l r : length l = length r -> length (map2 f l r) = length l.
Proof. intros H; rewrite map2_length, <- H; apply Nat.min_id. Qed.

Lemma spec_components_shape p : pars_wf p ->
  length (spec_components M p) = S (length (m_conf M)) /\
  Forall (fun m => length m = length feats) (spec_components M p).
Proof.
  intros (_ & _ & _ & _ & E). split; simpl.
  - rewrite map2_len_eq; auto. apply (f_equal (@length _)) in E. rewrite !map_length in E; auto.
  - constructor; [apply spec_component_length|].
    apply Forall_forall. intros m I. revert I. generalize (m_conf M) (confounding_effects p).
    induction l as [|g gs IH]; intros [|e es]; simpl; try tauto.
    intros [<-|I]; [apply spec_component_length|eauto].
Qed.

Lemma snap_version_eq A (x0 x : pval A) : snap x0 x -> v_version x0 = v_version x -> v_value x0 = v_value x.
Proof. intros (_ & _ & _ & _ & E & _); auto. Qed.

Lemma conf_snap_eq l0 l : Forall2 (@snap effect) l0 l ->
  map (@v_version effect) l0 = map (@v_version effect) l -> map (@v_value effect) l0 = map (@v_value effect) l.
Proof.
  intros F; induction F; simpl; auto. intros [= E1 E2]. f_equal; auto. apply snap_version_eq; auto.
Qed.

Lemma map2_map_r A B C D (f : A -> C -> D) (h : B -> C) l r :
  map2 (fun a b => f a (h b)) l r = map2 f l (map h r).
Proof. revert r; induction l; intros [|y r]; simpl; auto. f_equal; auto. Qed.

Lemma update_comp_correct caching p n : Forall disjoint_groups (m_conf M) -> pars_wf p ->
  disjoint_pars p -> comp_inv p n ->
  n_val (update_component_likelihoods M caching p n) = spec_components M p /\
  comp_inv p (update_component_likelihoods M caching p n).
Proof.
  intros DC W D I. pose proof W as (Wc & We & Le & Wf & Lf).
  pose proof I as (Lv & Fv & Lg & Cases). unfold update_component_likelihoods.
  destruct (caching && negb (is_outdated n (ver_comp p))) eqn:O.
  - (* cached value is returned *)
    apply andb_prop in O as [_ O]. apply negb_true_iff, is_outdated_false in O.
    destruct Cases as [[N _]|(p0 & W0 & (S1 & S2 & S3) & D0 & E1 & E2 & E3)]; [congruence|].
    split; [|exact I].
    rewrite O in E2. injection E2 as V1 V2 V3. rewrite E1. unfold spec_components. f_equal.
    + rewrite (snap_version_eq S1), (snap_version_eq S2); auto.
    + rewrite (map2_map_r (fun g v => spec_component nf feats v g) (@v_value effect) _ (confounding_effects p0)).
      rewrite (map2_map_r (fun g v => spec_component nf feats v g) (@v_value effect) _ (confounding_effects p)).
      rewrite (conf_snap_eq S3); auto.
  - clear O. destruct (n_val n) as [|out0 outs] eqn:Ev; [discriminate|].
    destruct (n_cgv n) as [|c_cl [|c_ce c_cf]] eqn:Eg; try discriminate.
    cbv zeta. simpl n_val. simpl in Lv, Lg. injection Lv as Lv. injection Lg as Lg.
    inversion Fv as [|? ? Fv0 Fvs]; subst.
    set (changed := union_changed _ _ _).
    assert (Val : map (set_na feats)
      (compute_component_likelihood nf feats (v_value (cluster_effect p)) (v_value (clusters p)) changed out0
       :: update_confs M caching (m_conf M) (confounding_effects p) c_cf outs) = spec_components M p).
    { unfold spec_components. simpl map. f_equal.
      - apply component_correct; auto. intros o i Io No.
        assert (Li : (i < length (v_value (clusters p)))%nat) by (eapply in_group_lt; eauto).
        destruct Cases as [[_ Mi]|(p0 & W0 & (S1 & S2 & S3) & D0 & E1 & _ & E3)].
        + exfalso. apply No, in_union_changed. split; auto. right.
          inversion Mi; subst. apply cleared_changed; auto.
        + injection E3 as -> -> ->. unfold spec_components in E1. injection E1 as E1 _.
          assert (N1 : ~ In i (what_changed caching (v_gv (clusters p0)) (v_gv (clusters p)))).
          { intros X; apply No, in_union_changed; auto. }
          assert (N2 : ~ In i (what_changed caching (v_gv (cluster_effect p0)) (v_gv (cluster_effect p)))).
          { intros X; apply No, in_union_changed; auto. }
          apply (@snap_changed _ _ _ _ _ S1) in N1; [|auto]. apply (@snap_changed _ _ _ _ _ S2) in N2; [|lia].
          rewrite E1, set_na_spec, !nth_error_spec_component.
          assert (I0 : nth o (nth i (v_value (clusters p0)) []) false = true).
          { rewrite (nth_of_error (v_value (clusters p0))), N1, <- nth_of_error; auto. }
          rewrite (@group_of_unique _ _ _ D Io), (@group_of_unique _ _ _ D0 I0).
          destruct (nth_error feats o); simpl; auto. rewrite !nth_of_error, N2; auto.
      - apply update_confs_correct.
        destruct Cases as [[_ Mi]|(p0 & W0 & (S1 & S2 & S3) & D0 & E1 & _ & E3)].
        + inversion Mi as [|? ? _ Mi']; subst. inversion Mi'; subst. apply confs_ok_cleared; auto.
        + injection E3 as -> -> ->. unfold spec_components in E1. injection E1 as _ E1.
          rewrite E1. apply confs_ok_snap; auto. }
    split; [exact Val|]. unfold comp_inv. rewrite Val. simpl n_val. simpl n_ver. simpl n_cgv.
    destruct (spec_components_shape W) as [Sh1 Sh2].
    split; [auto|split; [auto|split]].
    + unfold gvs_comp; simpl. rewrite map_length. apply (f_equal (@length _)) in Lf. rewrite !map_length in Lf. do 2 f_equal; exact Lf.
    + right. exists p. split; auto. split; [|auto].
      split; [apply snap_refl; auto|split; [apply snap_refl; auto|]].
      clear - Wf. induction Wf; constructor; auto. apply snap_refl; auto.
Qed.

(** *** edits *)

Lemma pars_wf_edit e p : tracked_edit e -> pars_wf p -> pars_wf (do_edit_pars e p).
Proof.
  intros T (Wc & We & Le & Wf & Lf).
  assert (LEN : forall A (o : pop A) x, group_op o -> length (v_value (spec_pop o x)) = length (v_value x)).
  { intros A o x G; destruct o; simpl in *; try tauto; destruct (_ <? _)%nat; simpl; rewrite ?upd_length; auto. }
  destruct e as [o|o|o|c o|o]; simpl in *; unfold pars_wf; simpl; conj; auto.
  - apply gwf_group_op; auto.
  - rewrite LEN; auto.
  - apply gwf_group_op; auto.
  - rewrite LEN; auto.
  - apply Forall_upd; auto. intros; apply gwf_group_op; auto.
  - rewrite <- Lf. rewrite map_upd with (h := fun n => n); [apply upd_id; auto|].
    intros; apply LEN; auto.
Qed.

Lemma Forall2_upd_r A B (R : A -> B -> Prop) f l r i : Forall2 R l r ->
  (forall a b, R a b -> R a (f b)) -> Forall2 R l (upd i f r).
Proof. intros F H; revert i; induction F; intros [|i]; simpl; constructor; auto. Qed.

Lemma pars_snap_edit e p0 p : tracked_edit e -> pars_snap p0 p -> pars_snap p0 (do_edit_pars e p).
Proof.
  intros T (S1 & S2 & S3). destruct e as [o|o|o|c o|o]; simpl in *; unfold pars_snap; simpl; conj; auto.
  - apply snap_group_op; auto.
  - apply snap_group_op; auto.
  - apply Forall2_upd_r; auto. intros; apply snap_group_op; auto.
Qed.

Lemma comp_inv_edit e p n : tracked_edit e -> comp_inv p n -> comp_inv (do_edit_pars e p) n.
Proof.
  intros T (L1 & L2 & L3 & [C|(p0 & W0 & S & D & E)]); (split; [auto|split; [auto|split; [auto|]]]); auto.
  right. exists p0. split; auto. split; auto. apply pars_snap_edit; auto.
Qed.

Lemma comp_inv_clear p n : comp_inv p n -> comp_inv p (clear_node n).
Proof.
  intros (L1 & L2 & L3 & _). split; [auto|split; [auto|split]].
  - simpl. rewrite map_length; auto.
  - left; split; auto. apply minus_ones_clear.
Qed.

(** *** weights *)

Definition hc_inv (p : pars) (n : node (list (list bool))) : Prop :=
  (exists cl, n_val n = has_components cl (m_conf M) (length feats)) /\
  node_inv n (ver_hc p) (has_components (v_value (clusters p)) (m_conf M) (length feats)).

Lemma hc_value_correct p n : hc_inv p n ->
  n_val (hc_value p n) = has_components (v_value (clusters p)) (m_conf M) (length feats) /\
  hc_inv p (hc_value p n).
Proof.
  intros [[cl E] I]. unfold hc_value. destruct (is_outdated n (ver_hc p)) eqn:O.
  - assert (Val : mapi (fun o row => match row with
                       | [] => []
                       | _ :: r => any_group (v_value (clusters p)) o :: r
                       end) (n_val n) = has_components (v_value (clusters p)) (m_conf M) (length feats)).
    { rewrite E. unfold has_components. apply nth_error_ext; intros o.
      rewrite nth_error_mapi, !nth_error_map.
      destruct (Nat.lt_ge_cases o (length feats)) as [L|L].
      - rewrite (nth_error_nth' _ 0) by (rewrite seq_length; auto). rewrite seq_nth by auto. reflexivity.
      - rewrite (proj2 (nth_error_None _ _)) by (rewrite seq_length; auto). reflexivity. }
    split; [exact Val|]. split; simpl.
    + exists (v_value (clusters p)); auto.
    + split; simpl; [apply vers_le_refl|auto].
  - split; [apply (@node_inv_val _ _ _ _ I O)|]. split; eauto.
Qed.

Definition w_inv (p : pars) (k : cache V) : Prop :=
  hc_inv p (k_hc k) /\ node_inv (k_wn k) (ver_wn p) (spec_weights M p).

Lemma update_weights_correct caching p k : w_inv p k ->
  n_val (k_wn (update_weights caching p k)) = spec_weights M p /\
  w_inv p (update_weights caching p k).
Proof.
  intros [H I]. unfold update_weights.
  destruct (negb caching || is_outdated (k_wn k) (ver_wn p)) eqn:O.
  - destruct (hc_value_correct H) as [E H']. simpl. rewrite E. split; [reflexivity|]. split; simpl; auto.
    apply node_inv_update.
  - apply orb_false_iff in O as [_ O]. split; [apply (@node_inv_val _ _ _ _ I O)|split; auto].
Qed.

Lemma update_weights_other caching p (k : cache V) : let k' := update_weights caching p k in
  k_comp k' = k_comp k /\ k_size k' = k_size k /\ k_geo k' = k_geo k /\ k_wp k' = k_wp k /\
  k_cep k' = k_cep k /\ k_confp k' = k_confp k /\ k_srcp k' = k_srcp k.
Proof. unfold update_weights. destruct (_ || _); simpl; auto 10. Qed.

(** *** priors *)

Definition pnode_inv (p : pars) (k : cache V) : Prop :=
  node_inv (k_size k) (ver_size p) (size_fn M (v_value (clusters p))) /\
  node_inv (k_wp k) (ver_wp p) (weights_fn M (v_value (weights p))) /\
  node_inv (k_cep k) (ver_cep p) (ce_fn M (v_value (cluster_effect p))) /\
  match source p with
  | None => True
  | Some s => node_inv (k_srcp k) (ver_srcp p) (src_fn M (source_weights (spec_weights M p) (v_value s)))
  end.

Definition conf_inv (c : nat) (e : pval effect) (n : node (list V)) : Prop :=
  gwf e /\ length (n_val n) = length (v_value e) /\ length (n_cgv n) = 1 /\
  ((n_ver n = None /\ minus_ones (n_cgv n)) \/
   exists e0, snap e0 e /\ n_val n = mapi (conf_fn M c) (v_value e0) /\
     n_ver n = Some (ver_conf e0) /\ n_cgv n = [v_gv e0]).

Fixpoint confs_inv (c : nat) (es : list (pval effect)) (ns : list (node (list V))) : Prop :=
  match es, ns with
  | [], [] => True
  | e :: es', n :: ns' => conf_inv c e n /\ confs_inv (S c) es' ns'
  | _, _ => False
  end.

Lemma eval_node_correct caching (n : node V) vers x : node_inv n vers x ->
  n_val (eval_node caching n vers x) = x /\ node_inv (eval_node caching n vers x) vers x.
Proof.
  intros I. unfold eval_node. destruct (caching && negb (is_outdated n vers)) eqn:O.
  - apply andb_prop in O as [_ O]. apply negb_true_iff in O. split; auto. apply (@node_inv_val _ _ _ _ I O).
  - split; [reflexivity|apply node_inv_update].
Qed.

Lemma existsb_In g l : existsb (Nat.eqb g) l = true <-> In g l.
Proof.
  rewrite existsb_exists. split.
  - intros (x & I & X). apply Nat.eqb_eq in X; subst; auto.
  - intros I; exists g; split; auto. apply Nat.eqb_refl.
Qed.

Lemma eval_conf_correct caching c e n : conf_inv c e n ->
  n_val (eval_conf M caching c e n) = mapi (conf_fn M c) (v_value e) /\
  conf_inv c e (eval_conf M caching c e n).
Proof.
  intros I. pose proof I as (W & L & Lc & Cases). unfold eval_conf.
  destruct (caching && negb (is_outdated n (ver_conf e))) eqn:O.
  - apply andb_prop in O as [_ O]. apply negb_true_iff, is_outdated_false in O.
    destruct Cases as [[N _]|(e0 & S & E1 & E2 & E3)]; [congruence|]. split; auto.
    rewrite O in E2. injection E2 as E2. rewrite E1, (snap_version_eq S); auto.
  - clear O. simpl n_val. cbv zeta.
    assert (Val : mapi (fun g x => if existsb (Nat.eqb g) (what_changed caching (nth 0 (n_cgv n) []) (v_gv e))
               then match nth_error (v_value e) g with Some row => conf_fn M c g row | None => x end
               else x) (n_val n) = mapi (conf_fn M c) (v_value e)).
    { apply nth_error_ext; intros g. rewrite !nth_error_mapi.
      destruct (nth_error (v_value e) g) as [row|] eqn:R; simpl.
      2: { apply nth_error_None in R. rewrite <- L in R. apply nth_error_None in R. rewrite R; reflexivity. }
      pose proof (@nth_error_Some_lt _ _ _ _ R) as Lg.
      destruct (nth_error (n_val n) g) as [x|] eqn:X; simpl; [|apply nth_error_None in X; lia].
      destruct (existsb (Nat.eqb g) _) eqn:C; [reflexivity|].
      assert (N : ~ In g (what_changed caching (nth 0 (n_cgv n) []) (v_gv e))).
      { intros H; apply existsb_In in H; congruence. }
      destruct Cases as [[_ Mi]|(e0 & S & E1 & E2 & E3)].
      + exfalso; apply N, cleared_changed; auto.
        destruct (n_cgv n); [constructor|inversion Mi; auto].
      + rewrite E3 in N. simpl in N. apply (@snap_changed _ _ _ _ _ S) in N; [|auto].
        rewrite E1, nth_error_mapi, N, R in X. simpl in X. congruence. }
    split; [exact Val|]. unfold conf_inv. rewrite Val. simpl.
    split; [auto|split; [apply mapi_length|split; [auto|right]]]. exists e. auto using snap_refl.
Qed.

Lemma eval_confs_correct caching es : forall c ns, confs_inv c es ns ->
  map (@n_val _) (eval_confs M caching c es ns) =
  mapi_from c (fun c e => mapi (fun g row => conf_fn M c g row) (v_value e)) es /\
  confs_inv c es (eval_confs M caching c es ns).
Proof.
  induction es as [|e es IH]; intros c [|n ns] H; simpl in *; auto; try tauto.
  destruct H as [H1 H2]. destruct (IH _ _ H2). destruct (eval_conf_correct caching H1). split; auto.
  f_equal; auto.
Qed.

Definition sample_inv (ok_comp : bool) (s : sample V) : Prop :=
  let p := s_pars s in let k := s_cache s in
  (ok_comp = true -> pars_wf p /\ comp_inv p (k_comp k)) /\
  w_inv p k /\ pnode_inv p k /\ confs_inv 0 (confounding_effects p) (k_confp k).

Lemma likelihood_correct caching s : Forall disjoint_groups (m_conf M) ->
  sample_inv true s -> disjoint_pars (s_pars s) ->
  snd (likelihood M caching s) = spec_likelihood M (s_pars s).
Proof.
  intros DC (C & W & _) D. destruct (C eq_refl) as [Wf CI]. unfold likelihood; simpl.
  set (k0 := if caching then s_cache s else clear_cache (s_cache s)).
  set (k1 := set_comp k0 _).
  assert (CI0 : comp_inv (s_pars s) (k_comp k0)).
  { unfold k0; destruct caching; simpl; auto. apply comp_inv_clear; auto. }
  assert (W1 : w_inv (s_pars s) k1).
  { unfold k1, k0. destruct W as [[H1 H2] W]. destruct caching; split; simpl; auto.
    - split; auto.
    - split; auto. apply node_inv_none; reflexivity.
    - apply node_inv_none; reflexivity. }
  unfold spec_likelihood. f_equal.
  - destruct (update_weights_other caching (s_pars s) k1) as (-> & _).
    apply (update_comp_correct caching DC Wf D CI0).
  - apply (update_weights_correct caching W1).
Qed.

Lemma confs_inv_clear es : forall c ns, confs_inv c es ns -> confs_inv c es (map clear_node ns).
Proof.
  induction es as [|e es IH]; intros c [|n ns] H; simpl in *; auto.
  destruct H as [(W & L & Lc & _) H2]. split; auto.
  split; [auto|split; [auto|split]]; [simpl; rewrite map_length; auto|].
  left; split; auto. apply minus_ones_clear.
Qed.

Lemma clear_inv ok p k : sample_inv ok {| s_pars := p; s_cache := k |} ->
  sample_inv ok {| s_pars := p; s_cache := clear_cache k |}.
Proof.
  intros (C & [[H1 H2] W] & (P1 & P2 & P3 & P4) & Cf). split; [|split; [|split]]; simpl in *.
  - intros E; destruct (C E); split; auto. apply comp_inv_clear; auto.
  - split; [split|]; auto using node_inv_none.
  - unfold pnode_inv; simpl; conj; auto using node_inv_none.
  - apply confs_inv_clear; auto.
Qed.

Lemma likelihood_inv ok caching s : (ok = true -> Forall disjoint_groups (m_conf M) /\ disjoint_pars (s_pars s)) ->
  sample_inv ok s -> sample_inv ok (fst (likelihood M caching s)).
Proof.
  intros D I. unfold likelihood; simpl.
  set (k0 := if caching then s_cache s else clear_cache (s_cache s)).
  set (k1 := set_comp k0 _).
  assert (I0 : sample_inv ok {| s_pars := s_pars s; s_cache := k0 |}).
  { unfold k0; destruct caching; [destruct s; auto|]. apply clear_inv. destruct s; auto. }
  destruct I0 as (C & W & P & Cf). simpl in *.
  destruct (update_weights_other caching (s_pars s) k1) as (E1 & E2 & E3 & E4 & E5 & E6 & E7).
  split; [|split; [|split]]; simpl.
  - intros E. destruct (C E) as [Wf CI]. destruct (D E) as [DC DP]. split; auto. rewrite E1.
    apply (update_comp_correct caching DC Wf DP CI).
  - apply update_weights_correct. exact W.
  - unfold pnode_inv in *. rewrite E2, E4, E5, E7. exact P.
  - rewrite E6. exact Cf.
Qed.

Lemma prior_correct ok caching s : sample_inv ok s ->
  same_but_geo (snd (prior M caching s)) (spec_prior M (s_pars s)) /\
  sample_inv ok (fst (prior M caching s)).
Proof.
  intros (C & W & (P1 & P2 & P3 & P4) & Cf). unfold prior. simpl in *.
  destruct (@eval_node_correct caching _ _ _ P1) as [V1 I1].
  destruct (@eval_node_correct true _ _ _ P2) as [V2 I2].
  destruct (@eval_node_correct true _ _ _ P3) as [V3 I3].
  destruct (@eval_confs_correct caching _ _ _ Cf) as [V4 I4].
  set (n_size := eval_node caching (k_size (s_cache s)) _ _) in *.
  set (n_geo := eval_node caching (k_geo (s_cache s)) _ _) in *.
  set (n_wp := eval_node true (k_wp (s_cache s)) _ _) in *.
  set (n_cep := eval_node true (k_cep (s_cache s)) _ _) in *.
  set (n_confp := eval_confs M caching 0 _ _) in *.
  set (k1 := {| k_comp := k_comp (s_cache s); k_wn := k_wn (s_cache s); k_hc := k_hc (s_cache s);
                k_size := n_size; k_geo := n_geo; k_wp := n_wp; k_cep := n_cep; k_confp := n_confp;
                k_srcp := k_srcp (s_cache s) |}).
  assert (Wk : w_inv (s_pars s) k1) by exact W.
  destruct (source (s_pars s)) as [src|] eqn:Es.
  - destruct (caching && negb (is_outdated (k_srcp (s_cache s)) (ver_srcp (s_pars s)))) eqn:O.
    + apply andb_prop in O as [_ O]. apply negb_true_iff in O. split.
      * unfold same_but_geo; conj; simpl; auto. rewrite Es; simpl. f_equal. apply (@node_inv_val _ _ _ _ P4 O).
      * split; [exact C|split; [exact Wk|split; [|exact I4]]]. unfold pnode_inv; simpl. rewrite Es.
        split; [exact I1|split; [exact I2|split; [exact I3|exact P4]]].
    + destruct (update_weights_correct true Wk) as [Vw Iw].
      destruct (update_weights_other true (s_pars s) k1) as (E1 & E2 & E3 & E4 & E5 & E6 & E7).
      split.
      * unfold same_but_geo; conj; simpl; auto. rewrite Es; simpl. rewrite Vw; reflexivity.
      * split; simpl; [rewrite E1; exact C|split; [exact Iw|split; [|rewrite E6; exact I4]]].
        unfold pnode_inv; simpl. rewrite Es, E2, E4, E5.
        split; [exact I1|split; [exact I2|split; [exact I3|]]].
        rewrite Vw. apply node_inv_update.
  - split.
    + unfold same_but_geo; conj; simpl; auto. rewrite Es; reflexivity.
    + split; [exact C|split; [exact Wk|split; [|exact I4]]]. unfold pnode_inv; simpl. rewrite Es.
      split; [exact I1|split; [exact I2|split; [exact I3|auto]]].
Qed.

(** *** all steps *)

Lemma adv_ver1 A (x x' : pval A) : adv x x' -> vers_le [v_version x] [v_version x'].
Proof. intros [L _]; repeat constructor; auto. Qed.

Lemma edit_adv e p : prior_edit e -> let p' := do_edit_pars e p in
  adv (clusters p) (clusters p') /\ adv (weights p) (weights p') /\
  adv (cluster_effect p) (cluster_effect p') /\
  match source p, source p' with None, None => True | Some s, Some s' => adv s s' | _, _ => False end.
Proof.
  assert (R : match source p, source p with None, None => True | Some s, Some s' => adv s s' | _, _ => False end).
  { destruct (source p); auto using adv_refl. }
  destruct e as [o|o|o|c o|o]; simpl; intros H; conj; auto using adv_refl, adv_pop.
  destruct (source p); simpl; auto using adv_pop.
Qed.

Lemma conf_inv_edit c e n o : group_op o -> conf_inv c e n -> conf_inv c (spec_pop o e) n.
Proof.
  intros G (W & L & Lc & H). split; [apply gwf_group_op; auto|split; [|split; [auto|]]].
  - rewrite L. destruct o; simpl in *; try tauto; destruct (_ <? _)%nat; simpl; rewrite ?upd_length; auto.
  - destruct H as [H|(e0 & S & H)]; [left; auto|right; exists e0; split; auto].
    apply snap_group_op; auto.
Qed.

Lemma confs_inv_edit o : group_op o -> forall es c ns i, confs_inv c es ns -> confs_inv c (upd i (spec_pop o) es) ns.
Proof.
  intros G es; induction es as [|e es IH]; intros c [|n ns] [|i] H; simpl in *; auto; try tauto.
  - destruct H; split; auto. apply conf_inv_edit; auto.
  - destruct H; split; auto.
Qed.

Lemma edit_inv ok e p k : prior_edit e -> (ok = true -> tracked_edit e) ->
  sample_inv ok {| s_pars := p; s_cache := k |} ->
  sample_inv ok {| s_pars := do_edit_pars e p; s_cache := k |}.
Proof.
  intros PE TE (C & [[Hcl H2] W] & (P1 & P2 & P3 & P4) & Cf).
  destruct (@edit_adv e p PE) as (A1 & A2 & A3 & A4). simpl in *.
  set (p' := do_edit_pars e p) in *.
  split; [|split; [|split]]; simpl.
  - intros E; destruct (C E) as [Wf CI]. split; [apply pars_wf_edit|apply comp_inv_edit]; auto.
  - split; [split|]; auto.
    + eapply node_inv_adv; [exact H2|apply adv_ver1; auto|].
      unfold ver_hc; intros [= E]. destruct A1 as [_ A1]. rewrite A1; auto.
    + eapply node_inv_adv; [exact W| |].
      * destruct A1, A2. repeat constructor; auto.
      * unfold ver_wn; intros [= E1 E2]. unfold spec_weights. destruct A1 as [_ A1], A2 as [_ A2].
        rewrite A1, A2; auto.
  - split; [|split; [|split]].
    + eapply node_inv_adv; [exact P1|apply adv_ver1; auto|].
      unfold ver_size; intros [= E]. destruct A1 as [_ A1]. rewrite A1; auto.
    + eapply node_inv_adv; [exact P2|apply adv_ver1; auto|].
      unfold ver_wp; intros [= E]. destruct A2 as [_ A2]. rewrite A2; auto.
    + eapply node_inv_adv; [exact P3|apply adv_ver1; auto|].
      unfold ver_cep; intros [= E]. destruct A3 as [_ A3]. rewrite A3; auto.
    + destruct (source p) as [s0|] eqn:S0; destruct (source p') as [s1|] eqn:S1; try tauto.
      eapply node_inv_adv; [exact P4| |].
      * unfold ver_srcp; rewrite S0, S1. destruct A1, A2, A4. repeat constructor; auto.
      * unfold ver_srcp; rewrite S0, S1. unfold ver_wn; intros [= E1 E2 E3].
        unfold spec_weights. destruct A1 as [_ A1], A2 as [_ A2], A4 as [_ A4].
        rewrite A1, A2, A4; auto.
  - unfold p'. destruct e; simpl in *; auto. apply confs_inv_edit; auto.
Qed.

Lemma confs_inv_new cf : forall c, confs_inv c (map (@new_pval effect) cf)
  (map (fun e => fresh_node (repeat v_one (length (v_value e))) [v_gv e]) (map (@new_pval effect) cf)).
Proof.
  induction cf as [|v cf IH]; intros c; simpl; auto. split; auto.
  split; [apply gwf_new|split; [apply repeat_length|split; [reflexivity|]]].
  left; split; auto. constructor; [|constructor]. apply Forall_forall.
  intros z Z. symmetry; eapply repeat_spec; eauto.
Qed.

Lemma new_inv ok cl w ce cf src junk : shapes_ok M cl ce cf junk ->
  sample_inv ok (new_sample v_zero v_one M cl w ce cf src junk).
Proof.
  intros (L1 & L2 & L3 & L4). split; [|split; [|split]]; simpl.
  - intros _. split.
    + split; [apply gwf_new|split; [apply gwf_new|split; [auto|split]]].
      * simpl. apply Forall_forall. intros x X. apply in_map_iff in X as (y & <- & _). apply gwf_new.
      * simpl. rewrite map_map. simpl. exact L2.
    + split; [auto|split; [auto|split]]; simpl.
      * rewrite !map_length. apply (f_equal (@length _)) in L2. rewrite !map_length in L2. auto.
      * left; split; auto. apply (minus_ones_clear (_ :: _ :: _)).
  - split; [split|]; simpl.
    + exists cl; reflexivity.
    + apply node_inv_none; reflexivity.
    + apply node_inv_none; reflexivity.
  - unfold pnode_inv; simpl. conj; try (apply node_inv_none; reflexivity).
    destruct src; simpl; auto. apply node_inv_none; reflexivity.
  - apply confs_inv_new.
Qed.

Lemma copy_inv ok s : sample_inv ok s -> sample_inv ok (copy_sample v_zero M s).
Proof.
  intros (C & [H W] & (P1 & P2 & P3 & P4) & Cf). split; [|split; [|split]]; simpl; auto.
  - split; [split|]; simpl; auto.
    + eexists; reflexivity.
    + apply node_inv_none; reflexivity.
  - split; [|split; [|split]]; auto. destruct (source (s_pars s)); auto. apply node_inv_none; reflexivity.
Qed.

Lemma Forall_upd_at A (P : A -> Prop) f l i : Forall P l ->
  (forall x, nth_error l i = Some x -> P x -> P (f x)) -> Forall P (upd i f l).
Proof.
  intros F; revert i; induction F; intros [|i] H'; simpl; constructor; auto.
Qed.

Lemma reachable_inv (ok : bool) (ok_edit : edit -> Prop) (ok_eval : pars -> Prop) ss :
  (forall e, ok_edit e -> prior_edit e /\ (ok = true -> tracked_edit e)) ->
  (ok = true -> Forall disjoint_groups (m_conf M) /\ forall p, ok_eval p -> disjoint_pars p) ->
  reachable v_zero v_one M ok_edit ok_eval ss -> Forall (sample_inv ok) ss.
Proof.
  intros HE HV R; induction R as [|ss o R IH H]; [constructor|].
  destruct o as [cl w ce cf src junk|i|i e|i c|i c|i]; cbn [do_op].
  - apply Forall_app; split; auto. constructor; [|constructor]. apply new_inv; auto.
  - destruct (nth_error ss i) as [s|] eqn:E; auto.
    apply Forall_app; split; auto. constructor; [|constructor]. apply copy_inv.
    rewrite Forall_forall in IH. apply IH. eapply nth_error_In; eauto.
  - apply Forall_upd_at; auto. intros s _ I. destruct (HE e H). apply edit_inv; auto.
  - apply Forall_upd_at; auto. intros s E I. apply likelihood_inv; auto.
    intros K. destruct (HV K) as [H1 H2]. split; auto.
  - apply Forall_upd_at; auto. intros s _ I. apply prior_correct; auto.
  - apply Forall_upd_at; auto. intros s _ I. apply clear_inv. destruct s; auto.
Qed.

Lemma tracked_prior e : tracked_edit e -> prior_edit e.
Proof. destruct e as [o|o|o|c o|o]; simpl; auto; destruct o; simpl; tauto. Qed.

Theorem cached_likelihood_fresh ss i s caching :
  Forall disjoint_groups (m_conf M) ->
  reachable v_zero v_one M tracked_edit disjoint_pars ss -> nth_error ss i = Some s ->
  disjoint_pars (s_pars s) ->
  snd (likelihood M caching s) = spec_likelihood M (s_pars s).
Proof.
  intros DC R E D. apply likelihood_correct; auto.
  assert (F : Forall (sample_inv true) ss).
  { eapply reachable_inv; [| |exact R]; auto. intros e T; split; auto. apply tracked_prior; auto. }
  rewrite Forall_forall in F. apply F. eapply nth_error_In; eauto.
Qed.

Theorem cached_prior_fresh ss i s caching :
  reachable v_zero v_one M prior_edit (fun _ => True) ss -> nth_error ss i = Some s ->
  same_but_geo (snd (prior M caching s)) (spec_prior M (s_pars s)).
Proof.
  intros R E. apply prior_correct with (ok := false).
  assert (F : Forall (sample_inv false) ss).
  { eapply reachable_inv; [| |exact R]; auto; try discriminate. intros e T; split; auto. discriminate. }
  rewrite Forall_forall in F. apply F. eapply nth_error_In; eauto.
Qed.

(** ** The geo-prior node *)

Lemma geo_uncached s : t_geo (snd (prior M false s)) = geo_fn M (v_value (clusters (s_pars s))).
Proof. reflexivity. Qed.

Lemma geo_cleared s : t_geo (snd (prior M true {| s_pars := s_pars s; s_cache := clear_cache (s_cache s) |}))
                    = geo_fn M (v_value (clusters (s_pars s))).
Proof. reflexivity. Qed.

Lemma prior_geo_node caching (s : sample V) :
  k_geo (s_cache (fst (prior M caching s))) =
  eval_node caching (k_geo (s_cache s)) [] (geo_fn M (v_value (clusters (s_pars s)))).
Proof.
  unfold prior; simpl. destruct (source (s_pars s)); [|reflexivity].
  destruct (caching && _); [reflexivity|]. simpl.
  match goal with |- context [update_weights true ?p ?k] =>
    destruct (update_weights_other true p k) as (_ & _ & -> & _) end.
  reflexivity.
Qed.

Definition geo_frozen (g : V) (s : sample V) : Prop :=
  n_ver (k_geo (s_cache s)) = Some [] /\ n_val (k_geo (s_cache s)) = g.

Lemma geo_frozen_value g s : geo_frozen g s -> t_geo (snd (prior M true s)) = g.
Proof.
  intros [E1 E2]. unfold prior; simpl. unfold eval_node, is_outdated, ver_geo. rewrite E1; simpl. exact E2.
Qed.

Lemma geo_after_prior caching s : geo_frozen (t_geo (snd (prior M caching s))) (fst (prior M caching s)).
Proof.
  unfold geo_frozen. rewrite prior_geo_node.
  assert (E : t_geo (snd (prior M caching s)) =
              n_val (eval_node caching (k_geo (s_cache s)) [] (geo_fn M (v_value (clusters (s_pars s))))))
    by reflexivity.
  rewrite E. split; auto. unfold eval_node.
  destruct (caching && negb (is_outdated (k_geo (s_cache s)) [])) eqn:O; [|reflexivity].
  apply andb_prop in O as [_ O]. apply negb_true_iff, is_outdated_false in O. exact O.
Qed.

Lemma geo_frozen_step g o ss i s : chain_op o -> nth_error ss i = Some s -> geo_frozen g s ->
  exists s', nth_error (do_op v_zero v_one M ss o) i = Some s' /\ geo_frozen g s'.
Proof.
  intros C E F.
  assert (K : forall r, nth_error (ss ++ r) i = Some s).
  { intros r. rewrite nth_error_app1; auto. eapply nth_error_Some_lt; eauto. }
  assert (U : forall j f, (forall s, geo_frozen g s -> geo_frozen g (f s)) ->
     exists s', nth_error (upd j f ss) i = Some s' /\ geo_frozen g s').
  { intros j f H. rewrite nth_error_upd, E. destruct (j =? i); simpl; eauto. }
  destruct o as [cl w ce cf src junk|j|j e|j c|j c|j]; cbn [do_op chain_op] in *; try tauto.
  - exists s; auto.
  - destruct (nth_error ss j); eauto.
  - apply U. intros x X; exact X.
  - subst c. apply U. intros x [X1 X2]. unfold likelihood; cbn [fst].
    unfold geo_frozen; cbn [s_cache].
    match goal with |- context [update_weights true ?p ?k] =>
      destruct (update_weights_other true p k) as (_ & _ & -> & _) end.
    split; auto.
  - subst c. apply U. intros x X. rewrite <- (geo_frozen_value X). apply geo_after_prior.
Qed.

Lemma geo_frozen_run g ops : forall ss i s, Forall chain_op ops -> nth_error ss i = Some s -> geo_frozen g s ->
  exists s', nth_error (fold_left (do_op v_zero v_one M) ops ss) i = Some s' /\ geo_frozen g s'.
Proof.
  induction ops as [|o r IH]; intros ss i s C E F; simpl; [eauto|].
  inversion C; subst. edestruct geo_frozen_step as (s' & E' & F'); eauto.
Qed.

(** Once evaluated, the geo-prior of a sample does not change any more in a chain. *)
Lemma geo_prior_frozen ss i s caching ops s' : nth_error ss i = Some s -> Forall chain_op ops ->
  nth_error (fold_left (do_op v_zero v_one M) ops (do_op v_zero v_one M ss (OPrior i caching))) i = Some s' ->
  t_geo (snd (prior M true s')) = t_geo (snd (prior M caching s)).
Proof.
  intros E C E'. destruct (@geo_frozen_run (t_geo (snd (prior M caching s))) ops
    (do_op v_zero v_one M ss (OPrior i caching)) i (fst (prior M caching s))) as (s2 & E2 & F2); auto.
  - cbn [do_op]. rewrite nth_error_upd_same, E. reflexivity.
  - apply geo_after_prior.
  - rewrite E2 in E'. injection E' as <-. apply geo_frozen_value; auto.
Qed.

Lemma group_edit_seen ss i e s0 s caching :
  Forall disjoint_groups (m_conf M) ->
  reachable v_zero v_one M tracked_edit disjoint_pars ss -> tracked_edit e ->
  nth_error ss i = Some s0 -> nth_error (do_op v_zero v_one M ss (OEdit i e)) i = Some s ->
  disjoint_pars (do_edit_pars e (s_pars s0)) ->
  snd (likelihood M caching s) = spec_likelihood M (do_edit_pars e (s_pars s0)).
Proof.
  intros DC R T E0 E D.
  assert (S : s_pars s = do_edit_pars e (s_pars s0)).
  { simpl in E. rewrite nth_error_upd_same, E0 in E. injection E as <-. reflexivity. }
  rewrite <- S in *. eapply cached_likelihood_fresh; [exact DC| |exact E|exact D].
  apply reach_step; auto.
Qed.

End Model.
