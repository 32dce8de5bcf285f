(** Lemmas for the contributions of single clusters (C88). *)
From Verif Require Import M_cache S_cache L_state L_cache L_slow S_contrib.
Set Implicit Arguments.
Unset Strict Implicit.
Close Scope R_scope.
Close Scope Q_scope.
Open Scope nat_scope.

(** ** What is logged *)
Section Logged.
Variable M : mdl xf.

Lemma reachable_wf ok_eval ss : reachable (Fin 0) (Fin 1) M tracked_edit ok_eval ss ->
  Forall (fun s => pars_wf M (s_pars s)) ss.
Proof.
  intros R. induction R as [|ss o R IH H]; [constructor|].
  destruct o as [cl w ce cf src junk|i|i e|i c|i c|i]; cbn [do_op].
  - apply Forall_app; split; auto. constructor; [|constructor]. destruct H as (L1 & L2 & _).
    unfold pars_wf; simpl. conj; auto using gwf_new.
    + apply Forall_forall. intros x X. apply in_map_iff in X as (y & <- & _). apply gwf_new.
    + rewrite <- L2, map_map. reflexivity.
  - destruct (nth_error ss i) as [s|] eqn:E; auto. apply Forall_app; split; auto. constructor; [|constructor].
    rewrite Forall_forall in IH. apply (IH s). eapply nth_error_In; eauto.
  - apply Forall_upd; auto. intros s W. apply pars_wf_edit; auto.
  - apply Forall_upd; auto.
  - apply Forall_upd; auto.
  - apply Forall_upd; auto.
Qed.

Definition fixed (p q : pars) : Prop :=
  weights q = weights p /\ confounding_effects q = confounding_effects p /\ source q = None /\
  v_gv (clusters q) = v_gv (clusters p).

Lemma single_confs_inv es : Forall (@gwf effect) es -> forall c,
  confs_inv M c es (map (fun e => fresh_node (repeat (Fin 1) (length (v_value e))) [v_gv e]) es).
Proof.
  induction 1 as [|e es W F IH]; intros c; simpl; auto. split; auto.
  unfold conf_inv. simpl. conj; auto.
  - apply repeat_length.
  - left. split; auto. apply (minus_ones_clear [v_gv e]).
Qed.

Lemma contribution_correct p s junk c e : pars_wf M p -> Forall disjoint_groups (m_conf M) ->
  v_value (clusters p) <> [] -> fixed p (s_pars s) -> junk_fits M junk ->
  let r := contribution M junk c e s in
  let q := with_only [c] [e] p in
  fixed p (s_pars (fst r)) /\
  snd r = (log_lh M q, log_pr M q, xadd (log_lh M q) (log_pr M q)).
Proof.
  intros (Wc & We & Le & Wf & Lf) DC NE (F1 & F2 & F3 & F4) (J1 & J2) r q. subst r. unfold contribution.
  set (p1 := take_cluster c e (s_pars s)). set (s1 := {| s_pars := p1; s_cache := _ |}).
  destruct (likelihood M false s1) as [s2 obs] eqn:EL. destruct (prior M false s2) as [s3 t] eqn:EP. cbn [fst snd].
  assert (P2 : s_pars s2 = p1) by (change s2 with (fst (s2, obs)); rewrite <- EL; reflexivity).
  assert (P3 : s_pars s3 = p1) by (change s3 with (fst (s3, t)); rewrite <- EP; exact P2).
  split; [rewrite P3; unfold fixed, p1; simpl; auto|].
  assert (S1 : source p1 = None) by exact F3.
  enough (Eo : obs = spec_likelihood M q).
  enough (Et : t = spec_prior M q) by (unfold log_lh, log_pr; congruence).
  - (* prior *)
    assert (K2 : s_cache s2 = update_weights false p1 (set_comp (clear_cache (s_cache s1))
       (update_component_likelihoods M false p1 (k_comp (clear_cache (s_cache s1)))))) by (change s2 with (fst (s2, obs)); rewrite <- EL; reflexivity).
    destruct (update_weights_other false p1 (set_comp (clear_cache (s_cache s1))
       (update_component_likelihoods M false p1 (k_comp (clear_cache (s_cache s1)))))) as (_ & _ & _ & Kwp & Kcep & Kconf & _).
    rewrite <- K2 in Kwp, Kcep, Kconf.
    assert (ET : t = snd (prior M false s2)) by (rewrite EP; auto). rewrite ET. clear ET EP.
    unfold prior. cbn [snd]. rewrite P2, S1. cbv iota.
    unfold spec_prior. unfold eval_node at 1 2. cbn [andb update_value n_val].
    f_equal.
    + unfold eval_node. rewrite Kwp. cbn. rewrite F1. reflexivity.
    + unfold eval_node. rewrite Kcep. cbn. reflexivity.
    + rewrite Kconf. cbn [set_comp k_confp clear_cache s1 s_cache new_cache].
      assert (CI : confs_inv M 0 (confounding_effects p1) (map clear_node
         (map (fun e0 => fresh_node (repeat (Fin 1) (length (v_value e0))) [v_gv e0]) (confounding_effects p1)))).
      { apply confs_inv_clear. apply single_confs_inv. unfold p1; cbn [take_cluster confounding_effects]. rewrite F2. exact Wf. }
      destruct (@eval_confs_correct xf M false _ _ _ CI) as [E _].
      etransitivity; [exact E|]. unfold p1; cbn [take_cluster confounding_effects]. rewrite F2. reflexivity.
  - (* likelihood *)
    assert (EO : obs = snd (likelihood M false s1)) by (rewrite EL; auto). rewrite EO. clear EO EL EP.
    unfold likelihood. cbn [snd s_pars s1 s_cache]. rewrite S1. cbn [option_map].
    set (k := set_comp _ _). destruct (update_weights_other false p1 k) as (Kc & _). rewrite Kc.
    assert (WI : w_inv M p1 k).
    { split.
      - split; [eexists; reflexivity|apply node_inv_none; reflexivity].
      - apply node_inv_none; reflexivity. }
    destruct (update_weights_correct false WI) as [EW _]. rewrite EW. clear EW WI Kc.
    unfold spec_likelihood. cbn [q with_only source option_map].
    replace (spec_weights M q) with (spec_weights M p1)
      by (unfold spec_weights, p1, q; cbn; rewrite F1; reflexivity).
    f_equal. unfold k; cbn [set_comp k_comp clear_cache new_cache].
    unfold update_component_likelihoods. cbn [andb clear_node fresh_node n_val n_cgv gvs_comp map].
    destruct junk as [|out0 outs]; [discriminate|]. cbn [n_val update_value map].
    inversion J2 as [|? ? J3 J4]; subst. unfold spec_components. f_equal.
    + cbn [q p1 take_cluster with_only cluster_effect clusters spec_pop v_value new_pval].
      apply component_correct; auto.
      { intros o i j Hi Hj. apply in_group_lt in Hi, Hj. simpl in Hi, Hj. lia. }
      intros o i Hi N. exfalso. apply N. apply in_group_lt in Hi. simpl in Hi.
      assert (i = 0) by lia. subst i. apply in_union_changed. split; [simpl; lia|].
      right. apply in_what_changed. split; auto. cbn [spec_pop v_gv]. rewrite F4. destruct Wc as [Ec _].
      destruct (v_value (clusters p)); [congruence|]. simpl in Ec. lia.
    + cbn [q p1 take_cluster with_only confounding_effects]. rewrite F2.
      apply update_confs_correct. apply confs_ok_cleared; auto.
      * apply (f_equal (@length _)) in Lf. rewrite !map_length in Lf. rewrite !map_length. exact Lf.
      * rewrite map_map. apply Forall_forall. intros x X. apply in_map_iff in X as (y & <- & _).
        apply Forall_forall. intros z Z. symmetry; eapply repeat_spec; exact Z.
Qed.

Lemma contribution_loop_correct p cl ce junk : pars_wf M p -> Forall disjoint_groups (m_conf M) ->
  v_value (clusters p) <> [] -> (forall i, junk_fits M (junk i)) -> forall is s, fixed p (s_pars s) ->
  contribution_loop M junk cl ce is s =
  map (fun i => let q := with_only [nth i cl []] [nth i ce []] p in
                (log_lh M q, log_pr M q, xadd (log_lh M q) (log_pr M q))) is.
Proof.
  intros W DC NE J. induction is as [|i is IH]; intros s F; cbn [contribution_loop map]; auto.
  destruct (@contribution_correct p s (junk i) (nth i cl []) (nth i ce []) W DC NE F (J i)) as [F' E].
  destruct (contribution _ _ _ _ _) as [s' x]. cbn [fst snd] in F', E. cbv zeta. rewrite IH by auto. f_equal. exact E.
Qed.
End Logged.

(** ** Single objects *)
Section Objects.
Variable V : Type.
Variable M : mdl V.

Lemma mapi_nth A B (f : nat -> A -> B) d l : mapi f l = map (fun i => f i (nth i l d)) (seq 0 (length l)).
Proof.
  apply nth_error_ext. intros i. rewrite nth_error_mapi, nth_error_map.
  destruct (Nat.lt_ge_cases i (length l)) as [L|L].
  - rewrite (nth_error_nth' _ d L), (nth_error_nth' _ 0) by (rewrite seq_length; auto). rewrite seq_nth by auto. reflexivity.
  - rewrite !(proj2 (nth_error_None _ _)); auto. rewrite seq_length; auto.
Qed.

(** The two objects have the same share of the cluster component. *)
Definition same_cluster_effect (o : nat) (cl cl' : bmat) (ce ce' : list effect) : Prop :=
  match group_of cl o, group_of cl' o with
  | None, None => True
  | Some i, Some j => nth i ce [] = nth j ce' []
  | _, _ => False
  end.

Lemma obs_ext cl cl' ce ce' p o f : same_cluster_effect o cl cl' ce ce' ->
  obs_lh M (with_only cl ce p) o f = obs_lh M (with_only cl' ce' p) o f.
Proof.
  intros S. unfold obs_lh. cbn [with_only source].
  assert (EW : nth o (spec_weights M (with_only cl ce p)) [] = nth o (spec_weights M (with_only cl' ce' p)) []).
  { unfold spec_weights, normalize_weights, has_components. cbn [with_only clusters weights new_pval v_value].
    rewrite !map_map. destruct (Nat.lt_ge_cases o (length (m_features M))) as [L|L].
    2: { rewrite !nth_overflow; auto; rewrite map_length, seq_length; auto. }
    set (g := fun x : nat => map _ _). set (g' := fun x : nat => map _ _).
    rewrite (nth_indep _ [] (g 0)) by (rewrite map_length, seq_length; auto).
    rewrite (nth_indep (map g' _) [] (g' 0)) by (rewrite map_length, seq_length; auto).
    rewrite !map_nth, seq_nth by auto. unfold g, g'; cbn [plus map].
    replace (any_group cl o) with (any_group cl' o); [reflexivity|].
    rewrite !any_group_spec. unfold same_cluster_effect in S. destruct (group_of cl o), (group_of cl' o); tauto. }
  rewrite EW. destruct (nth f _ None) as [w|]; auto. cbn [option_map]. do 2 f_equal.
  rewrite !(mapi_nth _ 0%Q). apply map_ext. intros c. f_equal.
  unfold lh_at, spec_components. cbn [with_only clusters cluster_effect confounding_effects new_pval v_value].
  destruct c as [|c]; cbn [nth]; auto. f_equal. rewrite !nth_of_error, !nth_error_spec_component.
  unfold same_cluster_effect in S. destruct (group_of cl o), (group_of cl' o); try tauto. rewrite S. reflexivity.
Qed.

Lemma group_of_single c o : group_of [c] o = if nth o c false then Some 0 else None.
Proof. reflexivity. Qed.

Lemma group_of_none groups o : (forall i, nth o (nth i groups []) false = false) -> group_of groups o = None.
Proof.
  intros H. destruct (group_of groups o) as [i|] eqn:E; auto. apply group_of_in in E. rewrite H in E. discriminate.
Qed.

Lemma in_single p i o : disjoint_pars p -> in_cluster p o i ->
  same_cluster_effect o [nth i (v_value (clusters p)) []] (v_value (clusters p))
    [nth i (v_value (cluster_effect p)) []] (v_value (cluster_effect p)).
Proof.
  intros D H. unfold same_cluster_effect. rewrite group_of_single. unfold in_cluster in H. rewrite H.
  rewrite (@group_of_unique _ _ _ D H). reflexivity.
Qed.

Lemma out_single p i o cl : ~ in_cluster p o i -> group_of cl o = None -> forall ce,
  same_cluster_effect o [nth i (v_value (clusters p)) []] cl [nth i (v_value (cluster_effect p)) []] ce.
Proof.
  intros H N ce. unfold same_cluster_effect. rewrite group_of_single, N. unfold in_cluster in H.
  destruct (nth o _ false); auto.
Qed.
End Objects.

(** ** Sums *)
Lemma xsum_cons x l : xsum (x :: l) = xadd x (xsum l).
Proof. reflexivity. Qed.

Lemma log_sum_concat ls : log_sum (concat ls) = xsum (map log_sum ls).
Proof. induction ls as [|l ls IH]; auto. cbn [concat map]. rewrite log_sum_app, xsum_cons, IH. reflexivity. Qed.

Lemma xsum_map_add A (f g : A -> xf) l : xsum (map (fun x => xadd (f x) (g x)) l) = xadd (xsum (map f l)) (xsum (map g l)).
Proof.
  induction l as [|x l IH]; cbn [map]; [symmetry; apply xadd_0_l|]. rewrite !xsum_cons, IH.
  rewrite <- !xadd_assoc. f_equal. apply xadd_swap.
Qed.

Lemma xsum_swap A B (g : A -> B -> xf) l r :
  xsum (map (fun a => xsum (map (g a) r)) l) = xsum (map (fun b => xsum (map (fun a => g a b) l)) r).
Proof.
  induction l as [|a l IH]; cbn [map].
  - induction r as [|b r IHr]; auto. cbn [map]. rewrite xsum_cons, <- IHr. symmetry; apply xadd_0_l.
  - rewrite xsum_cons, IH, <- xsum_map_add. reflexivity.
Qed.

Lemma times_xsum n A (f : A -> xf) l : times n (xsum (map f l)) = xsum (map (fun x => times n (f x)) l).
Proof.
  induction n as [|n IH]; cbn [times].
  - induction l as [|x l IHl]; auto. cbn [map]. rewrite xsum_cons, <- IHl. symmetry; apply xadd_0_l.
  - rewrite IH, xsum_map_add. reflexivity.
Qed.

Lemma xsum_const A (f : A -> xf) l b : (forall x, In x l -> f x = b) -> xsum (map f l) = times (length l) b.
Proof.
  induction l as [|x l IH]; intros H; auto. cbn [map length times]. rewrite xsum_cons, IH, H; simpl; auto.
  intros; apply H; simpl; auto.
Qed.

Lemma xsum_one (f : nat -> xf) a b j l : NoDup l -> In j l -> f j = a -> (forall i, In i l -> i <> j -> f i = b) ->
  xsum (map f l) = xadd a (times (length l - 1) b).
Proof.
  induction l as [|x l IH]; intros N I Ha Hb; [destruct I|]. inversion N as [|? ? Nx Nl]; subst x0 l0.
  cbn [map length]. rewrite xsum_cons. replace (S (length l) - 1) with (length l) by lia.
  destruct (Nat.eq_dec x j) as [->|Ne].
  - rewrite Ha. f_equal. apply xsum_const. intros i Hi. apply Hb; simpl; auto. intros ->; auto.
  - destruct I as [I|I]; [congruence|]. rewrite IH; auto; [|intros; apply Hb; simpl; auto].
    rewrite (Hb x) by (simpl; auto). rewrite xadd_swap. f_equal.
    destruct l as [|y l]; [destruct I|]. cbn [length]. replace (S (length l) - 1) with (length l) by lia. reflexivity.
Qed.

Section Sum.
Variable M : mdl xf.

(** The log-likelihood of all observations of one object. *)
Definition object_lh (p : pars) (o : nat) : xf := log_sum (map (obs_lh M p o) (seq 0 (length (v_value (weights p))))).

Lemma log_lh_objects p : source p = None ->
  log_lh M p = xsum (map (object_lh p) (seq 0 (length (m_features M)))).
Proof.
  intros S. unfold log_lh, spec_likelihood. rewrite S. cbn [option_map get_observation_lhs]. unfold mixture_lhs.
  rewrite log_sum_concat. rewrite (mapi_nth _ []). rewrite map_map. f_equal.
  assert (L : length (spec_weights M p) = length (m_features M)).
  { unfold spec_weights, normalize_weights, has_components. rewrite !map_length, seq_length. reflexivity. }
  rewrite L. apply map_ext_in. intros o Ho. apply in_seq in Ho. unfold object_lh. f_equal.
  rewrite (mapi_nth _ None).
  assert (L' : length (nth o (spec_weights M p) []) = length (v_value (weights p))).
  { unfold spec_weights, normalize_weights, has_components.
    rewrite map_map. set (g := fun x : nat => map _ _). rewrite (nth_indep _ [] (g 0)) by (rewrite map_length, seq_length; lia).
    rewrite map_nth. unfold g. apply map_length. }
  rewrite L'. apply map_ext. intros f. unfold obs_lh. rewrite S. destruct (nth f _ None); reflexivity.
Qed.

Lemma contributions_sum p : disjoint_pars p -> v_value (clusters p) <> [] ->
  let K := length (v_value (clusters p)) in
  xsum (map (fun i => log_lh M (only_cluster i p)) (seq 0 K)) =
  xadd (log_lh M (all_clusters p)) (times (K - 1) (log_lh M (no_clusters p))).
Proof.
  intros D NE K.
  rewrite (map_ext _ (fun i => xsum (map (object_lh (only_cluster i p)) (seq 0 (length (m_features M)))))) by
    (intros; apply log_lh_objects; reflexivity).
  rewrite (@log_lh_objects (all_clusters p)), (@log_lh_objects (no_clusters p)) by reflexivity.
  rewrite (xsum_swap (fun i o => object_lh (only_cluster i p) o)), times_xsum, <- xsum_map_add.
  f_equal. apply map_ext. intros o. unfold object_lh. cbn [only_cluster all_clusters no_clusters with_only weights].
  set (W := seq 0 (length (v_value (weights p)))).
  assert (E : forall cl cl' ce ce', same_cluster_effect o cl cl' ce ce' ->
    log_sum (map (obs_lh M (with_only cl ce p) o) W) = log_sum (map (obs_lh M (with_only cl' ce' p) o) W)).
  { intros cl cl' ce ce' S. f_equal. apply map_ext. intros f. apply obs_ext; auto. }
  destruct (group_of (v_value (clusters p)) o) as [j|] eqn:G.
  - pose proof (@group_of_in _ _ _ G) as Gj. pose proof (@group_of_lt _ _ _ G) as Lj.
    rewrite (@xsum_one _ (log_sum (map (obs_lh M (all_clusters p) o) W)) (log_sum (map (obs_lh M (no_clusters p) o) W)) j).
    + rewrite seq_length. reflexivity.
    + apply seq_NoDup.
    + apply in_seq. fold K in Lj. lia.
    + apply E, in_single; auto.
    + intros i _ Ne. apply E, out_single; auto. intros Hi. apply Ne. eapply D; eauto.
  - rewrite (@xsum_const _ _ _ (log_sum (map (obs_lh M (no_clusters p) o) W))).
    + rewrite seq_length. unfold K. destruct (v_value (clusters p)) as [|c cl] eqn:EC; [congruence|].
      cbn [length]. replace (S (length cl) - 1) with (length cl) by lia. cbn [times]. f_equal.
      unfold all_clusters. apply E. unfold same_cluster_effect. rewrite EC, G. exact I.
    + intros i _. apply E, out_single; auto. intros Hi. rewrite (@group_of_unique _ _ _ D Hi) in G. discriminate.
Qed.
End Sum.

(** ** Isolation *)
Section Isolation.
Variable A : Type.

Lemma without_app (B : Type) n (l r : list B) : n < length l -> without n (l ++ r) = without n l ++ r.
Proof.
  intros L. unfold without. rewrite firstn_app, skipn_app.
  replace (n - length l) with 0 by lia. replace (S n - length l) with 0 by lia.
  simpl firstn. simpl (skipn 0 r). rewrite app_nil_r, app_assoc. reflexivity.
Qed.

Lemma without_map (B C : Type) (f : B -> C) n l : without n (map f l) = map f (without n l).
Proof. unfold without. rewrite map_app, firstn_map, skipn_map. reflexivity. Qed.

Lemma nth_error_without (B : Type) n : forall (l : list B) s, nth_error (without n l) s = nth_error l (if s <? n then s else S s).
Proof.
  unfold without. induction n as [|n IH]; intros l s.
  - simpl. destruct l; simpl; destruct s; reflexivity.
  - destruct l as [|x l]; [destruct (s <? S n); destruct s; reflexivity|].
    destruct s as [|s]; [reflexivity|]. specialize (IH l s). cbn [firstn skipn app nth_error].
    change (S s <? S n) with (s <? n). destruct (s <? n); exact IH.
Qed.

Lemma without_upd (B : Type) n (f : B -> B) : forall l s, without n (upd (if s <? n then s else S s) f l) = upd s f (without n l).
Proof.
  unfold without. induction n as [|n IH]; intros l s.
  - simpl. destruct l; [destruct s|]; reflexivity.
  - destruct l as [|x l]; [destruct (s <? S n); destruct s; reflexivity|].
    destruct s as [|s]; [reflexivity|]. specialize (IH l s). change (S s <? S n) with (s <? n).
    destruct (s <? n); cbn [upd firstn skipn app] in *; rewrite IH; reflexivity.
Qed.

Lemma without_upd_same (B : Type) n (f : B -> B) : forall l, without n (upd n f l) = without n l.
Proof.
  unfold without. induction n as [|n IH]; intros [|x l]; auto. cbn [upd firstn skipn app]. f_equal. apply IH.
Qed.

Lemma spec_sop_length ss (o : sop A) : length ss <= length (spec_sop ss o).
Proof.
  destruct o as [vs|s|s k o]; simpl.
  - rewrite app_length; lia.
  - destruct (nth_error ss s); rewrite ?app_length; lia.
  - rewrite upd_length; lia.
Qed.

Lemma renumbered_run n (ops : list (sop A)) : forall ss, n < length ss ->
  without n (fold_left (spec_sop (A:=A)) (map (@renumbered A n) ops) ss) =
  fold_left (spec_sop (A:=A)) ops (without n ss).
Proof.
  induction ops as [|o ops IH]; intros ss L; auto. cbn [map fold_left].
  rewrite IH by (eapply Nat.lt_le_trans; [exact L|apply spec_sop_length]). f_equal.
  destruct o as [vs|s|s k o]; cbn [renumbered spec_sop].
  - apply without_app; auto.
  - rewrite nth_error_without. destruct (nth_error ss _); auto. apply without_app; auto.
  - apply without_upd.
Qed.

Lemma log_ops_run (ops : list (sop A)) s rows : s < length (spec_run ops) ->
  let n := length (spec_run ops) in
  let ss := fold_left (spec_sop (A:=A)) (log_ops s n rows) (spec_run ops) in
  without n ss = spec_run ops /\ length ss = S n.
Proof.
  intros L. cbv zeta. set (ss0 := spec_run ops) in *. clearbody ss0. unfold log_ops. cbn [fold_left spec_sop].
  destruct (nth_error ss0 s) as [x|] eqn:E; [|apply nth_error_None in E; lia].
  assert (G : forall ss, without (length ss0) ss = ss0 /\ length ss = S (length ss0) ->
    let ss' := fold_left (spec_sop (A:=A)) (flat_map (fun '(c, e) => [SParam (length ss0) 0 (RawAssign [c]); SParam (length ss0) 2 (RawAssign [e])]) rows) ss in
    without (length ss0) ss' = ss0 /\ length ss' = S (length ss0)).
  { induction rows as [|[c e] rows IH]; intros ss H; auto. cbn [flat_map app fold_left spec_sop]. apply IH.
    rewrite !without_upd_same, !upd_length. exact H. }
  apply G. split.
  - unfold without. rewrite firstn_app, firstn_all, Nat.sub_diag, skipn_all2 by (rewrite app_length; simpl; lia).
    simpl. rewrite !app_nil_r. reflexivity.
  - rewrite app_length; simpl; lia.
Qed.

Lemma log_isolated (ops ops' : list (sop A)) s rows : s < length (spec_run ops) ->
  let n := length (spec_run ops) in
  without n (spec_run (ops ++ log_ops s n rows ++ map (@renumbered A n) ops')) = spec_run (ops ++ ops').
Proof.
  intros L n. destruct (@log_ops_run ops s rows L) as [H1 H2]. fold n in H1, H2.
  unfold spec_run in *. rewrite !fold_left_app. fold (spec_run ops) in *.
  rewrite renumbered_run by (unfold spec_run in H2 |- *; lia). f_equal. exact H1.
Qed.
End Isolation.
