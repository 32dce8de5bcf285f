(** Lemmas for C26. *)
From Verif Require Import M_source S_source S_model L_model L_cache L_operators L_reverse L_gibbsish L_gibbsish2 L_params.
From Coq Require Import Lqa.
Set Implicit Arguments.
Unset Strict Implicit.
Open Scope Q_scope.

(** * What a proposal does to the sources *)
Lemma any_group_upd cl z f i : (forall c, nth_error cl z = Some c -> nth i (f c) false = nth i c false) ->
  any_group (upd z f cl) i = any_group cl i.
Proof.
  unfold any_group. revert z. induction cl as [|c cl IH]; intros [|z] H; simpl; auto.
  - rewrite (H c); auto.
  - rewrite IH; auto.
Qed.
Lemma any_group_set cl z b a i : i <> a -> any_group (upd z (upd a (fun _ => b)) cl) i = any_group cl i.
Proof. intros H. apply any_group_upd. intros c _. apply L_operators.nth_upd_other; auto. Qed.

Lemma xor_unchanged : forall (l r : list bool) i, length l = length r -> ~ In i (nonzero (map2 xorb l r)) -> nth i r false = nth i l false.
Proof.
  intros l r i Hl Hi. destruct (Nat.lt_ge_cases i (length l)) as [Hlt|Hge].
  - assert (E : nth_error (map2 xorb l r) i <> Some true) by (rewrite <- in_nonzero; auto).
    rewrite nth_error_map2, (nth_error_nth' l false), (nth_error_nth' r false) in E by lia.
    destruct (nth i l false), (nth i r false); simpl in E; congruence.
  - rewrite !nth_overflow; auto; lia.
Qed.

Definition finishes (e : env) (x y : cstate) : Prop :=
  exists must cl' objs q0 qb0 q qb, supp (finish e must x cl' objs q0 qb0) (Propose y q qb) /\
    NoDup objs /\ Forall (fun o => (o < n_objects e)%nat) objs /\
    forall i, ~ In i objs -> any_group cl' i = any_group (x_clusters x) i.

Lemma finishes_one e x y must cl' a q0 qb0 q qb : supp (finish e must x cl' [a] q0 qb0) (Propose y q qb) -> (a < n_objects e)%nat ->
  (forall i, i <> a -> any_group cl' i = any_group (x_clusters x) i) -> finishes e x y.
Proof.
  intros H Ha Hi. exists must, cl', [a], q0, qb0, q, qb. conj; auto.
  - repeat constructor; auto.
  - intros i Hn. apply Hi. intros ->. apply Hn; left; auto.
Qed.
Lemma in_range k n cl z a : cluster_shape k n cl -> (z < length cl)%nat -> nth_error (nth z cl []) a = Some true -> (a < n)%nat.
Proof.
  intros [_ H] Hz Ha. rewrite Forall_forall in H. rewrite <- (H (nth z cl [])) by (apply nth_In; auto).
  apply nth_error_Some; congruence.
Qed.
Lemma propose_finishes e o x y k : can_propose e o x y -> cluster_shape k (n_objects e) (x_clusters x) -> finishes e x y.
Proof.
  intros (q & qb & H) Hs. destruct o; simpl in H.
  - apply supp_alter in H as [H|H].
    + apply supp_choose in H as [[H _]|(z & Hz & H)]; [discriminate|]. apply in_ids in Hz. unfold shrink_at in H. cbv zeta in H.
      destruct (_ <=? _)%nat; [apply supp_ret in H; discriminate|].
      apply supp_choose in H as [[H _]|(a & Ha & H)]; [discriminate|]. apply in_nonzero in Ha.
      eapply finishes_one; [exact H|eapply in_range; eauto|]. intros; apply any_group_set; auto.
    + apply supp_choose in H as [[H _]|(z & Hz & H)]; [discriminate|]. apply in_ids in Hz. unfold grow_at in H. cbv zeta in H.
      destruct (_ <=? _)%nat; [apply supp_ret in H; discriminate|].
      apply supp_bind in H as (c & _ & H). cbv zeta in H. destruct (negb _); [apply supp_ret in H; discriminate|].
      apply supp_choose in H as [[H _]|(a & Ha & H)]; [discriminate|]. apply in_nonzero in Ha.
      eapply finishes_one; [exact H| |intros; apply any_group_set; auto].
      destruct c; [eapply neighbours_free|eapply free_true]; eauto.
  - apply supp_gibbsish in H as [H|H].
    + apply supp_choose in H as [[H _]|(z & Hz & H)]; [discriminate|]. apply in_ids in Hz. unfold gibbsish_shrink_at in H. cbv zeta in H.
      destruct (_ =? _)%nat; [apply supp_ret in H; discriminate|].
      destruct (posteriors e (x_clusters x) z) as [post|]; [|apply supp_ret in H; discriminate].
      apply supp_choose_p in H as [[H _]|(l & a & p & Hl & Ha & Hp & H)]; [discriminate|].
      destruct (normalize_zero Hl Ha Hp) as (r & Hr & Hr0). pose proof (bmask_zero Hr Hr0) as Hc.
      eapply finishes_one; [exact H|eapply in_range; eauto|]. intros; apply any_group_set; auto.
    + apply supp_choose in H as [[H _]|(z & Hz & H)]; [discriminate|]. apply in_ids in Hz. unfold gibbsish_grow_at in H. cbv zeta in H.
      destruct (negb _); [apply supp_ret in H; discriminate|].
      destruct (_ =? _)%nat; [apply supp_ret in H; discriminate|].
      destruct (posteriors e (x_clusters x) z) as [post|]; [|apply supp_ret in H; discriminate].
      apply supp_choose_p in H as [[H _]|(l & a & p & Hl & Ha & Hp & H)]; [discriminate|].
      destruct (normalize_zero Hl Ha Hp) as (r & Hr & Hr0). pose proof (bmask_zero Hr Hr0) as Hc.
      eapply finishes_one; [exact H|eapply free_true; eauto|]. intros; apply any_group_set; auto.
  - apply supp_choose in H as [[H _]|(z & Hz & H)]; [discriminate|]. apply in_ids in Hz. unfold gibbsish2_at in H. cbv zeta in H.
    apply supp_bind in H as (new & Hnew & H).
    destruct (negb _); [apply supp_ret in H; discriminate|]. destruct (forallb _ _); [apply supp_ret in H; discriminate|].
    assert (Hrow : length (nth z (x_clusters x) []) = n_objects e) by (eapply row_length; eauto).
    rewrite L_operators.nth_upd_same in H by auto.
    set (cl := x_clusters x) in *. set (r := scatter (available e cl z) (nth z cl []) new) in *.
    assert (Hal : length (available e cl z) = n_objects e).
    { unfold available, any_cluster. rewrite map2_length, map_length, seq_length, Hrow. apply Nat.min_id. }
    assert (Hr : length r = n_objects e) by (unfold r; rewrite scatter_length; congruence).
    do 7 eexists. split; [exact H|]. conj.
    + apply NoDup_nonzero.
    + apply Forall_forall. intros o Ho. apply in_nonzero in Ho.
      assert (L : (o < length (map2 xorb (nth z cl []) r))%nat) by (apply nth_error_Some; congruence).
      rewrite map2_length in L. lia.
    + intros i Hi. apply any_group_upd. intros c Hc. rewrite <- (nth_error_nth _ _ [] Hc).
      fold cl. apply xor_unchanged; [congruence|auto].
Qed.

(** * Admissible rows *)
Section Env.
Variable e : env.
Definition row_adm (cl : bmat) (o : nat) (r : list (list bool)) : Prop :=
  length r = e_nf e /\ Forall (fun v => exists c, (c < n_comps e)%nat /\ v = one_hot_row e c /\ nth c (has_row e cl o) false = true) r.
Definition rows_adm (x : cstate) : Prop :=
  match x_source x with
  | None => True
  | Some s => length s = n_objects e /\ forall o, (o < n_objects e)%nat -> row_adm (x_clusters x) o (nth o s [])
  end.
(** The probabilities of the sources are defined and zero for unavailable components. *)
Definition probs_ok (cl : bmat) (o : nat) : Prop :=
  forall p, In p (source_probs e cl o) -> exists l, p = Some l /\ (length l <= n_comps e)%nat /\
    forall c q, nth_error l c = Some q -> ~ q == 0 -> nth c (has_row e cl o) false = true.

Lemma supp_obs_adm cl o p v : supp (sample_obs e p) v -> probs_ok cl o -> In p (source_probs e cl o) ->
  exists c, (c < n_comps e)%nat /\ v = one_hot_row e c /\ nth c (has_row e cl o) false = true.
Proof.
  intros H Hp Hin. destruct (Hp p Hin) as (l & -> & Hl & Hc). simpl in H.
  destruct H as (q & Hq & Hq0). apply In_nth_error in Hq as (c & Hn). rewrite nth_error_mapi in Hn.
  destruct (nth_error l c) as [q'|] eqn:E; [|discriminate]. injection Hn as <- ->. exists c. conj; eauto.
  assert (c < length l)%nat by (apply nth_error_Some; congruence). lia.
Qed.
Lemma supp_row_adm cl o r : supp (prod_dist (map (sample_obs e) (source_probs e cl o))) r -> probs_ok cl o -> row_adm cl o r.
Proof.
  intros H Hp. apply supp_prod_dist in H. split.
  - apply Forall2_len in H. rewrite map_length, source_probs_length in H. auto.
  - assert (Hin : forall p, In p (source_probs e cl o) -> In p (source_probs e cl o)) by auto.
    revert Hin r H. generalize (source_probs e cl o) at 1 3 as ps. induction ps as [|p ps IH]; intros Hin r H; inversion H; subst; constructor.
    + eapply supp_obs_adm; eauto. apply Hin; left; auto.
    + apply IH; auto. intros p' Hp'. apply Hin; right; auto.
Qed.
Lemma supp_rows_adm cl objs rows : supp (rows_dist e cl objs) rows -> Forall (probs_ok cl) objs -> Forall2 (row_adm cl) objs rows.
Proof.
  intros H Hp. apply supp_prod_dist in H. revert rows H. induction Hp as [|o objs Ho _ IH]; intros rows H; inversion H; subst; constructor.
  - eapply supp_row_adm; eauto.
  - apply IH; auto.
Qed.
Lemma set_rows_at objs : forall src rows, NoDup objs -> Forall (fun o => (o < length src)%nat) objs -> 
  forall P : nat -> list (list bool) -> Prop, Forall2 P objs rows -> forall o, In o objs -> P o (nth o (set_rows src objs rows) []).
Proof.
  intros src rows Hn Hl P H o Ho. pose proof (set_rows_in Hn Hl (eq_sym (Forall2_len H))) as Hin.
  rewrite <- Hin in H. revert Ho H. generalize (set_rows src objs rows). clear. intros s Ho H. induction objs as [|a objs IH]; [contradiction|]. inversion H; subst. destruct Ho as [->|Ho]; auto.
Qed.
End Env.

(** * The value of a component likelihood *)
Definition state_prob (v : list bool) (p : list Q) : Q := Qsum (map2 (fun (b : bool) q => if b then q else 0) v p).
Lemma nth_na (l : list bool) (r : list Q) f : (f < length l)%nat -> length r = length l ->
  nth f (map2 (fun (na : bool) v => if na then 1 else v) l r) 0 = if nth f l false then 1 else nth f r 0.
Proof.
  revert r f. induction l as [|b l IH]; intros [|x r] [|f] Hf Hl; simpl in *; try lia; auto. apply IH; lia.
Qed.
Lemma nth_einsum f_o (p : effect) f : (f < length f_o)%nat -> length p = length f_o ->
  nth f (einsum_row f_o p) 0 = state_prob (nth f f_o []) (nth f p []).
Proof.
  unfold einsum_row, effect in *. revert p f. induction f_o as [|v f_o IH]; intros [|x p] [|f] Hf Hl; simpl in *; try lia; auto. apply IH; lia.
Qed.
Lemma spec_value nf features (probs : list effect) groups o f f_o : nth_error features o = Some f_o -> length f_o = nf ->
  length probs = length groups -> Forall (fun p => length p = nf) probs -> (f < nf)%nat ->
  nth f (nth o (spec_component nf features probs groups) []) 0 =
    if forallb negb (nth f f_o []) then 1 else
    match group_of groups o with None => 0 | Some i => state_prob (nth f f_o []) (nth f (nth i probs []) []) end.
Proof.
  intros Ho Hl Hg Hp Hf. unfold spec_component.
  rewrite (nth_error_nth (mapi _ features) o (x := map2 (fun (na : bool) v => if na then 1 else v) (na_row f_o)
    match group_of groups o with None => repeat 0 nf | Some i => einsum_row f_o (nth i probs []) end)) by (rewrite nth_error_mapi, Ho; reflexivity).
  assert (Hn : nth f (na_row f_o) false = forallb negb (nth f f_o [])).
  { unfold na_row. rewrite (nth_indep _ false (forallb negb [])) by (rewrite map_length; lia). apply map_nth. }
  assert (Hp' : forall i, group_of groups o = Some i -> length (nth i probs []) = length f_o).
  { intros i E. rewrite Forall_forall in Hp. rewrite (Hp (nth i probs [])); auto. apply nth_In. apply group_of_lt in E. unfold effect, bmat in *. lia. }
  unfold effect in *. rewrite nth_na.
  - rewrite Hn. destruct (forallb _ _); auto. destruct (group_of groups o) as [i|] eqn:E.
    + apply nth_einsum; [lia|]. apply Hp'; auto.
    + apply nth_repeat.
  - unfold na_row. rewrite map_length. lia.
  - unfold na_row. rewrite map_length. destruct (group_of groups o) as [i|] eqn:E.
    + unfold einsum_row. rewrite map2_length. rewrite (Hp' i); auto. apply Nat.min_id.
    + rewrite repeat_length. auto.
Qed.
Lemma component_spec e probs groups : length probs = length groups -> disjoint_groups groups ->
  component e probs groups = spec_component (e_nf e) (e_features e) probs groups.
Proof.
  intros Hl Hd. unfold component. apply component_correct; auto.
  - rewrite repeat_length. reflexivity.
  - intros o i Ho Hi. exfalso. apply Hi. apply in_seq. apply in_group_lt in Ho. lia.
Qed.
Lemma state_prob_nonneg v p : (forall s, 0 <= nth s p 0) -> 0 <= state_prob v p.
Proof.
  unfold state_prob. revert v. induction p as [|x p IH]; intros [|b v] H; cbn [map2 Qsum fold_right]; try lra.
  assert (0 <= x) by exact (H 0%nat). pose proof (IH v (fun s => H (S s))) as I. unfold Qsum in I. destruct b; lra.
Qed.
Lemma state_prob_pos v p s : (forall s, 0 <= nth s p 0) -> nth s v false = true -> 0 < nth s p 0 -> 0 < state_prob v p.
Proof.
  unfold state_prob. revert v s. induction p as [|x p IH]; intros [|b v] [|s] H Hs Hp; cbn [map2 Qsum fold_right nth] in *; try lra; try discriminate.
  - subst b. pose proof (@state_prob_nonneg v p (fun s => H (S s))) as I. unfold state_prob, Qsum in I. lra.
  - assert (0 <= x) by exact (H 0%nat). pose proof (IH v s (fun s => H (S s)) Hs Hp) as I. unfold Qsum in I. destruct b; lra.
Qed.
Lemma not_na v : forallb negb v = false -> exists s, nth s v false = true.
Proof.
  induction v as [|b v IH]; simpl; [discriminate|]. destruct b; simpl; intros H; [exists 0%nat; auto|].
  destruct (IH H) as [s Hs]. exists (S s); auto.
Qed.

(** * Defined source probabilities *)
Lemma any_group_in gs o : any_group gs o = true <-> exists g, In g gs /\ nth o g false = true.
Proof. unfold any_group. apply existsb_exists. Qed.
Lemma nth_has e cl o c : nth c (has_row e cl o) false = true <-> component_available cl (e_conf e) o c.
Proof.
  unfold has_row, component_available. split.
  - intros H. destruct (nth_error (cl :: e_conf e) c) as [gs|] eqn:E.
    + exists gs. rewrite (nth_error_nth _ c false (x := any_group gs o)) in H by (rewrite nth_error_map, E; reflexivity).
      apply any_group_in in H as (g & H1 & H2). eauto.
    + rewrite nth_overflow in H; [discriminate|]. rewrite map_length. apply nth_error_None; auto.
  - intros (gs & g & E & H1 & H2). rewrite (nth_error_nth _ c false (x := any_group gs o)) by (rewrite nth_error_map, E; reflexivity).
    apply any_group_in. eauto.
Qed.
Lemma normalize_row_zero w has l c q : normalize_row w has = Some l -> nth_error l c = Some q -> ~ q == 0 -> nth c has false = true.
Proof.
  unfold normalize_row. cbv zeta. destruct (Qeq_bool _ 0) eqn:E; [discriminate|]. intros [= <-]. rewrite nth_error_map, nth_error_map2.
  destruct (nth_error w c); [|discriminate]. destruct (nth_error has c) as [b|] eqn:Eb; [|discriminate]. simpl. intros [= <-] H.
  rewrite (nth_error_nth _ _ false Eb). destruct b; auto. exfalso. apply H. apply Qeq_bool_neq in E. field. exact E.
Qed.

Lemma lh_nonneg e cl o f c : positive_env e -> disjoint_groups cl -> length (e_ce e) = length cl ->
  (o < n_objects e)%nat -> (f < e_nf e)%nat -> 0 <= lh_at (component_lhs e cl) o f c.
Proof.
  intros P Hd Hk Ho Hf. destruct (nth_error (e_features e) o) as [f_o|] eqn:Eo; [|apply nth_error_None in Eo; unfold n_objects in Ho; lia].
  assert (Hl : length f_o = e_nf e).
  { pose proof (pe_features P) as F. rewrite Forall_forall in F. apply F. eapply nth_error_In; eauto. }
  unfold lh_at, component_lhs.
  assert (G : forall probs groups, length probs = length groups -> disjoint_groups groups ->
     (forall p, In p probs -> length p = e_nf e /\ (forall f s, 0 <= nth s (nth f p []) 0)) ->
     0 <= nth f (nth o (component e probs groups) []) 0).
  { intros probs groups H1 H2 H3. rewrite component_spec by auto. rewrite (spec_value (f_o := f_o)); auto.
    - destruct (forallb _ _); [lra|]. destruct (group_of groups o) as [i|] eqn:E; [|lra]. apply state_prob_nonneg.
      apply group_of_lt in E. intros s. apply H3. apply nth_In. unfold effect, bmat in *. lia.
    - apply Forall_forall. intros p Hp. apply H3; auto. }
  destruct c as [|c]; cbn [nth].
  - apply G; auto. intros p Hp. destruct (pe_effects P (p := p)) as (A & B & _); auto.
  - destruct (nth_error (e_conf e) c) as [gs|] eqn:Ec.
    + destruct (nth_error (e_cf e) c) as [ps|] eqn:Ep.
      * rewrite (nth_error_nth _ c [] (x := component e ps gs)) by (rewrite nth_error_map2, Ec, Ep; reflexivity).
        apply G.
        -- eapply (pe_cf_g P); eauto.
        -- pose proof (pe_conf P) as F. rewrite Forall_forall in F. apply F. eapply nth_error_In; eauto.
        -- intros p Hp. destruct (pe_effects P (p := p)) as (A & B & _); auto. right. exists ps. split; auto. eapply nth_error_In; eauto.
      * rewrite (nth_overflow (map2 _ _ _)); [destruct o, f; cbn; lra|]. rewrite map2_length. apply nth_error_None in Ep. lia.
    + rewrite (nth_overflow (map2 _ _ _)); [destruct o, f; cbn; lra|]. rewrite map2_length. apply nth_error_None in Ec. lia.
Qed.
Lemma lh_pos e cl o f k gs : positive_env e -> (o < n_objects e)%nat -> (f < e_nf e)%nat ->
  nth_error (e_conf e) k = Some gs -> any_group gs o = true -> 0 < lh_at (component_lhs e cl) o f (S k).
Proof.
  intros P Ho Hf Hk Hg. destruct (nth_error (e_features e) o) as [f_o|] eqn:Eo; [|apply nth_error_None in Eo; unfold n_objects in Ho; lia].
  assert (Hl : length f_o = e_nf e).
  { pose proof (pe_features P) as F. rewrite Forall_forall in F. apply F. eapply nth_error_In; eauto. }
  destruct (nth_error (e_cf e) k) as [ps|] eqn:Ep.
  2:{ apply nth_error_None in Ep. rewrite (pe_cf P) in Ep. assert (k < length (e_conf e))%nat by (apply nth_error_Some; congruence). lia. }
  unfold lh_at, component_lhs. cbn [nth].
  rewrite (nth_error_nth _ k [] (x := component e ps gs)) by (rewrite nth_error_map2, Hk, Ep; reflexivity).
  assert (Lp : length ps = length gs) by (eapply (pe_cf_g P); eauto).
  assert (Ef : forall p, In p ps -> length p = e_nf e /\ (forall f s, 0 <= nth s (nth f p []) 0) /\
    forall o f s, nth s (nth f (nth o (e_features e) []) []) false = true -> 0 < nth s (nth f p []) 0).
  { intros p Hp. apply (pe_effects P). right. exists ps. split; auto. eapply nth_error_In; eauto. }
  rewrite component_spec; auto.
  2:{ pose proof (pe_conf P) as F. rewrite Forall_forall in F. apply F. eapply nth_error_In; eauto. }
  rewrite (spec_value (f_o := f_o)); auto.
  2:{ apply Forall_forall. intros p Hp. apply Ef; auto. }
  destruct (forallb _ _) eqn:En; [lra|]. rewrite any_group_spec in Hg. destruct (group_of gs o) as [i|] eqn:E; [|discriminate].
  apply group_of_lt in E. destruct (not_na En) as [s Hs]. destruct (Ef (nth i ps [])) as (_ & N & Pos); [apply nth_In; unfold effect, bmat in *; lia|].
  eapply state_prob_pos; eauto. apply (Pos o). rewrite (nth_error_nth _ _ [] Eo). exact Hs.
Qed.

Lemma Qsum_pos_term l c q : Forall (fun q => 0 <= q) l -> nth_error l c = Some q -> 0 < q -> 0 < Qsum l.
Proof.
  intros H. revert c. induction H as [|x l Hx Hl IH]; intros [|c] Hc Hq; try discriminate; rewrite Qsum_cons.
  - injection Hc as ->. pose proof (Qsum_nonneg Hl). lra.
  - specialize (IH c Hc Hq). lra.
Qed.
Lemma probs_defined e cl o : positive_env e -> disjoint_groups cl -> length (e_ce e) = length cl -> (o < n_objects e)%nat -> probs_ok e cl o.
Proof.
  intros P Hd Hk Ho p Hp. unfold source_probs in Hp. apply in_map_iff in Hp as (f & <- & Hf). apply in_seq in Hf.
  destruct (nth_error (e_weights e) f) as [w|] eqn:Ew; [|apply nth_error_None in Ew; rewrite (pe_weights P) in Ew; lia].
  rewrite (nth_error_nth _ _ [] Ew). pose proof (pe_weights_c P) as W. rewrite Forall_forall in W.
  destruct (W w) as [Wl Wp]; [eapply nth_error_In; eauto|].
  destruct (pe_group P Ho) as (gs & g & Hgs & Hg & Hog). apply In_nth_error in Hgs as (k & Hgs).
  assert (Hav : component_available cl (e_conf e) o (S k)) by (exists gs, g; auto).
  assert (Hhas : nth_error (has_row e cl o) (S k) = Some true).
  { unfold has_row. rewrite nth_error_map. cbn [nth_error]. rewrite Hgs. simpl. f_equal. apply any_group_in. eauto. }
  assert (Hlen : length (has_row e cl o) = length w) by (rewrite has_row_length; auto).
  destruct (normalize_row w (has_row e cl o)) as [l|] eqn:En.
  2:{ exfalso. exact (proj1 (normalize_row_defined Wp Hlen) En (S k) Hhas). }
  pose proof (normalize_row_distribution Wp Hlen En) as (D1 & D2 & D3 & D4 & _).
  pose proof (normalize_row_length En) as Dl. rewrite has_row_length in Dl.
  destruct (e_from_prior e).
  - exists l. conj; auto. intros c q Hc Hq. eapply normalize_row_zero; eauto.
  - unfold source_posterior. rewrite (nth_error_nth _ _ [] Ew), En.
    set (v := mapi (fun c q => lh_at (component_lhs e cl) o f c * q) l).
    assert (V : Forall (fun q => 0 <= q) v).
    { apply Forall_forall. intros q Hq. apply In_nth_error in Hq as (c & Hc). unfold v in Hc. rewrite nth_error_mapi in Hc.
      destruct (nth_error l c) as [r|] eqn:Er; [|discriminate]. injection Hc as <-. apply Qmult_le_0_compat.
      - apply lh_nonneg; auto. lia.
      - rewrite Forall_forall in D2. apply D2. eapply nth_error_In; eauto. }
    assert (Pos : 0 < Qsum v).
    { destruct (nth_error l (S k)) as [r|] eqn:Er.
      - eapply (@Qsum_pos_term v (S k)); auto.
        + unfold v. rewrite nth_error_mapi, Er. reflexivity.
        + apply Qmult_lt_0_compat.
          * eapply lh_pos; eauto; [lia|]. apply any_group_in; eauto.
          * specialize (D4 _ _ _ Er Hhas). rewrite Forall_forall in D2. specialize (D2 r (nth_error_In _ _ Er)).
            destruct (Qlt_le_dec 0 r); auto. exfalso. assert (r == 0) by lra. apply D4 in H. discriminate.
      - exfalso. apply nth_error_None in Er. assert (S k < length (has_row e cl o))%nat by (apply nth_error_Some; congruence). lia. }
    unfold normalize. fold v. destruct (Qeq_bool (Qsum v) 0) eqn:E.
    { apply Qeq_bool_eq in E. lra. }
    eexists. split; [reflexivity|]. split; [unfold v; rewrite map_length, mapi_length; auto|].
    intros c q Hc Hq. rewrite nth_error_map in Hc.
    destruct (nth_error l c) as [r|] eqn:Er.
    2:{ rewrite (proj2 (nth_error_None v c)) in Hc; [discriminate|]. unfold v. rewrite mapi_length. apply nth_error_None; auto. }
    assert (Ev : nth_error v c = Some (lh_at (component_lhs e cl) o f c * r)) by (unfold v; rewrite nth_error_mapi, Er; reflexivity).
    rewrite Ev in Hc.
    cbn [option_map] in Hc. injection Hc as <-.
    eapply normalize_row_zero; [exact En|exact Er|]. intros Hr. apply Hq. rewrite Hr. field. lra.
Qed.

(** * Histories *)
Lemma finishes_adm e x y k : finishes e x y -> rows_adm e x -> e_resample e = true -> (exists s, x_source x = Some s) ->
  cluster_shape k (n_objects e) (x_clusters x) ->
  (forall o, (o < n_objects e)%nat -> probs_ok e (x_clusters y) o) -> rows_adm e y /\ exists s, x_source y = Some s.
Proof.
  intros (must & cl' & objs & q0 & qb0 & q & qb & H & Hn & Hlt & Hany) Hx Hr (src & Hsrc) Hshape Hp.
  pose proof (supp_finish H) as Hcl. unfold finish in H. rewrite Hr, Hsrc in H.
  apply supp_bind in H as (rows & Hrows & H). apply supp_ret in H. injection H as -> _ _. simpl in *.
  unfold rows_adm in Hx. rewrite Hsrc in Hx. destruct Hx as [Hl Hx].
  fold (rows_dist e cl' objs) in Hrows. apply supp_rows_adm in Hrows.
  2:{ apply Forall_forall. intros o Ho. apply Hp. rewrite Forall_forall in Hlt. auto. }
  split; [|eauto]. unfold rows_adm; simpl. split; [rewrite set_rows_length; auto|].
  intros o Ho. destruct (in_dec Nat.eq_dec o objs) as [Hin|Hin].
  - eapply (set_rows_at Hn); eauto. rewrite Hl; auto.
  - rewrite set_rows_other by auto. destruct (Hx o Ho) as [A B]. split; auto.
    eapply Forall_impl; [|exact B]. intros v (c & Hc & Hv & Hh). exists c. conj; auto.
    unfold has_row in *. simpl map in *. rewrite Hany; auto.
Qed.
Lemma gibbs_adm e x y q qb : supp (gibbs_source e x) (Propose y q qb) ->
  (forall s, x_source x = Some s -> length s = n_objects e) ->
  (forall o, (o < n_objects e)%nat -> probs_ok e (x_clusters x) o) ->
  x_clusters y = x_clusters x /\ rows_adm e y /\ exists s, x_source y = Some s.
Proof.
  intros H Hl Hp. unfold gibbs_source in H. destruct (x_source x) as [src|] eqn:Ex; [|apply supp_ret in H; discriminate].
  cbv zeta in H. apply supp_bind in H as (rows & Hrows & H). apply supp_ret in H. injection H as -> _ _. simpl.
  specialize (Hl src eq_refl).
  assert (Hlt : Forall (fun o => (o < n_objects e)%nat) (seq 0 (n_objects e))) by (apply Forall_forall; intros o Ho; apply in_seq in Ho; lia).
  fold (rows_dist e (x_clusters x) (seq 0 (n_objects e))) in Hrows. apply supp_rows_adm in Hrows.
  2:{ eapply Forall_impl; [|exact Hlt]. auto. }
  split; auto. split; [|eauto]. unfold rows_adm; simpl. split; [rewrite set_rows_length; auto|].
  intros o Ho. eapply (set_rows_at (seq_NoDup _ _)); eauto; [rewrite Hl; auto|apply in_seq; lia].
Qed.

Lemma adm_env e e' x : n_objects e = n_objects e' -> e_nf e = e_nf e' -> e_conf e = e_conf e' -> rows_adm e x -> rows_adm e' x.
Proof.
  unfold rows_adm, row_adm, one_hot_row, has_row, n_comps. intros -> -> ->. auto.
Qed.
Lemma history_adm n nf k conf x : source_history positive_env n nf k conf x ->
  cluster_shape k n (x_clusters x) /\ disjoint_groups (x_clusters x) /\ (exists s, x_source x = Some s) /\
  forall e, setting n nf k conf e -> rows_adm e x.
Proof.
  induction 1 as [e cl junk x q qb P (S1 & S2 & S3 & S4 & S5) Hj Hs Hd H|x _ IH|e o x y _ (I1 & I2 & I3 & I4) P Hset H|e x y q qb _ (I1 & I2 & I3 & I4) P Hset H]; auto.
  - destruct (@gibbs_adm e {| x_clusters := cl; x_source := Some junk |} x q qb) as (A & B & C); auto.
    + intros s [= <-]. congruence.
    + intros o Ho. apply probs_defined; auto. destruct Hs. simpl. congruence.
    + simpl in A. rewrite A. conj; auto. intros e' (T1 & T2 & T3 & _). apply (@adm_env e e'); congruence.
  - destruct Hset as (S1 & S2 & S3 & S4 & S5).
    assert (Hsx : cluster_shape k (n_objects e) (x_clusters x)) by (rewrite S1; auto).
    assert (Hch := propose_change H Hsx).
    assert (Hsy : cluster_shape k n (x_clusters y)) by (rewrite <- S1; eapply change_shape; eauto).
    assert (Hdy : disjoint_groups (x_clusters y)) by (eapply change_disjoint; eauto).
    destruct (@finishes_adm e x y k) as [A B]; auto.
    + eapply propose_finishes; eauto.
    + apply I4. repeat split; auto.
    + intros o' Ho'. apply probs_defined; auto. destruct Hsy. congruence.
    + conj; auto. intros e' (T1 & T2 & T3 & _). apply (@adm_env e e'); congruence.
  - destruct Hset as (S1 & S2 & S3 & S4 & S5). destruct I3 as (s & Hs).
    assert (R : rows_adm e x) by (apply I4; repeat split; auto). unfold rows_adm in R. rewrite Hs in R.
    destruct (gibbs_adm H) as (A & B & C).
    + intros s' Hs'. rewrite Hs in Hs'. injection Hs' as <-. apply R.
    + intros o Ho. apply probs_defined; auto. destruct I1. congruence.
    + rewrite A. conj; auto. intros e' (T1 & T2 & T3 & _). apply (@adm_env e e'); congruence.
Qed.

Lemma rows_adm_spec e x s : rows_adm e x -> x_source x = Some s ->
  one_source (n_objects e) (e_nf e) (n_comps e) s /\ admissible (x_clusters x) (e_conf e) s.
Proof.
  unfold rows_adm. intros H Hs. rewrite Hs in H. destruct H as [Hl H].
  assert (R : forall o row, nth_error s o = Some row -> row_adm e (x_clusters x) o row).
  { intros o row Ho. rewrite <- (nth_error_nth _ _ [] Ho). apply H. rewrite <- Hl. apply nth_error_Some; congruence. }
  assert (V : forall v c d, v = one_hot_row e c -> nth_error v d = Some true -> d = c).
  { intros v c d -> Hd. assert (Hlt : (d < n_comps e)%nat).
    { assert (d < length (one_hot_row e c))%nat by (apply nth_error_Some; congruence). unfold one_hot_row in H0. rewrite map_length, seq_length in H0. auto. }
    rewrite nth_one_hot in Hd by auto. injection Hd as Hd. apply Nat.eqb_eq in Hd. auto. }
  split.
  - split; auto. intros o row Ho. destruct (R o row Ho) as [A B]. split; auto. intros f v Hf.
    rewrite Forall_forall in B. destruct (B v) as (c & Hc & -> & _); [eapply nth_error_In; eauto|]. split.
    + unfold one_hot_row. rewrite map_length, seq_length. auto.
    + exists c. split; [rewrite nth_one_hot, Nat.eqb_refl; auto|]. intros d; apply V; auto.
  - intros o row f v c Ho Hf Hc. destruct (R o row Ho) as [A B]. rewrite Forall_forall in B.
    destruct (B v) as (c' & Hc' & Hv & Hh); [eapply nth_error_In; eauto|]. rewrite (V v c' c Hv Hc). apply nth_has. auto.
Qed.
Lemma history_sources n nf k conf x : source_history positive_env n nf k conf x ->
  exists s, x_source x = Some s /\ one_source n nf (S (length conf)) s /\ admissible (x_clusters x) conf s.
Proof.
  intros H. assert (E : exists e, setting n nf k conf e).
  { induction H; eauto. }
  destruct E as (e & He). destruct (history_adm H) as (_ & _ & (s & Hs) & A). exists s. split; auto.
  pose proof (rows_adm_spec (A e He) Hs) as R. destruct He as (S1 & S2 & S3 & _). unfold n_comps in R.
  rewrite S1, S2, S3 in R. auto.
Qed.

(** Exactly one component, whatever the parameters. *)
Lemma finishes_one_source e x y : finishes e x y -> e_resample e = true -> (exists s, x_source x = Some s) ->
  source_ok e x -> source_ok e y /\ exists s, x_source y = Some s.
Proof.
  intros (must & cl' & objs & q0 & qb0 & q & qb & H & Hn & Hlt & _) Hr (s & Hs) Hok. split.
  - eapply supp_finish_full; eauto.
  - unfold finish in H. rewrite Hr, Hs in H. apply supp_bind in H as (rows & _ & H). apply supp_ret in H. injection H as -> _ _. simpl. eauto.
Qed.
Lemma gibbs_one_source e x y q qb : supp (gibbs_source e x) (Propose y q qb) ->
  (forall s, x_source x = Some s -> length s = n_objects e) ->
  x_clusters y = x_clusters x /\ source_ok e y /\ exists s, x_source y = Some s.
Proof.
  intros H Hl. unfold gibbs_source in H. destruct (x_source x) as [src|] eqn:Ex; [|apply supp_ret in H; discriminate].
  cbv zeta in H. apply supp_bind in H as (rows & Hrows & H). apply supp_ret in H. injection H as -> _ _. simpl.
  specialize (Hl src eq_refl). split; auto. split; [|eauto].
  assert (Hlt : Forall (fun o => (o < length src)%nat) (seq 0 (n_objects e))) by (apply Forall_forall; intros o Ho; apply in_seq in Ho; lia).
  fold (rows_dist e (x_clusters x) (seq 0 (n_objects e))) in Hrows.
  pose proof (supp_rows_ok Hrows) as Hro. pose proof (supp_rows_length Hrows) as Hlen.
  rewrite <- (set_rows_in (seq_NoDup _ _) Hlt Hlen) in Hro. apply (proj1 (Forall_map _ _ _)) in Hro.
  unfold source_ok; simpl. split; [rewrite set_rows_length; auto|].
  apply Forall_forall. intros r Hr. apply (In_nth _ _ []) in Hr as (i & Hi & <-). rewrite set_rows_length in Hi.
  rewrite Forall_forall in Hro. apply (Hro i). apply in_seq. lia.
Qed.
Lemma source_ok_env e e' x : n_objects e = n_objects e' -> e_nf e = e_nf e' -> e_conf e = e_conf e' -> source_ok e x -> source_ok e' x.
Proof. unfold source_ok, n_comps. intros -> -> ->. auto. Qed.
Lemma history_one n nf k conf x : source_history (fun _ => True) n nf k conf x ->
  cluster_shape k n (x_clusters x) /\ (exists s, x_source x = Some s) /\ forall e, setting n nf k conf e -> source_ok e x.
Proof.
  induction 1 as [e cl junk x q qb P (S1 & S2 & S3 & S4 & S5) Hj Hs Hd H|x _ IH|e o x y _ (I1 & I3 & I4) P Hset H|e x y q qb _ (I1 & I3 & I4) P Hset H]; auto.
  - destruct (@gibbs_one_source e {| x_clusters := cl; x_source := Some junk |} x q qb) as (A & B & C); auto.
    + intros s [= <-]. congruence.
    + simpl in A. rewrite A. conj; auto. intros e' (T1 & T2 & T3 & _). apply (@source_ok_env e e'); congruence.
  - pose proof Hset as (S1 & S2 & S3 & S4 & S5).
    assert (Hsx : cluster_shape k (n_objects e) (x_clusters x)) by (rewrite S1; auto).
    destruct (@finishes_one_source e x y) as [A B]; auto.
    + eapply propose_finishes; eauto.
    + conj; auto.
      * rewrite <- S1. eapply change_shape; eauto. eapply propose_change; eauto.
      * intros e' (T1 & T2 & T3 & _). apply (@source_ok_env e e'); congruence.
  - pose proof Hset as (S1 & S2 & S3 & S4 & S5). destruct I3 as (s & Hs).
    pose proof (I4 e Hset) as R. unfold source_ok in R. rewrite Hs in R.
    destruct (gibbs_one_source H) as (A & B & C).
    + intros s' Hs'. rewrite Hs in Hs'. injection Hs' as <-. apply R.
    + rewrite A. conj; auto. intros e' (T1 & T2 & T3 & _). apply (@source_ok_env e e'); congruence.
Qed.
Lemma history_one_source n nf k conf x : source_history (fun _ => True) n nf k conf x ->
  exists s, x_source x = Some s /\ one_source n nf (S (length conf)) s.
Proof.
  intros H. assert (E : exists e, setting n nf k conf e) by (induction H; eauto).
  destruct E as (e & He). destruct (history_one H) as (_ & (s & Hs) & A). exists s. split; auto.
  pose proof (A e He) as R. unfold source_ok in R. rewrite Hs in R. destruct R as [Rl R].
  destruct He as (S1 & S2 & S3 & _). unfold n_comps in R. rewrite S2, S3 in R. rewrite Forall_forall in R.
  split; [congruence|]. intros o row Ho. destruct (R row) as [L V]; [eapply nth_error_In; eauto|]. split; auto.
  intros f v Hf. rewrite Forall_forall in V. destruct (V v) as (c & Hc & ->); [eapply nth_error_In; eauto|].
  rewrite map_length, seq_length. split; auto.
  assert (N : forall d, nth_error (map (Nat.eqb c) (seq 0 (S (length conf)))) d = Some true <-> d = c /\ (d < S (length conf))%nat).
  { intros d. rewrite nth_error_map. destruct (Nat.lt_ge_cases d (S (length conf))) as [Hd|Hd].
    - rewrite (nth_error_nth' _ 0%nat) by (rewrite seq_length; auto). rewrite seq_nth by auto. cbn [option_map Nat.add].
      split; [intros [= Hx]; apply Nat.eqb_eq in Hx; split; congruence|]. intros [-> _]. rewrite Nat.eqb_refl; auto.
    - rewrite (proj2 (nth_error_None _ _)) by (rewrite seq_length; auto). split; [discriminate|lia]. }
  exists c. split; [apply N; auto|]. intros d Hd. apply N in Hd. tauto.
Qed.
