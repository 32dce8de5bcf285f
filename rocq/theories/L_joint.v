(** Lemmas for C95. *)
From Coq Require Import Lra.
From Verif Require Import M_source M_conj M_gweights S_model S_operators S_source S_params S_mcmc S_honest S_gsource S_ergodic S_collapsed
  S_sampler S_progress P_conj P_gweights L_model L_operators L_source L_params L_balance L_honest L_honest2 L_gsource L_gsource2 L_collapsed L_sampler L_progress P_honest P_gsource S_joint.
Set Implicit Arguments.
Unset Strict Implicit.
Open Scope R_scope.

(** * Samples that are equal as rational numbers *)
Definition oeq (a b : option Q) : Prop := match a, b with Some x, Some y => (x == y)%Q | None, None => True | _, _ => False end.
Definition meq : lhmat -> lhmat -> Prop := Forall2 vec_eq.
Lemma Forall2_nth_dflt A B (P : A -> B -> Prop) l r a b i : P a b -> Forall2 P l r -> P (nth i l a) (nth i r b).
Proof. intros H0 H. revert i. induction H; intros [|i]; simpl; auto. Qed.
Lemma Forall2_nth_error_both A B (P : A -> B -> Prop) l r i : Forall2 P l r ->
  match nth_error l i, nth_error r i with Some x, Some y => P x y | None, None => True | _, _ => False end.
Proof. intros H. revert i. induction H; intros [|i]; simpl; auto. apply IHForall2. Qed.
Lemma vec_eq_rfl v : vec_eq v v.
Proof. induction v; constructor; auto. reflexivity. Qed.
Lemma meq_refl m : meq m m.
Proof. induction m; constructor; auto. apply vec_eq_rfl. Qed.
Lemma Forall2_mapi A B C D (P : A -> B -> Prop) (R : C -> D -> Prop) (f : nat -> A -> C) (g : nat -> B -> D) l r :
  Forall2 P l r -> (forall i x y, P x y -> R (f i x) (g i y)) -> Forall2 R (mapi f l) (mapi g r).
Proof.
  intros H HR. unfold mapi. enough (G : forall k, Forall2 R (mapi_from k f l) (mapi_from k g r)) by apply G.
  induction H; intros k; cbn [mapi_from]; constructor; auto.
Qed.
Lemma einsum_eq fo (p p' : effect) : Forall2 vec_eq p p' -> vec_eq (einsum_row fo p) (einsum_row fo p').
Proof.
  unfold einsum_row. intros H. revert fo. induction H as [|v v' p p' Hv H IH]; intros [|b fo]; simpl; constructor; auto; [|apply IH].
  apply vec_eq_sum. clear -Hv. revert b. induction Hv as [|x y v v' Hx Hv IH]; intros [|c b]; simpl; constructor; auto; [destruct c; auto; reflexivity|apply IH].
Qed.
Lemma update_group_eq features (probs probs' : list effect) groups out out' i : Forall2 (Forall2 vec_eq) probs probs' -> meq out out' ->
  meq (update_group features probs groups out i) (update_group features probs' groups out' i).
Proof.
  intros Hp Ho. unfold update_group. destruct (nth_error groups i) as [g|]; auto. pose proof (@Forall2_nth_error_both effect effect (Forall2 vec_eq) probs probs' i Hp) as H.
  destruct (nth_error probs i) as [p|], (nth_error probs' i) as [p'|]; try contradiction; auto.
  eapply Forall2_mapi; [exact Ho|]. intros o x y Hxy. destruct (nth o g false); auto. apply einsum_eq; auto.
Qed.
Lemma component_eq e e' (probs probs' : list effect) groups : e_features e = e_features e' -> e_nf e = e_nf e' -> Forall2 (Forall2 vec_eq) probs probs' ->
  meq (component e probs groups) (component e' probs' groups).
Proof.
  intros E1 E2 Hp. unfold component, n_objects. rewrite <- E1, <- E2. unfold compute_component_likelihood.
  assert (G : forall out out', meq out out' -> meq (fold_left (update_group (e_features e) probs groups) (seq 0 (length groups)) out)
    (fold_left (update_group (e_features e) probs' groups) (seq 0 (length groups)) out')).
  { induction (seq 0 (length groups)) as [|i l IH]; intros out out' Ho; simpl; auto. apply IH. apply update_group_eq; auto. }
  assert (S : forall F m m', meq m m' -> meq (set_na F m) (set_na F m')).
  { clear. unfold set_na. intros F m m' H. revert F. induction H as [|v v' m m' Hv H IH]; intros [|a F]; simpl; constructor; auto; [|apply IH].
    clear -Hv. generalize (na_row a). induction Hv as [|x y v v' Hx Hv IH]; intros [|b l]; simpl; constructor; auto; [destruct b; auto; reflexivity|apply IH]. }
  apply S, G, meq_refl.
Qed.
Section Congruence.
Variable su : setup.
Variables p p' : params.
Hypothesis SP : same_params p p'.
Notation e := (env_of su p).
Notation e' := (env_of su p').
Lemma component_lhs_eq cl : Forall2 meq (component_lhs e cl) (component_lhs e' cl).
Proof.
  destruct SP as (_ & Hc & Hf). unfold component_lhs. constructor; [apply component_eq; auto|].
  cbn [e_conf e_cf env_of]. revert Hf. generalize (p_cf p) (p_cf p'). induction (su_conf su) as [|g gs IH]; intros l l' H; destruct H; simpl; constructor; auto.
  apply component_eq; auto.
Qed.
Lemma lh_at_eq cl o f c : (lh_at (component_lhs e cl) o f c == lh_at (component_lhs e' cl) o f c)%Q.
Proof.
  unfold lh_at. apply (@Forall2_nth_dflt _ _ Qeq); [reflexivity|]. apply (@Forall2_nth_dflt _ _ vec_eq); [constructor|].
  apply (@Forall2_nth_dflt _ _ meq); [constructor|]. apply component_lhs_eq.
Qed.
Definition roweq (a b : option (list Q)) : Prop := match a, b with Some x, Some y => vec_eq x y | None, None => True | _, _ => False end.
Lemma state_weights_eq cl : Forall2 (Forall2 roweq) (state_weights e cl) (state_weights e' cl).
Proof.
  destruct SP as (Hw & _). unfold state_weights, normalize_weights. cbn [e_weights env_of e_conf]. change (n_objects e') with (n_objects e).
  induction (has_components cl (su_conf su) (n_objects e)) as [|h hs IH]; simpl; constructor; auto.
  clear -Hw. induction Hw as [|w w' l l' Hw Hl IH]; simpl; constructor; auto. unfold roweq.
  destruct (normalize_row w h) as [a|] eqn:E.
  - destruct (normalize_row_eq Hw E) as (b & -> & Hb). exact Hb.
  - destruct (normalize_row w' h) as [b|] eqn:E'; auto. destruct (normalize_row_eq (vec_eq_sym Hw) E') as (a & E2 & _). congruence.
Qed.
Lemma source_weights_eq cl s : Forall2 oeq (source_weights (state_weights e cl) s) (source_weights (state_weights e' cl) s).
Proof.
  unfold source_weights. induction (source_positions s) as [|[[o f] c] l IH]; simpl; constructor; auto.
  assert (H : roweq (nth f (nth o (state_weights e cl) []) None) (nth f (nth o (state_weights e' cl) []) None)).
  { apply Forall2_nth_dflt; [exact I|]. apply (@Forall2_nth_dflt _ _ (Forall2 roweq)); [constructor|]. apply state_weights_eq. }
  unfold roweq in H. destruct (nth f (nth o (state_weights e cl) []) None), (nth f (nth o (state_weights e' cl) []) None); try contradiction; cbn [oeq]; auto.
  apply (@Forall2_nth_dflt _ _ Qeq); [reflexivity|exact H].
Qed.
Lemma source_lhs_eq cl s : Forall2 oeq (source_lhs (component_lhs e cl) s) (source_lhs (component_lhs e' cl) s).
Proof. unfold source_lhs. induction (source_positions s) as [|[[o f] c] l IH]; simpl; constructor; auto. apply lh_at_eq. Qed.
Lemma oprod_eq l l' : Forall2 oeq l l' -> oeq (oprod l) (oprod l').
Proof.
  unfold oprod. induction 1 as [|a b l l' Hab H IH]; simpl; [reflexivity|]. unfold oeq in Hab. destruct a, b; try contradiction; auto.
  destruct (S_model.all_some l), (S_model.all_some l'); cbn [option_map oeq] in *; auto. unfold Qprod in *. cbn [fold_right]. rewrite Hab, IH. reflexivity.
Qed.
Lemma mixture_lhs_eq cl : Forall2 oeq (mixture_lhs (component_lhs e cl) (state_weights e cl)) (mixture_lhs (component_lhs e' cl) (state_weights e' cl)).
Proof.
  unfold mixture_lhs.
  assert (G : forall A (l l' : list (list A)) (R : A -> A -> Prop), Forall2 (Forall2 R) l l' -> Forall2 R (concat l) (concat l')).
  { clear. induction 1; simpl; [constructor|]. apply Forall2_app; auto. }
  apply G. eapply Forall2_mapi; [apply state_weights_eq|]. cbv beta. intros o w w' Hw. eapply Forall2_mapi; [exact Hw|].
  intros f a b Hab. unfold roweq in Hab. destruct a, b; try contradiction; cbn [oeq]; auto. apply vec_eq_sum. eapply Forall2_mapi; [exact Hab|].
  intros c x y Hxy. cbv beta. rewrite Hxy, lh_at_eq. reflexivity.
Qed.
Lemma mixture_eq cl : (mixture e cl == mixture e' cl)%Q.
Proof.
  unfold mixture. cbn [e_from_prior env_of]. destruct (su_from_prior su); [reflexivity|]. pose proof (oprod_eq (mixture_lhs_eq cl)) as H. unfold oeq in H.
  destruct (oprod _), (oprod _); try contradiction; auto. reflexivity.
Qed.
Lemma source_density_eq x : (source_density e x == source_density e' x)%Q.
Proof.
  unfold source_density. cbn [e_from_prior env_of]. destruct (x_source x) as [s|]; [|reflexivity].
  pose proof (oprod_eq (source_weights_eq (x_clusters x) s)) as H1. pose proof (oprod_eq (source_lhs_eq (x_clusters x) s)) as H2. unfold oeq in *. destruct (su_from_prior su).
  - destruct (oprod (source_weights _ _)), (oprod (source_weights _ _)); try contradiction; auto. reflexivity.
  - unfold joint. destruct (oprod (source_weights (state_weights e _) _)), (oprod (source_weights (state_weights e' _) _)); try contradiction; [|reflexivity].
    destruct (oprod (source_lhs _ _)), (oprod (source_lhs _ _)); try contradiction; [|reflexivity]. rewrite H1, H2. reflexivity.
Qed.
Lemma data_density_eq x : (data_density e x == data_density e' x)%Q.
Proof. unfold data_density. destruct (x_source x); [apply source_density_eq|apply mixture_eq]. Qed.
Lemma full_ll_eq x : full_ll su p x = full_ll su p' x.
Proof.
  unfold full_ll, S_gsource.log_lh, log_mix. cbn [e_from_prior env_of]. destruct (x_source x) as [s|]; (destruct (su_from_prior su); [reflexivity|]).
  - pose proof (oprod_eq (source_lhs_eq (x_clusters x) s)) as H. unfold oeq in H. destruct (oprod _), (oprod _); try contradiction; auto. rewrite (Qeq_eqR _ _ H). reflexivity.
  - pose proof (oprod_eq (mixture_lhs_eq (x_clusters x))) as H. unfold oeq in H. destruct (oprod _), (oprod _); try contradiction; auto. rewrite (Qeq_eqR _ _ H). reflexivity.
Qed.
Variables (lnB : list R -> R) (prs : nat -> nat -> effect_prior) (r : bmat -> R).
Lemma Forall2_seq_sum A (F G : nat -> A -> R) (P : A -> A -> Prop) (l l' : list A) : Forall2 P l l' -> (forall i x y, P x y -> F i x = G i y) ->
  M_conj.Rsum (mapi F l) = M_conj.Rsum (mapi G l').
Proof.
  intros H HF. f_equal. enough (E : Forall2 eq (mapi F l) (mapi G l')) by (clear -E; induction E; f_equal; auto). eapply Forall2_mapi; eauto.
Qed.
Lemma log_prior_effect_eq applicable pr q q' : Forall2 vec_eq q q' -> log_prior_effect lnB applicable pr q = log_prior_effect lnB applicable pr q'.
Proof.
  intros H. unfold log_prior_effect. destruct pr; auto. unfold compute_group_effect_prior. rewrite (Forall2_len H). apply P_conj.Rsum_ext. intros f _. f_equal.
  unfold applicable_probs. apply map_ext. intros s. apply Qeq_eqR. apply (@Forall2_nth_dflt _ _ Qeq); [reflexivity|]. apply (@Forall2_nth_dflt _ _ vec_eq); [constructor|exact H].
Qed.
Lemma log_prior_effects_eq : log_prior_effects su lnB prs p = log_prior_effects su lnB prs p'.
Proof.
  destruct SP as (_ & _ & Hf). unfold log_prior_effects. eapply Forall2_seq_sum; [exact Hf|]. intros k ps ps' H. eapply Forall2_seq_sum; [exact H|].
  intros g q q' Hq. apply log_prior_effect_eq. exact Hq.
Qed.
Lemma full_prior_eq x : full_prior su lnB prs r p x = full_prior su lnB prs r p' x.
Proof.
  unfold full_prior, S_gsource.log_prior, log_cluster_prior. rewrite log_prior_effects_eq. destruct (x_source x) as [s|]; auto.
  pose proof (oprod_eq (source_weights_eq (x_clusters x) s)) as H. unfold oeq in H. destruct (oprod _), (oprod _); try contradiction; auto. rewrite (Qeq_eqR _ _ H). reflexivity.
Qed.
End Congruence.
Lemma joint_density_same su lnB prs r s s' : same_sample s s' -> joint_density su lnB prs r s = joint_density su lnB prs r s'.
Proof.
  intros (SP & Ec & Es). unfold joint_density. rewrite (log_prior_effects_eq su SP). replace (fs_cstate s') with (fs_cstate s) by (unfold fs_cstate; congruence).
  rewrite Ec. f_equal. f_equal. apply Qeq_eqR. apply data_density_eq; auto.
Qed.
