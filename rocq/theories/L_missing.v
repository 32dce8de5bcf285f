(** C52, likelihood part: a missing observation has likelihood one. *)
From Coq Require Import Lqa.
From Verif Require Import M_cache S_cache L_cache M_model S_model L_model.
Set Implicit Arguments.
Unset Strict Implicit.
Open Scope Q_scope.

Lemma forallb_negb_false v : Forall (fun b => b = false) v -> forallb negb v = true.
Proof. intros H. apply forallb_forall. rewrite Forall_forall in H. intros b Hb. rewrite (H b Hb). reflexivity. Qed.

Lemma component_missing nf features probs groups o f f_o v :
  nth_error features o = Some f_o -> nth_error f_o f = Some v -> Forall (fun b => b = false) v ->
  length f_o = nf -> length probs = length groups -> Forall (fun e : effect => length e = nf) probs ->
  nth f (nth o (spec_component nf features probs groups) []) 0 = 1.
Proof.
  unfold effect in *. intros Ho Hf Hv Hl Hg He. unfold spec_component, effect in *.
  set (F := fun (o0 : nat) (f_o0 : list (list bool)) => _).
  assert (H : nth_error (mapi F features) o = Some (F o f_o)) by (rewrite nth_error_mapi, Ho; reflexivity).
  rewrite (nth_error_nth _ _ [] H). unfold F; clear F H.
  assert (Hlt : (f < nf)%nat) by (rewrite <- Hl; apply nth_error_Some; congruence).
  assert (Hna : nth_error (na_row f_o) f = Some true)
    by (unfold na_row; rewrite nth_error_map, Hf; simpl; rewrite forallb_negb_false; auto).
  match goal with |- nth f (map2 ?g ?a ?b) 0 = 1 => assert (H : exists q, nth_error b f = Some q) end.
  { destruct (group_of groups o) as [i|] eqn:Ei.
    - unfold group_of in Ei. apply find_some in Ei as [Hi _]. apply in_seq in Hi.
      destruct (nth_error probs i) as [e|] eqn:Ee; [|apply nth_error_None in Ee; lia].
      rewrite (nth_error_nth _ _ [] Ee). unfold einsum_row. rewrite nth_error_map2, Hf.
      rewrite Forall_forall in He. pose proof (He e (nth_error_In _ _ Ee)).
      destruct (nth_error e f) eqn:E; [eauto|apply nth_error_None in E; lia].
    - exists 0. apply nth_error_repeat; auto. }
  destruct H as (q & Hq). apply nth_error_nth. rewrite nth_error_map2, Hna, Hq. reflexivity.
Qed.

Section Missing.
Variable V : Type.
Variable M : mdl V.

Lemma components_missing p o f c : well_shaped M p -> missing M o f -> (c <= length (m_conf M))%nat ->
  lh_at (spec_components M p) o f c = 1.
Proof.
  intros W (f_o & v & Ho & Hf & Hv) Hc. unfold lh_at, spec_components.
  assert (Hl : length f_o = m_nfeatures M).
  { pose proof (ws_features W) as H. rewrite Forall_forall in H. apply H. eapply nth_error_In; eauto. }
  destruct c as [|c]; simpl nth at 3.
  - eapply component_missing; eauto; [apply (ws_ce W)|apply (ws_ce_f W)].
  - destruct (nth_error (m_conf M) c) as [g|] eqn:Eg; [|apply nth_error_None in Eg; lia].
    destruct (nth_error (confounding_effects p) c) as [e|] eqn:Ee;
      [|apply nth_error_None in Ee; rewrite (ws_conf W) in Ee; lia].
    erewrite (nth_error_nth (map2 _ _ _)); [|rewrite nth_error_map2, Eg, Ee; reflexivity].
    eapply component_missing; eauto.
    + eapply (ws_conf_g W); eauto.
    + pose proof (ws_conf_f W) as H. rewrite Forall_forall in H. apply H. eapply nth_error_In; eauto.
Qed.

(** Position of (o, f) in the flattened matrix. *)
Lemma nth_error_concat A (ls : list (list A)) n o f l x :
  Forall (fun r => length r = n) ls -> nth_error ls o = Some l -> nth_error l f = Some x ->
  nth_error (concat ls) (o * n + f) = Some x.
Proof.
  intros H; revert o; induction H as [|r ls Hr _ IH]; intros [|o] Ho Hf; simpl in *; try discriminate.
  - injection Ho as ->. rewrite nth_error_app1; auto. apply nth_error_Some; congruence.
  - rewrite nth_error_app2 by lia. rewrite Hr. replace (n + o * n + f - n)%nat with (o * n + f)%nat by lia. auto.
Qed.

Lemma missing_mixture p o f :
  well_shaped M p -> missing M o f -> source p = None ->
  Forall (Forall (fun q => 0 < q)) (v_value (weights p)) ->
  has_some_component M p o ->
  exists q, nth_error (spec_likelihood M p) (o * m_nfeatures M + f) = Some (Some q) /\ q == 1.
Proof.
  intros W Hm Hs Hpos (gs & g & Hgs & Hg & Hog).
  pose proof Hm as (f_o & v & Ho & Hf & Hv).
  assert (Hl : length f_o = m_nfeatures M).
  { pose proof (ws_features W) as H. rewrite Forall_forall in H. apply H. eapply nth_error_In; eauto. }
  assert (Hlt : (f < m_nfeatures M)%nat) by (rewrite <- Hl; apply nth_error_Some; congruence).
  assert (Holt : (o < length (m_features M))%nat) by (apply nth_error_Some; congruence).
  unfold spec_likelihood. rewrite Hs. simpl. unfold mixture_lhs.
  destruct (nth_error (v_value (weights p)) f) as [w|] eqn:Ew;
    [|apply nth_error_None in Ew; rewrite (ws_weights W) in Ew; lia].
  assert (Hwl : length w = S (length (m_conf M))).
  { pose proof (ws_weights_c W) as H. rewrite Forall_forall in H. apply H. eapply nth_error_In; eauto. }
  assert (Hw : Forall (fun q => 0 < q) w) by (rewrite Forall_forall in Hpos; apply Hpos; eapply nth_error_In; eauto).
  set (h := map (fun gs => any_group gs o) (v_value (clusters p) :: m_conf M)).
  assert (Hh : nth_error (has_components (v_value (clusters p)) (m_conf M) (length (m_features M))) o = Some h).
  { unfold has_components. rewrite nth_error_map, (nth_error_nth' _ 0%nat) by (rewrite seq_length; lia).
    rewrite seq_nth by lia. reflexivity. }
  assert (Hhl : length h = length w) by (unfold h; rewrite map_length; simpl; congruence).
  assert (Hrow : nth_error (spec_weights M p) o = Some (map (fun w_f => normalize_row w_f h) (v_value (weights p)))).
  { unfold spec_weights, normalize_weights. rewrite nth_error_map, Hh. reflexivity. }
  destruct (normalize_row w h) as [r|] eqn:Er.
  2:{ exfalso. pose proof (proj1 (normalize_row_defined Hw Hhl) Er) as Er'.
      apply In_nth_error in Hgs as (c & Hc). apply (Er' c). unfold h. erewrite map_nth_error; [|exact Hc]. f_equal.
      unfold any_group. apply existsb_exists. eauto. }
  pose proof (normalize_row_distribution Hw Hhl Er) as (Hrl & _ & Hsum & _).
  exists (Qsum (mapi (fun c q => q * lh_at (spec_components M p) o f c) r)). split.
  - eapply nth_error_concat.
    + apply Forall_forall. intros x Hx. apply In_nth_error in Hx as (i & Hi). rewrite nth_error_mapi in Hi.
      unfold spec_weights, normalize_weights in Hi. rewrite nth_error_map in Hi.
      destruct (nth_error (has_components _ _ _) i); [|discriminate]. injection Hi as <-.
      rewrite mapi_length, map_length. apply (ws_weights W).
    + rewrite nth_error_mapi, Hrow. reflexivity.
    + rewrite nth_error_mapi, nth_error_map, Ew. simpl. rewrite Er. reflexivity.
  - rewrite <- Hsum. unfold mapi.
    rewrite (@Qsum_mapi_ext _ _ (fun _ q => q)).
    + assert (H : forall k l, mapi_from k (fun (_ : nat) (q : Q) => q) l = l)
        by (intros k l; revert k; induction l; intros; simpl; f_equal; auto). rewrite H. reflexivity.
    + intros c q Hc. rewrite components_missing; auto; [ring|].
      assert (c < length r)%nat; [apply nth_error_Some; congruence|lia].
Qed.

Lemma missing_source p o f c k src :
  well_shaped M p -> missing M o f -> source p = Some src -> (c <= length (m_conf M))%nat ->
  nth_error (source_positions (v_value src)) k = Some (o, f, c) ->
  nth_error (spec_likelihood M p) k = Some (Some 1).
Proof.
  intros W Hm Hs Hc Hk. unfold spec_likelihood. rewrite Hs. simpl. unfold source_lhs.
  rewrite nth_error_map, Hk. simpl. rewrite components_missing; auto.
Qed.

Variable v0 v1 : V.
Lemma missing_likelihood_mixture ss i s caching o f :
  Forall disjoint_groups (m_conf M) ->
  reachable v0 v1 M tracked_edit disjoint_pars ss -> nth_error ss i = Some s -> disjoint_pars (s_pars s) ->
  well_shaped M (s_pars s) -> missing M o f -> source (s_pars s) = None ->
  Forall (Forall (fun q => 0 < q)) (v_value (weights (s_pars s))) -> has_some_component M (s_pars s) o ->
  exists q, nth_error (snd (likelihood M caching s)) (o * m_nfeatures M + f) = Some (Some q) /\ q == 1.
Proof.
  intros. erewrite cached_likelihood_fresh; eauto. apply missing_mixture; auto.
Qed.
Lemma missing_likelihood_source ss i s caching o f c k src :
  Forall disjoint_groups (m_conf M) ->
  reachable v0 v1 M tracked_edit disjoint_pars ss -> nth_error ss i = Some s -> disjoint_pars (s_pars s) ->
  well_shaped M (s_pars s) -> missing M o f -> source (s_pars s) = Some src -> (c <= length (m_conf M))%nat ->
  nth_error (source_positions (v_value src)) k = Some (o, f, c) ->
  nth_error (snd (likelihood M caching s)) k = Some (Some 1).
Proof.
  intros. erewrite cached_likelihood_fresh; eauto. eapply missing_source; eauto.
Qed.
End Missing.
