(** Lemmas for C95: the random walks on weights and effects, closure, and the moves back. *)
From Coq Require Import Lra.
From Verif Require Import M_source M_conj M_gweights S_model S_operators S_source S_params S_mcmc S_honest S_gsource S_ergodic S_collapsed
  S_sampler S_progress P_conj P_gweights L_model L_operators L_source L_params L_balance L_honest L_honest2 L_gsource L_gsource2 L_collapsed L_sampler L_progress P_honest P_gsource S_joint L_joint L_joint2 L_joint3 L_joint4.
From Coq Require Lqa.
Set Implicit Arguments.
Unset Strict Implicit.

Lemma alter_defined D (logpdf : list Q -> list Q -> D) prec row i j d : (0 < nth i row 0 -> 0 < nth j row 0 ->
  exists q qb, alter_pair logpdf prec row i j (Some d) =
    Some (set2 i j (nth 0 d 0 * Qsum [nth i row 0; nth j row 0]) (nth 1 d 0 * Qsum [nth i row 0; nth j row 0]) row, q, qb))%Q.
Proof.
  intros Hi Hj. unfold alter_pair, dirichlet_proposal. cbv zeta. destruct (Qeq_bool (Qsum [nth i row 0; nth j row 0]%Q) 0) eqn:E; [|eauto].
  apply Qeq_bool_iff in E. rewrite Qsum2 in E. exfalso. Lqa.lra.
Qed.
Lemma alter_row_same D D' (l : list Q -> list Q -> D) (l' : list Q -> list Q -> D') prec row i j d row1 q qb row2 q' qb' :
  alter_pair l prec row i j d = Some (row1, q, qb) -> alter_pair l' prec row i j d = Some (row2, q', qb') -> row1 = row2.
Proof.
  intros H1 H2. apply alter_pair_inv in H1 as (_ & w & E1 & -> & _). apply alter_pair_inv in H2 as (_ & w' & E2 & -> & _). congruence.
Qed.
Lemma relative_draw row i j : (0 < nth i row 0 -> 0 < nth j row 0 -> dirichlet_draw 2 (relative row i j) /\ Forall (fun q => 0 < q) (relative row i j))%Q.
Proof.
  intros Hi Hj. unfold relative. set (a := nth i row 0%Q) in *. set (b := nth j row 0%Q) in *.
  assert (S : (0 < a + b)%Q) by Lqa.lra.
  assert (A : (0 < a / (a + b))%Q) by (apply Qlt_shift_div_l; auto; rewrite Qmult_0_l; auto).
  assert (B : (0 < b / (a + b))%Q) by (apply Qlt_shift_div_l; auto; rewrite Qmult_0_l; auto).
  repeat split; repeat constructor; auto using Qlt_le_weak. rewrite Qsum2. field. intros E. rewrite E in S. discriminate.
Qed.
(** Both halves of a random walk: forwards with [d], back with the relative entries. *)
Lemma alter_there_and_back D (logpdf : list Q -> list Q -> D) prec row i j d :
  (forall x x' a a', vec_eq x x' -> vec_eq a a' -> logpdf x a = logpdf x' a') ->
  dirichlet_draw 2 d -> (i < length row)%nat -> (j < length row)%nat -> i <> j -> (0 < nth i row 0)%Q -> (0 < nth j row 0)%Q ->
  exists row' row'' q qb, alter_pair logpdf prec row i j (Some d) = Some (row', q, qb) /\
    alter_pair (fun _ _ => tt) prec row i j (Some d) = Some (row', tt, tt) /\
    alter_pair logpdf prec row' i j (Some (relative row i j)) = Some (row'', qb, q) /\
    alter_pair (fun _ _ => tt) prec row' i j (Some (relative row i j)) = Some (row'', tt, tt) /\ vec_eq row'' row.
Proof.
  intros HP Hd Hi Hj N Pi Pj. destruct (@alter_defined _ logpdf prec row i j d Pi Pj) as (q & qb & E). destruct (@alter_defined _ (fun _ _ => tt) prec row i j d Pi Pj) as ([] & [] & E0).
  destruct (alter_pair_reverse HP Hd Hi Hj N E) as (row'' & E1 & V).
  destruct (@alter_pair_reverse _ (fun _ _ => tt) prec row i j d _ tt tt (fun _ _ _ _ _ _ => eq_refl) Hd Hi Hj N E0) as (row2 & E2 & _).
  pose proof (alter_row_same E1 E2). subst row2. eexists _, row'', q, qb. conj; eauto.
Qed.

Section Joint.
Variable su : setup.
Variable lnB : list R -> R.
Variable dpdf : list Q -> list Q -> R.
Variable bpdf : R -> R -> R -> R.
Variable prs : nat -> nat -> effect_prior.
Variable r : bmat -> R.
Hypothesis JS : joint_setting su dpdf prs r.
Notation joint_ := (joint_density su lnB prs r).
Notation density_ := (density su lnB dpdf bpdf prs r).
Notation app := (su_applicable su).

Lemma closure op s : positive_sample su s -> draws_ok (su_nc su) app op -> interior op -> positive_sample su (target su (Param op) s).
Proof.
  intros [V P] D I. cbn [target]. destruct (propose_params app op (fs_params s)) as [p|] eqn:E; [|split; auto].
  split; [eapply params_step_valid; eauto|]. eapply propose_positive; [apply V| | | |]; eauto.
Qed.
Lemma weight_row s f : positive_sample su s -> (f < length app)%nat ->
  length (nth f (p_weights (fs_params s)) []) = su_nc su /\ Forall (fun q => 0 < q)%Q (nth f (p_weights (fs_params s)) []).
Proof.
  intros [[_ _ _ (P1 & P2 & _) _ _ _] (Q1 & _)] Hf. rewrite Forall_forall in P2, Q1.
  assert (Hin : In (nth f (p_weights (fs_params s)) []) (p_weights (fs_params s))) by (apply nth_In; rewrite P1; exact Hf).
  split; [apply (P2 _ Hin)|apply (Q1 _ Hin)].
Qed.
Lemma pos_at (row : list Q) i : (i < length row)%nat -> Forall (fun q => 0 < q)%Q row -> (0 < nth i row 0)%Q.
Proof. intros Hi H. rewrite Forall_forall in H. apply H. apply nth_In. auto. Qed.

Definition reversed (mv : full_move) (s : fsample) : Prop :=
  let s' := target su mv s in let back := reverse su mv s in
  positive_sample su s' /\ admissible_move su back s' /\ same_sample (target su back s') s /\
  joint_ s * density_ mv s = joint_ s' * density_ back s'.

Lemma same_refl s : same_sample s s.
Proof. unfold same_sample, same_params. auto using vec2_refl, vec3_refl, vec4_refl. Qed.
Lemma reversed_discrete m y s : positive_sample su s -> admissible_move su (Discrete m y) s -> reversed (Discrete m y) s.
Proof.
  intros PS A. unfold reversed. cbv zeta. cbn [admissible_move] in A. split; [exact A|].
  assert (E : target su (reverse su (Discrete m y) s) (target su (Discrete m y) s) = s) by (destruct s; reflexivity).
  split; [|split].
  - unfold admissible_move. cbn [reverse]. cbn [reverse] in E. rewrite E. exact PS.
  - rewrite E. apply same_refl.
  - exact (@discrete_balance su lnB dpdf bpdf prs r JS m y s PS A).
Qed.
Lemma reversed_weights f i j d s : positive_sample su s -> admissible_move su (Param (AlterWeights f i j d)) s -> reversed (Param (AlterWeights f i j d)) s.
Proof.
  intros PS (D & I & M). unfold reversed. cbv zeta. pose proof (closure PS D I) as PS'. split; [exact PS'|].
  cbn [move_ok] in M. destruct d as [d|]; [|contradiction]. cbn [draws_ok interior opt_draw] in D, I. destruct D as (D1 & D2 & D3 & D4 & D5).
  destruct (weight_row PS D1) as [L P]. set (p := fs_params s) in *. set (row := nth f (p_weights p) []) in *.
  assert (Pi : (0 < nth i row 0)%Q) by (apply pos_at; auto; lia). assert (Pj : (0 < nth j row 0)%Q) by (apply pos_at; auto; lia).
  destruct (@alter_there_and_back _ dpdf prec_weights row i j d (js_dpdf JS) D5) as (row' & row'' & q & qb & E1 & E2 & E3 & E4 & V); auto; try lia.
  destruct (relative_draw Pi Pj) as [R1 R2].
  assert (T : target su (Param (AlterWeights f i j (Some d))) s = with_params s {| p_weights := upd f (fun _ => row') (p_weights p); p_ce := p_ce p; p_cf := p_cf p |}).
  { cbn [target propose_params]. fold p row. rewrite E2. reflexivity. }
  assert (Hf : (f < length (p_weights p))%nat) by (destruct PS as [[_ _ _ (P1 & _) _ _ _] _]; fold p in P1; lia).
  set (s' := target su (Param (AlterWeights f i j (Some d))) s) in *. cbn [reverse]. fold p row.
  assert (N : nth f (p_weights (fs_params s')) [] = row') by (rewrite T; cbn [with_params fs_params p_weights]; rewrite nth_upd_at by exact Hf; reflexivity).
  assert (T' : target su (Param (AlterWeights f i j (Some (relative row i j)))) s' = with_params s {| p_weights := upd f (fun _ => row'') (p_weights p); p_ce := p_ce p; p_cf := p_cf p |}).
  { cbn [target propose_params]. rewrite N, E4. cbn [option_map]. rewrite T. cbn [with_params fs_params p_weights p_ce p_cf]. rewrite upd_upd. reflexivity. }
  assert (SS : same_sample (target su (Param (AlterWeights f i j (Some (relative row i j)))) s') s).
  { rewrite T'. unfold same_sample, same_params. cbn [with_params fs_params fs_clusters fs_source p_weights p_ce p_cf]. fold p. conj; auto using vec3_refl, vec4_refl.
    apply upd_rel with (d := []); [apply vec_eq_rfl|exact V]. }
  split; [|split; [exact SS|]].
  - split; [|split; [exact R2|discriminate]]. cbn [draws_ok opt_draw]. auto.
  - cbn [density]. fold p row s'. rewrite E1, N, E3. apply (@proposal_balance su lnB dpdf prs r JS); auto.
Qed.
Lemma applicable_row s which g f : positive_sample su s -> (g < length (effect_list which (fs_params s)))%nat -> (f < length app)%nat ->
  forall i, nth i (nth f app []) false = true -> (i < length (nth f (get_effect which g (fs_params s)) []))%nat /\ (0 < nth i (nth f (get_effect which g (fs_params s)) []) 0)%Q.
Proof.
  intros PS Hg Hf i Hi. destruct (sample_effect PS Hg) as [O P]. destruct (L_params.Forall2_nth O (nth_error_nth' app [] Hf)) as (row & Hr & L & _). rewrite (nth_error_nth _ _ [] Hr). split.
  - rewrite L. destruct (Nat.lt_ge_cases i (length (nth f app []))); auto. rewrite nth_overflow in Hi by auto. discriminate.
  - pose proof (pos_effect_at P Hi) as H. rewrite (nth_error_nth _ _ [] Hr) in H. exact H.
Qed.
Lemma reversed_effects which g f i j d s : positive_sample su s -> admissible_move su (Param (AlterEffect which g f i j d)) s -> reversed (Param (AlterEffect which g f i j d)) s.
Proof.
  intros PS (D & I & M). unfold reversed. cbv zeta. pose proof (closure PS D I) as PS'. split; [exact PS'|].
  cbn [move_ok] in M. destruct M as [M Hg]. change (g < length (effect_list which (fs_params s)))%nat in Hg. destruct d as [d|]; [|contradiction]. cbn [draws_ok interior opt_draw] in D, I. destruct D as (D1 & D2 & D3 & D4 & D5).
  destruct (applicable_row PS Hg D1 D2) as [Li Pi]. destruct (applicable_row PS Hg D1 D3) as [Lj Pj]. destruct (sample_effect PS Hg) as [O _].
  set (p := fs_params s) in *. set (row := nth f (get_effect which g p) []) in *.
  destruct (@alter_there_and_back _ dpdf (prec_effect which) row i j d (js_dpdf JS) D5) as (row' & row'' & q & qb & E1 & E2 & E3 & E4 & V); auto.
  destruct (relative_draw Pi Pj) as [R1 R2].
  assert (T : target su (Param (AlterEffect which g f i j (Some d))) s = with_params s (edit_effect which g (upd f (fun _ => row')) p)).
  { cbn [target propose_params]. fold p row. rewrite E2. reflexivity. }
  assert (Hf : (f < length (get_effect which g p))%nat) by (rewrite <- (Forall2_len O); exact D1).
  set (s' := target su (Param (AlterEffect which g f i j (Some d))) s) in *. cbn [reverse]. fold p row.
  assert (N : nth f (get_effect which g (fs_params s')) [] = row').
  { rewrite T. cbn [with_params fs_params]. rewrite get_edit by exact Hg. rewrite nth_upd_at by exact Hf. reflexivity. }
  assert (T' : target su (Param (AlterEffect which g f i j (Some (relative row i j)))) s' = with_params s (edit_effect which g (fun x => upd f (fun _ => row'') (upd f (fun _ => row') x)) p)).
  { cbn [target propose_params]. rewrite N, E4. cbn [option_map]. rewrite T. cbn [with_params fs_params]. rewrite edit_edit. reflexivity. }
  assert (SS : same_sample (target su (Param (AlterEffect which g f i j (Some (relative row i j)))) s') s).
  { rewrite T'. unfold same_sample. cbn [with_params fs_params fs_clusters fs_source]. fold p. conj; auto. apply edit_same. cbn beta. rewrite upd_upd. apply upd_rel with (d := []); [apply vec_eq_rfl|exact V]. }
  split; [|split; [exact SS|]].
  - split; [|split; [exact R2|]]. { cbn [draws_ok opt_draw]. auto. } cbn [move_ok]. split; [discriminate|]. change (g < length (effect_list which (fs_params s')))%nat. rewrite T. cbn [with_params fs_params]. rewrite edit_length. exact Hg.
  - cbn [density]. fold p row s'. rewrite E1, N, E3. apply (@proposal_balance su lnB dpdf prs r JS); auto.
Qed.
Lemma reversed_gibbs_weights i j draws s : positive_sample su s -> admissible_move su (Param (GibbsWeights i j draws)) s -> reversed (Param (GibbsWeights i j draws)) s.
Proof.
  intros PS (D & I & M). unfold reversed. cbv zeta. pose proof (closure PS D I) as PS'. split; [exact PS'|]. cbn [move_ok] in M.
  destruct (weights_step bpdf PS D I eq_refl) as (V & B & F & _ & _). cbn [p_weights] in V.
  split; [|split].
  - cbn [reverse]. split; [|split].
    + cbn [draws_ok] in *. destruct D as (D1 & D2 & D3 & D4 & D5). conj; auto.
      * rewrite map2_length, D4. destruct PS as [[_ _ _ (P1 & _) _ _ _] _]. rewrite P1. apply Nat.min_id.
      * rewrite <- F in B. rewrite Forall_map in B. eapply Forall_impl; [|exact B]. cbn beta. intros a [B1 B2]. split; apply Qlt_le_weak; auto.
    + cbn [interior]. rewrite <- F in B. rewrite Forall_map in B. exact B.
    + exact M.
  - unfold same_sample, same_params. cbn [reverse target propose_params with_params fs_params fs_clusters fs_source p_weights p_ce p_cf]. conj; auto using vec3_refl, vec4_refl.
  - exact (@weights_balance su lnB dpdf bpdf prs r s i j draws PS D I M).
Qed.
Lemma reversed_gibbs_effect which g draws s : positive_sample su s -> admissible_move su (Param (GibbsEffect which g draws)) s -> reversed (Param (GibbsEffect which g draws)) s.
Proof.
  intros PS (D & I & M). unfold reversed. cbv zeta. pose proof (closure PS D I) as PS'. split; [exact PS'|]. cbn [move_ok] in M. destruct M as [M Hg].
  change (g < length (effect_list which (fs_params s)))%nat in Hg. destruct (sample_effect PS Hg) as [O P]. split; [|split].
  - cbn [reverse]. split; [|split].
    + cbn [draws_ok]. exact (entries_draw O).
    + cbn [interior]. exact (entries_pos P).
    + cbn [move_ok]. split; [exact M|]. change (g < length (effect_list which (edit_effect which g (fun e => gibbs_effect app e draws) (fs_params s))))%nat. rewrite edit_length. exact Hg.
  - unfold same_sample. cbn [reverse target propose_params with_params fs_params fs_clusters fs_source]. conj; auto. rewrite edit_edit. apply edit_same. cbn beta. exact (gibbs_back O D).
  - exact (@effect_balance su lnB dpdf bpdf prs r JS s which g draws PS D I M Hg).
Qed.
End Joint.
