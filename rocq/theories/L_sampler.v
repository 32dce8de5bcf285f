(** Lemmas for C72 and C73. *)
From Coq Require Import Lqa.
From Verif Require Import L_model L_operators L_init L_source L_params L_honest2 L_gsource2 L_mcmc S_honest S_sampler.
Set Implicit Arguments.
Unset Strict Implicit.
Close Scope R_scope.
Open Scope Q_scope.

(** * One source per observation: the two formulations *)
Lemma one_hot_one nc v : (exists c, (c < nc)%nat /\ v = map (Nat.eqb c) (seq 0 nc)) <->
  length v = nc /\ exists c, nth_error v c = Some true /\ forall d, nth_error v d = Some true -> d = c.
Proof.
  split.
  - intros (c & Hc & ->). rewrite map_length, seq_length. split; auto. exists c.
    assert (H : forall d, nth_error (map (Nat.eqb c) (seq 0 nc)) d = if (d <? nc)%nat then Some (c =? d)%nat else None).
    { intros d. rewrite nth_error_map. destruct (Nat.ltb_spec d nc).
      - rewrite (nth_error_nth' _ 0%nat) by (rewrite seq_length; auto). rewrite seq_nth by auto. reflexivity.
      - replace (nth_error (seq 0 nc) d) with (@None nat); auto. symmetry. apply nth_error_None. rewrite seq_length. auto. }
    rewrite H. destruct (Nat.ltb_spec c nc); [|lia]. rewrite Nat.eqb_refl. split; auto.
    intros d. rewrite H. destruct (Nat.ltb_spec d nc); [|discriminate]. intros [= E]. apply Nat.eqb_eq in E. auto.
  - intros (Hl & c & Hc & Hu). assert (Hlt : (c < nc)%nat) by (rewrite <- Hl; apply nth_error_Some; congruence).
    exists c. split; auto. apply nth_error_ext. intros d. rewrite nth_error_map. destruct (Nat.lt_ge_cases d nc) as [Hd|Hd].
    + rewrite (nth_error_nth' (seq 0 nc) 0%nat) by (rewrite seq_length; auto). rewrite seq_nth by auto. cbn [option_map Nat.add].
      destruct (nth_error v d) as [[]|] eqn:E.
      * rewrite (Hu d E), Nat.eqb_refl. reflexivity.
      * destruct (Nat.eqb_spec c d); [subst; congruence|reflexivity].
      * apply nth_error_None in E. lia.
    + replace (nth_error v d) with (@None bool) by (symmetry; apply nth_error_None; lia).
      replace (nth_error (seq 0 nc) d) with (@None nat) by (symmetry; apply nth_error_None; rewrite seq_length; lia). reflexivity.
Qed.
Lemma source_ok_one e cl s : source_ok e {| x_clusters := cl; x_source := Some s |} <-> one_source (n_objects e) (e_nf e) (n_comps e) s.
Proof.
  unfold source_ok, one_source. cbn [x_source]. split; intros [Hl H]; split; auto.
  - intros o row Ho. rewrite Forall_forall in H. destruct (H row) as [H1 H2]; [eapply nth_error_In; eauto|]. split; auto.
    intros f v Hf. rewrite Forall_forall in H2. apply one_hot_one, H2. eapply nth_error_In; eauto.
  - apply Forall_forall. intros row Hr. apply In_nth_error in Hr as (o & Ho). destruct (H o row Ho) as [H1 H2]. split; auto.
    apply Forall_forall. intros v Hv. apply In_nth_error in Hv as (f & Hf). apply one_hot_one, (H2 f v Hf).
Qed.

(** * Operators keep samples valid *)
Lemma valid_good su s : valid_sample su s -> good (env_of su (fs_params s)) (su_k su) (fs_cstate s).
Proof.
  intros [H1 H2 H3 _ _ _ H7]. unfold good. conj; auto. unfold fs_cstate. destruct (fs_source s) as [c|]; [|exact I].
  apply source_ok_one. apply H7.
Qed.
Lemma propose_source e o k x y : can_propose e o x y -> cluster_shape k (n_objects e) (x_clusters x) -> (x_source y = None <-> x_source x = None).
Proof.
  intros H Hs. destruct (propose_finishes H Hs) as (must & cl' & objs & q0 & qb0 & q & qb & Hf & _).
  unfold finish in Hf. destruct (e_resample e).
  - destruct (x_source x).
    + apply supp_bind in Hf as (rows & _ & Hf). apply supp_ret in Hf. injection Hf as -> _ _. simpl. split; discriminate.
    + apply supp_ret in Hf. destruct must; [discriminate|]. injection Hf as -> _ _. simpl. tauto.
  - apply supp_ret in Hf. injection Hf as -> _ _. simpl. tauto.
Qed.
Lemma cluster_step_valid su s o out r : valid_sample su s -> supp (run_op (env_of su (fs_params s)) o (fs_cstate s)) out ->
  cluster_result s out = Some r -> valid_sample su (res_content s r).
Proof.
  intros V H Hr. destruct out as [|y q qb|]; cbn [cluster_result] in Hr; [injection Hr as <-; exact V| |discriminate].
  injection Hr as <-. cbn [res_content]. set (e := env_of su (fs_params s)) in *.
  assert (Hc : can_propose e o (fs_cstate s) y) by (exists q, qb; exact H).
  pose proof (valid_good V) as G. fold e in G. pose proof (good_closed G Hc) as (G1 & G2 & G3 & G4).
  destruct V as [V1 V2 V3 V4 V5 V6 V7]. pose proof (propose_source Hc V1) as Hn. unfold fs_cstate in Hn; cbn [x_source] in Hn.
  constructor; cbn [fs_clusters fs_params fs_source]; auto.
  destruct y as [ycl [ys|]]; cbn [x_source x_clusters] in *.
  - destruct (fs_source s) as [c|]; [|exfalso; destruct Hn as [_ Hn]; specialize (Hn eq_refl); discriminate].
    split; [apply V7|]. apply source_ok_one in G4. exact G4.
  - destruct (fs_source s) as [c|]; [exfalso; destruct Hn as [Hn _]; specialize (Hn eq_refl); discriminate|]. exact V7.
Qed.
Lemma source_step_valid su s out r : valid_sample su s -> supp (gibbs_source (env_of su (fs_params s)) (fs_cstate s)) out ->
  source_result s out = Some r -> valid_sample su (res_content s r).
Proof.
  intros V H Hr. destruct out as [|y q qb|]; cbn [source_result] in Hr; try discriminate. injection Hr as <-. cbn [res_content].
  pose proof V as [V1 V2 V3 V4 V5 V6 V7].
  destruct (fs_source s) as [c|] eqn:Es.
  2: { unfold gibbs_source, fs_cstate in H. rewrite Es in H. cbn [x_source] in H. apply supp_ret in H. discriminate. }
  destruct (gibbs_one_source H) as (E1 & E2 & (ys & E3)).
  { unfold fs_cstate. cbn [x_source]. rewrite Es. intros s0 [= <-]. apply V7. }
  constructor; cbn [fs_clusters fs_params fs_source]; auto. rewrite E3. split; [apply V7|].
  destruct y as [ycl ysrc]. cbn [x_source] in *. subst ysrc. apply source_ok_one in E2. exact E2.
Qed.
(** The numbers of effects do not change. *)
Lemma params_step_lengths applicable op p p' : propose_params applicable op p = Some p' ->
  length (p_ce p') = length (p_ce p) /\ map (@length effect) (p_cf p') = map (@length effect) (p_cf p).
Proof.
  assert (E : forall which g h p, length (p_ce (edit_effect which g h p)) = length (p_ce p) /\
                                  map (@length effect) (p_cf (edit_effect which g h p)) = map (@length effect) (p_cf p)).
  { intros [k|] g h q; simpl; rewrite ?upd_length; split; auto.
    revert k. induction (p_cf q) as [|x l IH]; intros [|k]; simpl; auto; f_equal; auto. apply upd_length. }
  intros H. destruct op as [f i j d|i j ds|which g f i j d|which g ds]; cbn [propose_params] in H.
  - destruct (alter_pair _ _ _ _ _ _) as [[[row q] qb]|]; [|discriminate]. injection H as <-. auto.
  - injection H as <-. auto.
  - destruct (alter_pair _ _ _ _ _ _) as [[[row q] qb]|]; [|discriminate]. injection H as <-. apply E.
  - injection H as <-. apply E.
Qed.
Lemma Forall2_lengths (es : list (list effect)) (gs : list bmat) :
  Forall2 (fun e g => length e = length g) es gs <-> map (@length effect) es = map (@length (list bool)) gs.
Proof.
  split.
  - induction 1; simpl; congruence.
  - revert gs. induction es as [|e es IH]; intros [|g gs]; simpl; try discriminate; constructor.
    + congruence.
    + apply IH. congruence.
Qed.
Lemma params_step_valid su s op p : valid_sample su s -> draws_ok (su_nc su) (su_applicable su) op ->
  propose_params (su_applicable su) op (fs_params s) = Some p -> valid_sample su (with_params s p).
Proof.
  intros [V1 V2 V3 V4 V5 V6 V7] Hd H. destruct (params_step_lengths H) as [L1 L2].
  constructor; cbn [with_params fs_clusters fs_params fs_source]; auto.
  - eapply propose_ok; eauto.
  - congruence.
  - apply Forall2_lengths. rewrite L2. apply Forall2_lengths. exact V6.
Qed.
Lemma proposal_valid su s k r : valid_sample su s -> proposal su s k r -> valid_sample su (res_content s r).
Proof.
  intros V H. destruct H as [out r H Hr|out r H Hr|out r H Hr|out r H Hr|i j draws p Hd H|which g draws p Hd H|f i j draw p q qb Hd H|which g f i j draw p q qb Hd H| |which];
    cbn [res_content]; auto.
  - eapply (@cluster_step_valid su s OpAlter); eauto.
  - eapply (@cluster_step_valid su s OpGibbsish); eauto.
  - eapply (@cluster_step_valid su s OpGibbsish2); eauto.
  - eapply source_step_valid; eauto.
  - eapply params_step_valid; eauto.
  - eapply params_step_valid; eauto.
  - eapply params_step_valid; eauto.
  - eapply params_step_valid; eauto.
Qed.

(** * Runs *)
Section Runs.
Variables (T : Type) (P : T -> Prop) (ll pr : T -> xf) (fp : bool).
Let good_chain (ch : M_mcmc.chain T) : Prop := P (content (c_obj ch)).
Lemma step_inv ch d ch' b : good_chain ch -> P (res_content (content (c_obj ch)) (d_prop d (content (c_obj ch)))) ->
  M_mcmc.step ll pr fp ch d = Ok (ch', b) -> good_chain ch'.
Proof.
  intros H1 H2. unfold M_mcmc.step. cbv zeta. destruct (accept _ _ _ _ _ _ _) as [[]|]; cbn [rbind]; intros [= <- <-]; unfold good_chain; cbn [c_obj content]; auto.
  destruct (res_aliased _); auto.
Qed.
Lemma step_chains_inv i draws : forall chs c st chs' st',
  (forall j ch, nth_error chs j = Some ch -> good_chain ch -> P (res_content (content (c_obj ch)) (d_prop (draws (c + j)%nat) (content (c_obj ch))))) ->
  Forall good_chain chs -> step_chains ll pr fp i draws c chs st = Ok (chs', st') -> Forall good_chain chs'.
Proof.
  induction chs as [|ch chs IH]; intros c st chs' st' Hd H; cbn [step_chains].
  - intros [= <- <-]. constructor.
  - inversion H as [|? ? Hc Hr]; subst. destruct (M_mcmc.step ll pr fp ch (draws c)) as [[ch' acc]|] eqn:Es; cbn [rbind]; [|discriminate].
    destruct (step_chains ll pr fp i draws (Datatypes.S c) chs _) as [[rest st1]|] eqn:Er; cbn [rbind]; [|discriminate].
    intros [= <- <-]. constructor.
    + unfold good_chain, set_i_step. cbn [c_obj content]. eapply step_inv; [exact Hc| |exact Es].
      specialize (Hd 0%nat ch eq_refl Hc). rewrite Nat.add_0_r in Hd. exact Hd.
    + eapply IH; [|exact Hr|exact Er]. intros j ch0 Hj Hg. specialize (Hd (Datatypes.S j) ch0 Hj Hg). rewrite Nat.add_succ_r in Hd. exact Hd.
Qed.
Lemma after_inv draws sm0 n : Forall good_chain (chains sm0) ->
  (forall i c sm ch, (i < n)%nat -> after ll pr fp draws sm0 i = Ok sm -> nth_error (chains sm) c = Some ch -> good_chain ch ->
     P (res_content (content (c_obj ch)) (d_prop (draws i c) (content (c_obj ch))))) ->
  forall sm, after ll pr fp draws sm0 n = Ok sm -> Forall good_chain (chains sm).
Proof.
  intros H0. induction n as [|n IH]; intros Hd sm; cbn [after].
  - intros [= <-]. exact H0.
  - destruct (after ll pr fp draws sm0 n) as [sm1|] eqn:E; cbn [rbind]; [|discriminate].
    assert (H1 : Forall good_chain (chains sm1)) by (apply IH; auto; intros; eapply Hd; eauto).
    unfold step_all. destruct (step_chains _ _ _ _ _ _ _ _) as [[chs st]|] eqn:Ec; cbn [rbind]; [|discriminate].
    intros [= <-]. cbn [chains]. eapply step_chains_inv; [|exact H1|exact Ec]. intros j ch Hj Hg. eapply Hd; eauto.
Qed.
(** Every logged sample was the sample of a chain after some step. *)
Lemma loop_logged draws sm0 n_steps n_samples : forall todo i sm log last sm' log' last', after ll pr fp draws sm0 i = Ok sm ->
  loop ll pr fp n_steps n_samples draws todo i sm log last = Ok (sm', log', last') ->
  forall x, In x log' -> In x log \/
    exists j smj ch, (i < j <= i + todo)%nat /\ after ll pr fp draws sm0 j = Ok smj /\ In ch (chains smj) /\ c_obj ch = snd x.
Proof.
  induction todo as [|todo IH]; intros i sm log last sm' log' last' Ha; cbn [loop].
  - intros [= _ <- _] x Hx. auto.
  - destruct (step_all ll pr fp i (draws i) sm) as [sm1|] eqn:E; cbn [rbind]; [|discriminate].
    destruct (n_steps - 1 =? 0)%nat; [discriminate|]. intros H x Hx.
    assert (Ha1 : after ll pr fp draws sm0 (Datatypes.S i) = Ok sm1) by (cbn [after]; rewrite Ha; exact E).
    destruct (IH _ _ _ _ _ _ _ Ha1 H x Hx) as [Hin|(j & smj & ch & Hj & R)].
    + destruct (i mod steps_per_sample n_steps n_samples =? 0)%nat; auto.
      destruct (nth_error (chains sm1) 0) as [ch|] eqn:En; cbn [option_map] in Hin; auto.
      apply in_app_or in Hin as [Hin|[<-|[]]]; auto. right. exists (Datatypes.S i), sm1, ch. conj; auto; try lia.
      eapply nth_error_In; eauto.
    + right. exists j, smj, ch. split; auto. lia.
Qed.
Lemma warm_loop_after draws sm0 : forall todo i sm sm', after ll pr fp draws sm0 i = Ok sm -> warm_loop ll pr fp draws todo i sm = Ok sm' ->
  after ll pr fp draws sm0 (i + todo) = Ok sm'.
Proof.
  induction todo as [|todo IH]; intros i sm sm' Ha; cbn [warm_loop].
  - intros [= <-]. rewrite Nat.add_0_r. exact Ha.
  - destruct (step_all ll pr fp i (draws i) sm) as [sm1|] eqn:E; cbn [rbind]; [|discriminate]. intros H.
    rewrite Nat.add_succ_r. apply (IH (Datatypes.S i) sm1); auto. cbn [after]. rewrite Ha. exact E.
Qed.
Lemma best_in (chs : list (M_mcmc.chain T)) o : best_sample chs = Some o -> exists ch, In ch chs /\ c_obj ch = o.
Proof.
  unfold best_sample. destruct (map (@posterior T) chs) as [|x r]; [discriminate|].
  destruct (index_of _ _) as [i|]; [|discriminate]. destruct (nth_error chs i) as [ch|] eqn:E; [|discriminate].
  cbn [option_map]. intros [= <-]. exists ch. split; auto. eapply nth_error_In; eauto.
Qed.
End Runs.

(** * The initial sample *)
Lemma all_some_spec A (l : list (option A)) : forall r, all_some l = Some r <-> l = map Some r.
Proof.
  induction l as [|[x|] l IH]; intros r; cbn [all_some].
  - split; [intros [= <-]; reflexivity|]. destruct r; [reflexivity|discriminate].
  - split.
    + destruct (all_some l) as [r'|] eqn:E; [|discriminate]. intros [= <-]. simpl. f_equal. apply IH. reflexivity.
    + destruct r as [|y r]; simpl; [discriminate|]. intros [= -> ->]. destruct (IH r) as [_ H]. rewrite (H eq_refl). reflexivity.
  - split; [discriminate|]. destruct r; discriminate.
Qed.
Lemma all_some_length A (l : list (option A)) r : all_some l = Some r -> length r = length l.
Proof. intros H. apply all_some_spec in H. subst. rewrite map_length. reflexivity. Qed.
Lemma all_some_Forall A (l : list (option A)) (P : A -> Prop) r : all_some l = Some r ->
  (forall x, In (Some x) l -> P x) -> Forall P r.
Proof. intros H HP. apply all_some_spec in H. subst. apply Forall_forall. intros x Hx. apply HP, in_map, Hx. Qed.

Lemma Qsum_div (v : list Q) s : Qsum (map (fun q => q / s) v) == Qsum v / s.
Proof. unfold Qdiv. rewrite <- Qsum_scale. reflexivity. Qed.
Lemma normalize_simplex v w : Forall (fun q => 0 <= q) v -> M_operators.normalize v = Some w ->
  length w = length v /\ simplex w.
Proof.
  intros Hv. unfold M_operators.normalize. destruct (Qeq_bool (Qsum v) 0) eqn:E; [discriminate|]. intros [= <-].
  assert (Hs : 0 < Qsum v).
  { assert (H0 : 0 <= Qsum v).
    { clear -Hv. induction Hv; unfold Qsum in *; cbn [fold_right]; lra. }
    apply Qle_lteq in H0 as [H0|H0]; auto. symmetry in H0. apply Qeq_bool_iff in H0. congruence. }
  rewrite map_length. split; auto. split.
  - apply Forall_forall. intros q Hq. apply in_map_iff in Hq as (x & <- & Hx). rewrite Forall_forall in Hv.
    apply Qle_shift_div_l; auto. rewrite Qmult_0_l. auto.
  - rewrite Qsum_div. field. lra.
Qed.
Lemma normalize_same v w : simplex v -> M_operators.normalize v = Some w -> Forall2 Qeq w v.
Proof.
  intros [_ Hs]. unfold M_operators.normalize. destruct (Qeq_bool (Qsum v) 0) eqn:E; [discriminate|]. intros [= <-].
  generalize dependent (Qsum v). intros t Hs _. induction v as [|q v IH]; simpl; constructor; auto. rewrite Hs. field.
Qed.
Lemma Qsum_repeat1 n : Qsum (repeat 1 n) == inject_Z (Z.of_nat n).
Proof.
  induction n as [|n IH]; [reflexivity|]. cbn [repeat]. rewrite Qsum_cons, IH. rewrite Nat2Z.inj_succ. unfold Z.succ.
  rewrite inject_Z_plus. change (inject_Z 1) with 1. ring.
Qed.
Lemma initial_weights_ok su prev k' w : match prev with None => True | Some p => valid_sample (with_k su k') p end ->
  generate_initial_weights su prev = Some w ->
  length w = su_nf su /\ Forall (fun r => length r = su_nc su /\ simplex r) w /\
  match prev with None => True | Some p => same_weights w (p_weights (fs_params p)) end.
Proof.
  intros Hp H. unfold generate_initial_weights in H. pose proof (all_some_length H) as L. rewrite map_length in L.
  pose proof H as H0. apply all_some_spec in H0.
  set (W := match prev with Some p => p_weights (fs_params p) | None => _ end) in *.
  assert (HW : length W = su_nf su /\ Forall (fun r => length r = su_nc su /\ Forall (fun q => 0 <= q) r) W).
  { subst W. destruct prev as [p|].
    - destruct Hp as [_ _ _ (P1 & P2 & _) _ _ _]. split; [exact P1|]. apply Forall_forall. intros r Hr. rewrite Forall_forall in P2.
      destruct (P2 r Hr) as [A [B _]]. split; auto.
    - rewrite repeat_length. split; auto. apply Forall_forall. intros r Hr. apply repeat_spec in Hr. subst r. rewrite repeat_length. split; auto.
      apply Forall_forall. intros q Hq. apply repeat_spec in Hq. subst q. lra. }
  destruct HW as [HW1 HW2]. conj; [congruence| |].
  - eapply all_some_Forall; [exact H|]. intros x Hx. apply in_map_iff in Hx as (r & Hr & Hin). rewrite Forall_forall in HW2.
    destruct (HW2 r Hin) as [A B]. destruct (normalize_simplex B Hr) as [C D]. split; [congruence|exact D].
  - destruct prev as [p|]; [|exact I]. subst W. destruct Hp as [_ _ _ (_ & P2 & _) _ _ _]. clear -P2 H0. unfold same_weights.
    revert w H0. induction (p_weights (fs_params p)) as [|r l IH]; intros [|x w] H0; cbn [map] in H0; try discriminate; constructor.
    + injection H0 as H0 _. inversion P2 as [|? ? [_ A] B]; subst. eapply normalize_same; eauto.
    + injection H0 as _ H0. inversion P2; subst. apply IH; auto.
Qed.
Lemma initial_effect_ok features applicable group e : observed_applicable features applicable -> Forall (fun app => In true app) applicable ->
  all_some (initial_effect features group applicable) = Some e -> effect_ok applicable e.
Proof.
  intros Ho Hs H. apply all_some_spec in H.
  assert (L : length e = length applicable).
  { rewrite <- (map_length Some e), <- H. unfold initial_effect. apply mapi_length. }
  assert (G : forall f app v, nth_error applicable f = Some app -> nth_error e f = Some v -> simplex_on app v).
  { intros f app v Hf Hv. rewrite Forall_forall in Hs.
    destruct (@initial_effect_spec features group applicable f app Ho Hf (Hs _ (nth_error_In _ _ Hf))) as (v' & Hv' & S1 & S2 & S3).
    rewrite H, nth_error_map, Hv in Hv'. cbn [option_map] in Hv'. injection Hv' as <-. split; [exact S1|]. split; [split; [|exact S2]|].
    - apply Forall_forall. intros q Hq. apply In_nth_error in Hq as (s & Hq).
      destruct (nth_error app s) as [a|] eqn:Ea.
      + specialize (S3 s q a Hq Ea). destruct a; lra.
      + apply nth_error_None in Ea. assert (s < length v)%nat by (apply nth_error_Some; congruence). lia.
    - intros s Hsf. destruct (nth_error v s) as [q|] eqn:Eq; [|apply nth_error_None in Eq; rewrite nth_overflow by auto; reflexivity].
      rewrite (nth_error_nth _ _ 0 Eq). assert (s < length v)%nat by (apply nth_error_Some; congruence).
      rewrite S1 in H0. specialize (S3 s q false Eq). apply S3. rewrite (nth_error_nth' app false) by auto. congruence. }
  clear -L G. unfold effect_ok. revert e L G. induction applicable as [|app l IH]; intros [|v e] L G; try discriminate; constructor.
  - apply (G 0%nat); reflexivity.
  - apply IH; [simpl in L; lia|]. intros f. apply (G (S f)).
Qed.
Lemma initial_ce_ok su prev k' cl ce : valid_setup su -> match prev with None => True | Some p => valid_sample (with_k su k') p end ->
  generate_initial_cluster_effect su prev cl = Some ce ->
  length ce = su_k su /\ Forall (effect_ok (su_applicable su)) ce /\
  match prev with None => True | Some p => firstn k' ce = p_ce (fs_params p) end.
Proof.
  intros V Hp. unfold generate_initial_cluster_effect. set (old := match prev with Some p => p_ce (fs_params p) | None => [] end).
  destruct (Nat.ltb_spec (su_k su) (length old)) as [|Hl]; [discriminate|].
  destruct (all_some _) as [new|] eqn:E; [|discriminate]. cbn [option_map]. intros [= <-].
  pose proof (all_some_length E) as L. rewrite map_length, seq_length in L. conj.
  - assert (A : length (old ++ new) = (length old + length new)%nat) by apply app_length. rewrite A, L. unfold effect in *. lia.
  - apply Forall_app. split.
    + subst old. destruct prev as [p|]; [|constructor]. destruct Hp as [_ _ _ (_ & _ & P3 & _) _ _ _]. exact P3.
    + eapply all_some_Forall; [exact E|]. intros e He. apply in_map_iff in He as (i & He & _).
      destruct V. eapply initial_effect_ok; eauto.
  - destruct prev as [p|]; [|exact I]. subst old. destruct Hp as [_ _ _ _ P5 _ _]. cbn [with_k su_k] in P5. rewrite <- P5.
    rewrite firstn_app, Nat.sub_diag, firstn_all, firstn_O, app_nil_r. reflexivity.
Qed.
Lemma initial_cf_ok su prev k' cf : valid_setup su -> match prev with None => True | Some p => valid_sample (with_k su k') p end ->
  generate_initial_confounding_effects su prev = Some cf ->
  Forall2 (fun es gs => length es = length gs) cf (su_conf su) /\ Forall (Forall (effect_ok (su_applicable su))) cf /\
  match prev with None => True | Some p => cf = p_cf (fs_params p) end.
Proof.
  intros V Hp. unfold generate_initial_confounding_effects. destruct prev as [p|].
  - destruct Hp as [_ _ _ (_ & _ & _ & P4) _ P6 _]. cbn [with_k su_conf su_applicable] in *.
    destruct (Nat.ltb_spec (length (p_cf (fs_params p))) (length (su_conf su))); [discriminate|]. intros E. clear H.
    assert (R : cf = p_cf (fs_params p)).
    { clear P4. revert cf E. induction P6 as [|es gs l l' H P6 IH]; cbn [map2 all_some]; intros cf E.
      - injection E as <-. reflexivity.
      - unfold generate_initial_confounding_effect in E at 1. rewrite H, Nat.ltb_irrefl, Nat.sub_diag in E. cbn [repeat] in E.
        rewrite app_nil_r in E. match type of E with option_map _ ?x = _ => destruct x as [r|] eqn:Er end; [|discriminate]. cbn [option_map] in E. injection E as <-.
        rewrite (IH r eq_refl). reflexivity. }
    subst cf. conj; auto.
  - intros E. conj; auto.
    + apply all_some_spec in E. revert cf E. induction (su_conf su) as [|gs l IH]; intros [|es cf] E; cbn [map] in E; try discriminate; constructor.
      * injection E as E _. cbn [generate_initial_confounding_effect] in E. apply all_some_length in E. rewrite map_length in E. exact E.
      * injection E as _ E. apply IH; auto.
    + eapply all_some_Forall; [exact E|]. intros es He. apply in_map_iff in He as (gs & He & _). cbn [generate_initial_confounding_effect] in He.
      eapply all_some_Forall; [exact He|]. intros e Hin. apply in_map_iff in Hin as (g & Hg & _). destruct V. eapply initial_effect_ok; eauto.
Qed.
Lemma size_count c : size c = count_occ Bool.bool_dec c true.
Proof. unfold size. induction c as [|[] c IH]; simpl; auto. Qed.
Lemma nth_error_firstn A (l : list A) n i : (i < n)%nat -> nth_error (firstn n l) i = nth_error l i.
Proof. revert n i. induction l; intros [|n] [|i] H; simpl; auto; try lia. apply IHl. lia. Qed.
Lemma starts_valid su prev k' s : valid_setup su -> match prev with None => True | Some p => valid_sample (with_k su k') p end ->
  starts su prev s ->
  valid_sample su s /\
  match prev with
  | None => True
  | Some p => (k' <= su_k su)%nat /\ firstn k' (fs_clusters s) = fs_clusters p /\ firstn k' (p_ce (fs_params s)) = p_ce (fs_params p) /\
      p_cf (fs_params s) = p_cf (fs_params p) /\ same_weights (p_weights (fs_params s)) (p_weights (fs_params p))
  end.
Proof.
  intros V Hp (rnd & fuel & junk & d & Hj & H & Hs). unfold generate_initial_sample in H.
  set (pc := match prev with Some p => fs_clusters p | None => [] end) in *.
  destruct (generate_initial_clusters _ _ _ _ _ _ _) as [[cl|st|]|] eqn:Ec; try discriminate.
  destruct (generate_initial_weights su prev) as [w|] eqn:Ew; [|discriminate].
  destruct (generate_initial_cluster_effect su prev cl) as [ce|] eqn:Ee; [|discriminate].
  destruct (generate_initial_confounding_effects su prev) as [cf|] eqn:Ef; [|discriminate].
  destruct (initial_weights_ok Hp Ew) as (W1 & W2 & W3). destruct (initial_ce_ok V Hp Ee) as (C1 & C2 & C3).
  destruct (initial_cf_ok V Hp Ef) as (F1 & F2 & F3). pose proof V as [V1 [V2 V2'] V3 V4 V5].
  assert (Hpc : Forall (fun c => length c = su_n su) pc /\ disjoint_groups pc).
  { subst pc. destruct prev as [p|]; [destruct Hp as [[_ P1] P2 _ _ _ _ _]; auto|]. split; [constructor|].
    intros o i j H0. rewrite nth_overflow in H0 by (rewrite nth_overflow by (simpl; lia); simpl; lia). discriminate. }
  destruct Hpc as [Hp1 Hp2]. destruct (initial_clusters_spec V2 V3 Hp1 Hp2 Ec V1) as (G1 & G2 & G3 & G4).
  set (p := {| p_weights := w; p_ce := ce; p_cf := cf |}) in *.
  assert (Hd : fs_clusters s = cl /\ fs_params s = p /\
    match fs_source s with Some c => su_source su = true /\ one_source (su_n su) (su_nf su) (su_nc su) c | None => su_source su = false end).
  { injection H as <-. destruct (su_source su) eqn:Es.
    - apply supp_bind in Hs as (out & Ho & Hs). destruct out as [|y q qb|]; [destruct Hs as (? & [] & _)| |destruct Hs as (? & [] & _)].
      apply supp_ret in Hs. subst s. cbn [fs_clusters fs_params fs_source]. conj; auto.
      destruct (gibbs_one_source Ho) as (E1 & E2 & (ys & E3)).
      { cbn [x_source]. intros s0 [= <-]. exact Hj. }
      rewrite E3. split; auto. destruct y as [ycl ysrc]. cbn [x_source] in *. subst ysrc. apply source_ok_one in E2. exact E2.
    - apply supp_ret in Hs. subst s. cbn [fs_clusters fs_params fs_source]. conj; reflexivity. }
  destruct Hd as (D1 & D2 & D3). split.
  - constructor; rewrite ?D1, ?D2; auto.
    + apply Forall_forall. intros c Hc. apply In_nth_error in Hc as (i & Hi). rewrite <- size_count.
      destruct (Nat.lt_ge_cases i (length pc)) as [Hl|Hl].
      * subst pc. destruct prev as [q|]; [|simpl in Hl; lia]. destruct Hp as [_ _ P3 _ _ _ _]. unfold sizes_in in P3. rewrite Forall_forall in P3.
        rewrite size_count. apply P3. rewrite <- G2. apply nth_error_In with i. rewrite nth_error_firstn; auto.
      * destruct G1 as [G1 _]. assert (Hi' : (i < su_k su)%nat) by (rewrite <- G1; apply nth_error_Some; congruence).
        destruct (G4 i) as [G4' _]; auto. rewrite (nth_error_nth _ _ [] Hi) in G4'. lia.
    + unfold params_ok. cbn [p p_weights p_ce p_cf]. conj; auto.
  - destruct prev as [q|]; [|exact I]. subst pc. rewrite D1, D2. cbn [p p_weights p_ce p_cf].
    pose proof Hp as [[P1 _] _ _ _ P5 _ _]. cbn [with_k su_k] in P1, P5. conj; auto.
    + rewrite <- P5, <- C3. rewrite firstn_length, C1. lia.
    + rewrite <- P1. exact G2.
Qed.
(** Chains of a run stay valid. *)
Lemma run_valid su ll pr n_ops ss n draws sm : Forall (valid_sample su) ss ->
  drawn su ll pr (init_sampler ll pr (su_from_prior su) n_ops ss) n draws ->
  forall i, (i <= n)%nat -> after ll pr (su_from_prior su) draws (init_sampler ll pr (su_from_prior su) n_ops ss) i = Ok sm ->
  Forall (fun ch => valid_sample su (content (c_obj ch))) (chains sm).
Proof.
  intros H0 Hd i Hi Ha. eapply (@after_inv fsample (valid_sample su)); [| |exact Ha].
  - cbn [init_sampler chains]. apply Forall_map. eapply Forall_impl; [|exact H0]. intros s Hs. exact Hs.
  - intros j c sm' ch Hj Ha' Hn Hv. destruct (Hd j c sm' ch) as (k & _ & Hp); auto; [lia|]. eapply proposal_valid; eauto.
Qed.
Lemma whole_run_valid su ll pr n_ops warm_steps steps samples log : valid_setup su ->
  whole_run su ll pr n_ops warm_steps steps samples log -> Forall (fun x => valid_sample su (content (snd x))) log.
Proof.
  intros V [ws wdraws best wsm ss draws sm lg last Hw Hwd Hwu Hs Hd Hg]. 
  assert (B : valid_sample su (content best)).
  { unfold warm_up in Hwu. destruct (warm_loop _ _ _ _ _ _ _) as [wsm'|] eqn:E; cbn [rbind] in Hwu; [|discriminate].
    injection Hwu as Hb ->. destruct (best_in Hb) as (ch & Hin & <-).
    assert (A := @warm_loop_after _ ll pr (su_from_prior su) wdraws _ warm_steps 0 _ _ eq_refl E). cbn [Nat.add] in A.
    assert (W0 : Forall (valid_sample su) ws) by (eapply Forall_impl; [|exact Hw]; intros s Hst; apply (@starts_valid su None 0 s); auto).
    assert (R := @run_valid su ll pr n_ops ws warm_steps wdraws wsm W0 Hwd warm_steps ltac:(lia) A). rewrite Forall_forall in R. apply R; auto. }
  assert (S0 : Forall (valid_sample su) ss).
  { eapply Forall_impl; [|exact Hs]. intros s Hst. apply (@starts_valid su (Some (content best)) (su_k su) s); auto.
    destruct su; exact B. }
  apply Forall_forall. intros x Hx.
  destruct (@loop_logged _ ll pr (su_from_prior su) draws _ steps samples steps 0 _ [] None _ _ _ eq_refl Hg x Hx) as [[]|(j & smj & ch & Hj & Ha & Hin & <-)].
  assert (R := @run_valid su ll pr n_ops ss steps draws smj S0 Hd j ltac:(lia) Ha). rewrite Forall_forall in R. apply R; auto.
Qed.

(** * Values of the initial parameters *)
Lemma count_members features group f x : count_state features group f x = members_with features group f x.
Proof.
  unfold count_state, members_with, nonzero. induction (seq 0 (length group)) as [|o l IH]; auto. cbn [filter].
  destruct (nth o group false); cbn [filter andb]; [destruct (nth x _ _); cbn [length]; congruence|exact IH].
Qed.
Lemma sites_sum features group app f : Qsum (sites_per_state features group app f) ==
  inject_Z (Z.of_nat (list_sum (map (members_with features group f) (seq 0 (length app))) + n_true app)).
Proof.
  unfold sites_per_state, mapi.
  assert (G : forall app k, Qsum (mapi_from k (fun s (a : bool) => inject_Z (Z.of_nat (count_state features group f s)) + (if a then 1 else 0)) app) ==
    inject_Z (Z.of_nat (list_sum (map (members_with features group f) (seq k (length app))) + n_true app))).
  2:{ apply G. }
  clear app. induction app as [|a app IH]; intros k; [reflexivity|]. cbn [mapi_from length seq map]. rewrite L_params.Qsum_cons, IH. change (list_sum (?x :: ?l)) with (x + list_sum l)%nat.
  rewrite count_members. assert (E : n_true (a :: app) = ((if a then 1 else 0) + n_true app)%nat) by (unfold n_true; destruct a; reflexivity).
  rewrite E. replace (list_sum (members_with features group f k :: map (members_with features group f) (seq (S k) (length app)))) with
    (members_with features group f k + list_sum (map (members_with features group f) (seq (S k) (length app))))%nat by reflexivity.
  rewrite !Nat2Z.inj_add, !inject_Z_plus. destruct a; cbn [Z.of_nat]; change (inject_Z (Z.of_nat 1)) with 1; change (inject_Z (Z.of_nat 0)) with 0; ring.
Qed.
Lemma initial_effect_values features group applicable e : all_some (initial_effect features group applicable) = Some e ->
  smoothed_effect features group applicable e.
Proof.
  intros H. apply all_some_spec in H. split.
  - rewrite <- (map_length Some e), <- H. unfold initial_effect. apply mapi_length.
  - intros f app row Hf Hr. assert (E : nth_error (initial_effect features group applicable) f = Some (Some row)) by (rewrite H, nth_error_map, Hr; reflexivity).
    unfold initial_effect in E. rewrite nth_error_mapi, Hf in E. cbn [option_map] in E. cbv zeta in E.
    destruct (Qeq_bool (Qsum (sites_per_state features group app f)) 0) eqn:E0; [discriminate|]. apply Qeq_bool_neq in E0. injection E as <-.
    set (c := sites_per_state features group app f) in *. assert (L : length c = length app) by (unfold c, sites_per_state; apply mapi_length).
    split; [rewrite map_length; auto|]. intros x Hx. rewrite <- (sites_sum features group app f). fold c.
    assert (N : nth_error c x = Some (inject_Z (Z.of_nat (count_state features group f x)) + (if nth x app false then 1 else 0))).
    { unfold c, sites_per_state. rewrite nth_error_mapi, (nth_error_nth' app false) by auto. reflexivity. }
    assert (M : nth_error (map (fun q => q / Qsum c) c) x = Some ((inject_Z (Z.of_nat (count_state features group f x)) + (if nth x app false then 1 else 0)) / Qsum c))
      by (rewrite nth_error_map, N; reflexivity).
    rewrite (nth_error_nth _ _ 0 M). clear M N. clearbody c. rewrite count_members, Nat2Z.inj_add, inject_Z_plus.
    destruct (nth x app false); change (inject_Z (Z.of_nat 1)) with 1; change (inject_Z (Z.of_nat 0)) with 0; field; auto.
Qed.
Lemma all_some_nth A (l : list (option A)) r i x : all_some l = Some r -> nth_error r i = Some x -> nth_error l i = Some (Some x).
Proof. intros H Hx. apply all_some_spec in H. subst. rewrite nth_error_map, Hx. reflexivity. Qed.
Lemma starts_values su prev s : starts su prev s ->
  (prev = None -> Forall (Forall (fun q => q * inject_Z (Z.of_nat (su_nc su)) == 1)) (p_weights (fs_params s)) /\
     forall k gs es, nth_error (su_conf su) k = Some gs -> nth_error (p_cf (fs_params s)) k = Some es ->
       forall g grp e, nth_error gs g = Some grp -> nth_error es g = Some e -> smoothed_effect (su_features su) grp (su_applicable su) e) /\
  forall i e, (length (match prev with Some p => p_ce (fs_params p) | None => [] end) <= i)%nat -> nth_error (p_ce (fs_params s)) i = Some e ->
    smoothed_effect (su_features su) (nth i (fs_clusters s) []) (su_applicable su) e.
Proof.
  intros (rnd & fuel & junk & d & Hj & H & Hs). unfold generate_initial_sample in H.
  destruct (generate_initial_clusters _ _ _ _ _ _ _) as [[cl|st|]|] eqn:Ec; try discriminate.
  destruct (generate_initial_weights su prev) as [w|] eqn:Ew; [|discriminate].
  destruct (generate_initial_cluster_effect su prev cl) as [ce|] eqn:Ee; [|discriminate].
  destruct (generate_initial_confounding_effects su prev) as [cf|] eqn:Ef; [|discriminate].
  set (p := {| p_weights := w; p_ce := ce; p_cf := cf |}) in *.
  assert (Hd : fs_params s = p /\ fs_clusters s = cl).
  { injection H as <-. destruct (su_source su).
    - apply supp_bind in Hs as (out & Ho & Hs). destruct out as [|y q qb|]; [destruct Hs as (? & [] & _)| |destruct Hs as (? & [] & _)].
      apply supp_ret in Hs. subst s. split; reflexivity.
    - apply supp_ret in Hs. subst s. split; reflexivity. }
  destruct Hd as [-> ->]. unfold p. cbn [p_weights p_ce p_cf]. split.
  - intros ->. split.
    + unfold generate_initial_weights in Ew. eapply all_some_Forall; [exact Ew|]. intros x Hx. apply in_map_iff in Hx as (r & Hr & Hin).
      apply repeat_spec in Hin. subst r. generalize dependent (su_nc su). intros nc _ Hr. unfold M_operators.normalize in Hr. cbv zeta in Hr. destruct (Qeq_bool _ _) eqn:E0; [discriminate|]. apply Qeq_bool_neq in E0. injection Hr as <-.
      apply Forall_map. apply Forall_forall. intros q Hq. apply repeat_spec in Hq. subst q. rewrite Qsum_repeat1 in E0. rewrite Qsum_repeat1. field. exact E0.
    + intros k gs es Hgs Hes g grp e Hg He. unfold generate_initial_confounding_effects in Ef. apply (all_some_nth Ef) in Hes. rewrite nth_error_map, Hgs in Hes. cbn [option_map] in Hes.
      injection Hes as Hes. cbn [generate_initial_confounding_effect] in Hes. apply (all_some_nth Hes) in He. rewrite nth_error_map, Hg in He. injection He as He. apply initial_effect_values; auto.
  - intros i e Hi He. unfold generate_initial_cluster_effect in Ee. cbv zeta in Ee. set (old := match prev with Some p => p_ce (fs_params p) | None => [] end) in *.
    destruct (_ <? _)%nat; [discriminate|]. destruct (all_some _) as [new|] eqn:E; [|discriminate]. cbn [option_map] in Ee. injection Ee as <-.
    rewrite nth_error_app2 in He by exact Hi. apply (all_some_nth E) in He. rewrite nth_error_map in He.
    destruct (nth_error (seq _ _) _) as [j|] eqn:Ej; [|discriminate]. cbn [option_map] in He. injection He as He.
    assert (j = i). { apply nth_error_nth with (d := 0%nat) in Ej as Ej'. rewrite seq_nth in Ej'; [lia|]. rewrite <- seq_length with (start := length old). apply nth_error_Some. congruence. }
    subst j. apply initial_effect_values; auto.
Qed.
