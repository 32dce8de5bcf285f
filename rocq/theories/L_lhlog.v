(** Lemmas on the likelihood log (C71). *)
From Coq Require Import Lia.
From Verif Require Import L_mcmc L_model S_lhlog.
Set Implicit Arguments.
Unset Strict Implicit.
Open Scope nat_scope.

Section Run.
Variable S : Type.
Variable eval_obs : S -> list (option Q).
Variable pr : S -> xf.
Variable n_cells : S -> nat.
Let ll := eval_ll eval_obs.
Variable good : S -> Prop.
Variable n : nat.
Hypothesis good_len : forall s, good s -> length (eval_obs s) = n /\ n_cells s = n.

Definition obs_right (ch : chain S) (ob : option (list (option Q))) : Prop := ob = Some (eval_obs (content (c_obj ch))) /\ good (content (c_obj ch)).

Lemma obs_step_right ch d ob ch' b : obs_right ch ob ->
  (forall s, good s -> match d_prop d s with RInPlace _ _ _ => False | r => good (res_content s r) end) ->
  step ll pr false ch d = Ok (ch', b) -> obs_right ch' (obs_step eval_obs pr false ch d ob).
Proof.
  intros [H1 H2] Hd Hs. unfold obs_step, ll in *. rewrite Hs. unfold step in Hs. specialize (Hd _ H2).
  destruct (d_prop d (content (c_obj ch))) as [|s|s q qb|s q qb] eqn:Er; [| | |contradiction].
  - cbn in Hs. injection Hs as <- <-. split; [reflexivity|exact Hd].
  - cbn in Hs. injection Hs as <- <-. split; [reflexivity|exact Hd].
  - cbn [res_q res_q_back res_content res_aliased] in Hs.
    destruct (accept _ _ _ _ _ _ _) as [acc|]; cbn [rbind] in Hs; [|discriminate].
    destruct acc; injection Hs as <- <-; split; auto.
Qed.
Lemma step_chains_right i draws :
  (forall c s, good s -> match d_prop (draws c) s with RInPlace _ _ _ => False | r => good (res_content s r) end) ->
  forall chs c st obs chs' st', Forall2 obs_right chs obs ->
  step_chains ll pr false i draws c chs st = Ok (chs', st') ->
  Forall2 obs_right chs' (mapi_from c (fun c '(ch, ob) => obs_step eval_obs pr false ch (draws c) ob) (combine chs obs)).
Proof.
  intros Hd. induction chs as [|ch chs IH]; intros c st obs chs' st' H; cbn [step_chains].
  - intros [= <- <-]. inversion H; subst. constructor.
  - inversion H as [|? ob ? obs' Ho Hr]; subst.
    destruct (step ll pr false ch (draws c)) as [[ch' acc]|] eqn:Es; cbn [rbind]; [|discriminate].
    destruct (step_chains _ _ _ _ _ _ chs _) as [[rest st2]|] eqn:Er; cbn [rbind]; [|discriminate].
    intros [= <- <-]. cbn [combine mapi_from]. constructor.
    + pose proof (obs_step_right Ho (Hd c) Es) as G. exact G.
    + eapply IH; eauto.
Qed.

Definition row_of (o : obj S) (row : list (option Q)) : Prop :=
  row = eval_obs (content o) /\ last_lh o = Some (log_sum row) /\ good (content o).

Lemma lh_loop_rows draws n_steps n_samples : keeps good draws -> forall todo i sm obs log last f sm' log' last' w rows,
  Forall2 obs_right (chains sm) obs -> Forall (recorded ll pr false) (chains sm) -> chains sm <> [] ->
  (f = LhClosed /\ log = [] /\ rows = [] /\ w = n \/ f = LhOpen w rows /\ w = n) ->
  Forall2 (fun p row => row_of (snd p) row) log rows ->
  loop ll pr false n_steps n_samples draws todo i sm log last = Ok (sm', log', last') ->
  exists f' rows', lh_loop eval_obs pr false n_cells n_steps n_samples draws todo i sm obs f = Ok f' /\
    (f' = LhClosed /\ rows' = [] \/ f' = LhOpen n rows') /\ Forall2 (fun p row => row_of (snd p) row) log' rows'.
Proof.
  intros Hk. induction todo as [|todo IH]; intros i sm obs log last f sm' log' last' w rows Ho Hr Hne Hf Hl; cbn [loop lh_loop].
  - intros [= _ <- _]. exists f, rows. split; [reflexivity|]. split; auto. destruct Hf as [(-> & _ & -> & _)|[-> ->]]; auto.
  - fold ll. destruct (step_all ll pr false i (draws i) sm) as [sm1|] eqn:E; cbn [rbind]; [|discriminate].
    destruct (_ =? 0) eqn:E1 in |- *; [discriminate|].
    assert (Hc : forall c s, match d_prop (draws i c) s with RInPlace _ _ _ => True | _ => True end) by (intros; destruct (d_prop _ _); auto).
    assert (Hlen : length (chains sm1) = length (chains sm)).
    { unfold step_all in E. destruct (step_chains _ _ _ _ _ _ _ _) as [[chs st]|] eqn:Es; [|discriminate]. injection E as <-. cbn [chains].
      clear -Es. revert Es. generalize 0 as c, (statistics sm) as st0. revert chs st. induction (chains sm) as [|ch cs IHc]; intros chs st c st0; cbn [step_chains].
      - intros [= <- <-]. reflexivity.
      - destruct (step _ _ _ _ _) as [[ch' a]|]; cbn [rbind]; [|discriminate]. destruct (step_chains _ _ _ _ _ _ cs _) as [[r s2]|] eqn:Er; cbn [rbind]; [|discriminate].
        intros [= <- <-]. simpl. f_equal. eapply IHc; eauto. }
    set (obs' := mapi _ (combine (chains sm) obs)).
    assert (Ho1 : Forall2 obs_right (chains sm1) obs').
    { unfold step_all in E. destruct (step_chains _ _ _ _ _ _ _ _) as [[chs st]|] eqn:Es; [|discriminate]. injection E as <-.
      exact (@step_chains_right i (draws i) (Hk i) (chains sm) 0 (statistics sm) obs chs st Ho Es). }
    assert (Hr1 : Forall (recorded ll pr false) (chains sm1)).
    { assert (G : forall chs c st chs' st' obs, Forall2 obs_right chs obs -> Forall (recorded ll pr false) chs ->
        step_chains ll pr false i (draws i) c chs st = Ok (chs', st') -> Forall (recorded ll pr false) chs').
      { clear -Hk. induction chs as [|ch chs IHc]; intros c st chs' st' obs Ho Hr; cbn [step_chains].
        - intros [= <- <-]. constructor.
        - inversion Ho as [|? ob ? obs' Hob Hobs]; subst. inversion Hr as [|? ? Hch Hchs]; subst.
          destruct (step ll pr false ch (draws i c)) as [[ch' a]|] eqn:Es; cbn [rbind]; [|discriminate].
          destruct (step_chains _ _ _ _ _ _ chs _) as [[r s2]|] eqn:Er; cbn [rbind]; [|discriminate].
          intros [= <- <-]. constructor; [|eapply IHc; eauto].
          destruct Hob as [_ Hg]. specialize (Hk i c _ Hg).
          set (d := draws i c) in *. clearbody d.
          (* only the current content matters *)
          set (d' := {| d_op := d_op d; d_prop := fun _ => d_prop d (content (c_obj ch)); d_u := d_u d |}).
          assert (Es' : step ll pr false ch d' = Ok (ch', a)) by exact Es.
          assert (R : recorded ll pr false ch').
          { eapply step_recorded; [exact Hch| |exact Es']. intros s. cbn [d' d_prop]. destruct (d_prop d (content (c_obj ch))); auto. }
          exact R. }
      unfold step_all in E. destruct (step_chains _ _ _ _ _ _ _ _) as [[chs st]|] eqn:Es; [|discriminate]. injection E as <-.
      exact (G _ _ _ _ _ _ Ho Hr Es). }
    assert (Hne1 : chains sm1 <> []) by (intros E0; rewrite E0 in Hlen; destruct (chains sm); [auto|discriminate]).
    clear Hc. destruct (i mod steps_per_sample n_steps n_samples =? 0).
    + destruct (chains sm1) as [|ch chs] eqn:Ec; [congruence|]. cbn [nth_error option_map].
      clearbody obs'. destruct obs' as [|ob obs2]; [inversion Ho1|].
      inversion Ho1 as [|? ? ? ? Hob Hobs]; subst.
      inversion Hr1 as [|? ? Hch Hchs]; subst. destruct Hob as [-> Hg]. destruct (good_len Hg) as [G1 G2].
      assert (Hw : lh_write n_cells (content (c_obj ch)) (Some (eval_obs (content (c_obj ch)))) f = LhOpen n (rows ++ [eval_obs (content (c_obj ch))])).
      { unfold lh_write. destruct Hf as [(-> & -> & -> & ->)|[-> ->]]; rewrite ?G2, G1, Nat.eqb_refl; reflexivity. }
      rewrite Hw. intros HL.
      eapply (IH (Datatypes.S i) sm1 _ _ _ _ _ _ _ n (rows ++ [eval_obs (content (c_obj ch))])); [rewrite Ec|rewrite Ec| |right; auto| |exact HL].
      * constructor; [split; auto|exact Hobs].
      * constructor; auto.
      * rewrite Ec. discriminate.
      * apply Forall2_app; auto. constructor; [|constructor]. cbn [snd]. destruct Hch as (_ & _ & H3 & _). split; [reflexivity|]. split; [exact H3|exact Hg].
    + intros HL. eapply (IH (Datatypes.S i) sm1 obs' log _ f _ _ _ w rows); eauto.
Qed.
End Run.

(** * One row *)
Lemma concat_uniform A n (ls : list (list A)) : Forall (fun l => length l = n) ls ->
  length (concat ls) = length ls * n /\
  forall o f l x, nth_error ls o = Some l -> nth_error l f = Some x -> nth_error (concat ls) (o * n + f) = Some x.
Proof.
  induction 1 as [|l ls Hl F [IH1 IH2]]; [split; auto; intros [|o] f l x; discriminate|]. split.
  - simpl. rewrite app_length, IH1, Hl. reflexivity.
  - intros [|o] f l' x Ho Hf; cbn [nth_error concat] in *.
    + injection Ho as ->. rewrite nth_error_app1; auto. apply nth_error_Some. simpl. congruence.
    + rewrite nth_error_app2 by lia. rewrite Hl. replace (Datatypes.S o * n + f - n) with (o * n + f) by lia. eauto.
Qed.
Lemma one_true (v : list bool) (F : nat -> nat * nat * nat) : exactly_one v -> forall k, exists c, nth_error v c = Some true /\
  find (fun d => nth d v false) (seq 0 (length v)) = Some c /\
  concat (mapi_from k (fun d (b : bool) => if b then [F d] else []) v) = [F (k + c)].
Proof.
  induction v as [|b v IH]; intros (c & Hc & Hu) k; [destruct c; discriminate|].
  assert (Hz : forall w (m : nat), (forall d, nth_error w d <> Some true) -> concat (mapi_from m (fun d (b : bool) => if b then [F d] else []) w) = []).
  { clear. induction w as [|x w IHw]; intros m H; auto. cbn [mapi_from concat]. destruct x; [exfalso; apply (H 0); reflexivity|].
    apply IHw. intros d. apply (H (Datatypes.S d)). }
  destruct b.
  - exists 0. split; [reflexivity|]. split; [reflexivity|]. cbn [mapi_from concat]. rewrite Hz, Nat.add_0_r; [reflexivity|].
    intros d Hd. pose proof (Hu 0 eq_refl). pose proof (Hu (Datatypes.S d) Hd). congruence.
  - destruct c as [|c]; [discriminate|]. destruct (IH (ex_intro _ c (conj Hc (fun d Hd => f_equal pred (Hu (Datatypes.S d) Hd)))) (Datatypes.S k)) as (c' & H1 & H2 & H3).
    exists (Datatypes.S c'). split; [exact H1|]. split.
    + cbn [length seq find nth]. rewrite <- seq_shift. clear -H2. revert H2. generalize (seq 0 (length v)) as l.
      induction l as [|x l IHl]; simpl; [discriminate|]. destruct (nth x v false); [congruence|auto].
    + cbn [mapi_from concat]. rewrite H3. cbn [app]. do 2 f_equal. lia.
Qed.
Lemma nth_error_mapi_from A B (f : nat -> A -> B) l : forall k i, nth_error (mapi_from k f l) i = option_map (f (k + i)) (nth_error l i).
Proof.
  induction l as [|x l IH]; intros k [|i]; simpl; auto; [rewrite Nat.add_0_r; auto|]. rewrite IH. do 2 f_equal. lia.
Qed.
Lemma mapi_from_length A B (f : nat -> A -> B) l : forall k, length (mapi_from k f l) = length l.
Proof. induction l; intros; simpl; auto. Qed.
Lemma Forall_mapi_from A B (f : nat -> A -> B) (P : B -> Prop) l : (forall i x, In x l -> P (f i x)) -> forall k, Forall P (mapi_from k f l).
Proof. induction l as [|x l IH]; intros H k; simpl; constructor; [apply H; simpl; auto|]. apply IH. intros; apply H; simpl; auto. Qed.

Section Rows.
Variable V : Type.
Variable M : mdl V.
Lemma row_entries no nf nc p : fits M no nf nc p -> length (spec_likelihood M p) = no * nf /\
  forall o f, o < no -> f < nf -> nth_error (spec_likelihood M p) (o * nf + f) = Some (obs_lh M p o f).
Proof.
  intros (H1 & H2 & H3). unfold spec_likelihood, obs_lh. destruct (source p) as [src|]; cbn [option_map get_observation_lhs].
  - set (s := v_value src) in *. change (valid_source no nf nc s) in H3. clearbody s. destruct H3 as [Hl Hs].
    unfold source_lhs. set (G := fun '(o, f, c) => Some (lh_at (spec_components M p) o f c)).
    assert (E : map G (source_positions s) = concat (mapi (fun o s_o => mapi (fun f v =>
      option_map (fun c => lh_at (spec_components M p) o f c) (find (fun c => nth c v false) (seq 0 (length v)))) s_o) s)).
    { assert (I1 : forall k r, Forall (fun v => length v = nc /\ exactly_one v) r -> forall j,
        map G (concat (mapi_from j (fun f s_of => concat (mapi_from 0 (fun c (b : bool) => if b then [(k, f, c)] else []) s_of)) r)) =
        mapi_from j (fun f v => option_map (fun c => lh_at (spec_components M p) k f c) (find (fun c => nth c v false) (seq 0 (length v)))) r).
      { intros k r Hr. induction Hr as [|v r [_ Hv] Hr IHr]; intros j; auto.
        cbn [mapi_from concat]. destruct (@one_true v (fun c => (k, j, c)) Hv 0) as (c & _ & E2 & E3).
        rewrite map_app, E3, IHr, E2. reflexivity. }
      unfold source_positions, mapi. clear Hl.
      assert (I2 : forall k, map G (concat (mapi_from k (fun o s_o => concat (mapi_from 0 (fun f s_of => concat (mapi_from 0 (fun c (b : bool) => if b then [(o, f, c)] else []) s_of)) s_o)) s)) =
        concat (mapi_from k (fun o s_o => mapi_from 0 (fun f v => option_map (fun c => lh_at (spec_components M p) o f c) (find (fun c => nth c v false) (seq 0 (length v)))) s_o) s)).
      { induction Hs as [|r s [_ Hr] Hs IH]; intros k; auto. cbn [mapi_from concat]. rewrite map_app, IH, (I1 k r Hr). reflexivity. }
      apply I2. }
    rewrite E. assert (U : Forall (fun l => length l = nf) (mapi (fun o s_o => mapi (fun f v =>
      option_map (fun c => lh_at (spec_components M p) o f c) (find (fun c => nth c v false) (seq 0 (length v)))) s_o) s)).
    { apply Forall_mapi_from. intros i r Hr. unfold mapi. rewrite mapi_from_length. rewrite Forall_forall in Hs. apply Hs, Hr. }
    destruct (concat_uniform U) as [U1 U2]. split; [rewrite U1; unfold mapi; rewrite mapi_from_length, Hl; reflexivity|].
    intros o f Ho Hf. destruct (nth_error s o) as [r|] eqn:Er; [|apply nth_error_None in Er; lia].
    assert (Hr : length r = nf) by (rewrite Forall_forall in Hs; apply Hs; eapply nth_error_In; eauto).
    destruct (nth_error r f) as [v|] eqn:Ev; [|apply nth_error_None in Ev; lia].
    rewrite (nth_error_nth _ _ _ Er), (nth_error_nth _ _ _ Ev).
    eapply U2; [unfold mapi; rewrite nth_error_mapi_from, Er; reflexivity|]. unfold mapi. rewrite nth_error_mapi_from, Ev. reflexivity.
  - clear H3. unfold mixture_lhs.
    assert (Hw : length (spec_weights M p) = no /\ Forall (fun l => length l = nf) (spec_weights M p)).
    { unfold spec_weights, normalize_weights, has_components. rewrite !map_length, seq_length. split; auto.
      apply Forall_forall. intros x Hx. apply in_map_iff in Hx as (h & <- & _). rewrite map_length. auto. }
    destruct Hw as [W1 W2]. set (W := spec_weights M p) in *. clearbody W.
    set (F := fun o (w_o : list (option (list Q))) => mapi (fun f w_of => match w_of with None => None | Some w => Some (Qsum (mapi (fun c q => (q * lh_at (spec_components M p) o f c)%Q) w)) end) w_o).
    assert (U : Forall (fun l => length l = nf) (mapi F W)).
    { apply Forall_mapi_from. intros i r Hr. unfold F, mapi. rewrite mapi_from_length. rewrite Forall_forall in W2. apply W2, Hr. }
    destruct (concat_uniform U) as [U1 U2]. split; [rewrite U1; unfold mapi; rewrite mapi_from_length, W1; reflexivity|].
    intros o f Ho Hf. destruct (nth_error W o) as [r|] eqn:Er; [|apply nth_error_None in Er; lia].
    assert (Hr : length r = nf) by (rewrite Forall_forall in W2; apply W2; eapply nth_error_In; eauto).
    destruct (nth_error r f) as [v|] eqn:Ev; [|apply nth_error_None in Ev; lia].
    rewrite (nth_error_nth _ _ _ Er), (nth_error_nth _ _ _ Ev).
    eapply U2; [unfold mapi; rewrite nth_error_mapi_from, Er; reflexivity|]. unfold F, mapi. rewrite nth_error_mapi_from, Ev. destruct v; reflexivity.
Qed.
End Rows.

(** The logged sum. *)
Lemma log_sum_spec row : is_log_sum row (log_sum row).
Proof.
  assert (G : forall row, is_log_sum row (log_sum row)).
  2:{ apply G. }
  clear row. induction row as [|x row IH]; [exists []; cbn; auto|].
  unfold log_sum in *. cbn [fold_right]. set (y := fold_right _ _ row) in *. clearbody y.
  destruct x as [q|]; cbn [np_log].
  2:{ destruct y; cbn; auto. }
  destruct (Qlt_le_dec 0 q) as [Hq|Hq]; [|destruct (Qeq_bool q 0) eqn:E].
  - destruct y as [r| | |]; cbn [xadd is_log_sum] in *; auto.
    + destruct IH as (qs & -> & H1 & ->). exists (q :: qs). cbn. auto.
    + destruct IH as (qs & -> & H1 & H2). exists (q :: qs). conj; auto. constructor; auto. apply Qlt_le_weak; auto.
    + destruct IH as [IH|(p & H1 & H2)]; [left; right; auto|right; exists p; split; [right|]; auto].
  - apply Qeq_bool_iff in E. assert (Z : (0 <= q)%Q) by (rewrite E; apply Qle_refl). destruct y as [r| | |]; cbn [xadd is_log_sum] in *.
    + destruct IH as (qs & -> & H1 & _). exists (q :: qs). conj; auto. constructor; auto. eapply Forall_impl; [|exact H1]. cbv beta. intros; apply Qlt_le_weak; auto.
    + contradiction.
    + destruct IH as (qs & -> & H1 & H2). exists (q :: qs). conj; auto.
    + destruct IH as [IH|(p & H1 & H2)]; [left; right; auto|right; exists p; split; [right|]; auto].
  - assert (N : (q < 0)%Q). { apply Qle_lteq in Hq as [Hq|Hq]; auto. apply Qeq_bool_iff in Hq. congruence. }
    assert (X : xadd NaN y = NaN) by (destruct y; reflexivity). rewrite X. right. exists q. split; [left|]; auto.
Qed.
