(** Lemmas for C16-C21. *)
From Verif Require Import S_mcmc.
From Coq Require Import Lra.
Set Implicit Arguments.
Unset Strict Implicit.
Open Scope R_scope.

(** * The decision (C16) *)
Lemma accept_impossible a b c d q u : accept a b c d q NInf u = Ok false.
Proof. reflexivity. Qed.
Lemma accept_gibbs a b c d qb u : qb <> NInf -> accept a b c d NInf qb u = Ok true.
Proof. intros H. unfold accept. destruct qb; simpl; auto. congruence. Qed.
Lemma accept_finite a b c d q qb u : 0 < u ->
  accept (Fin a) (Fin b) (Fin c) (Fin d) (Fin q) (Fin qb) u =
  Ok (if Rlt_dec (ln u) ((a - b) - (q - qb) + (c - d)) then true else false).
Proof.
  intros Hu. unfold accept, math_log. simpl. destruct (Rlt_dec 0 u); [|contradiction]. simpl.
  unfold metropolis_hastings_ratio, xsub. simpl. f_equal.
  match goal with |- (if Rlt_dec _ ?x then _ else _) = (if Rlt_dec _ ?y then _ else _) => replace x with y by ring end.
  reflexivity.
Qed.
Lemma accept_zero ll_new ll_prev prior_new prior_prev q qb u : 0 < u ->
  log_density ll_new -> log_density prior_new -> ll_new = NInf \/ prior_new = NInf ->
  (exists r, ll_prev = Fin r) -> (exists r, prior_prev = Fin r) -> q <> NInf -> log_density qb -> q <> PInf ->
  accept ll_new ll_prev prior_new prior_prev q qb u = Ok false.
Proof.
  intros Hu H1 H2 H0 [r ->] [r' ->] Hq Hqb Hq'. unfold accept, math_log.
  destruct qb as [b| | |]; simpl in Hqb; try contradiction; [|reflexivity]. simpl.
  destruct q as [a| | |]; try congruence; simpl;
    destruct (Rlt_dec 0 u); try contradiction; simpl;
    destruct ll_new, prior_new; simpl in *; try contradiction; try (destruct H0; congruence);
    unfold metropolis_hastings_ratio, xsub; simpl; try reflexivity;
    destruct (Rlt_dec 0 1); try lra; reflexivity.
Qed.
Lemma accept_crash ll_new ll_prev prior_new prior_prev q qb : qb <> NInf -> q <> NInf ->
  accept ll_new ll_prev prior_new prior_prev q qb 0 = Err MathDomain.
Proof.
  intros H1 H2. unfold accept, math_log. destruct qb; simpl; try congruence; destruct q; simpl; try congruence;
  destruct (Rlt_dec 0 0); try lra; reflexivity.
Qed.
Lemma accept_positive ll_new ll_prev prior_new prior_prev q qb u : 0 < u ->
  exists b, accept ll_new ll_prev prior_new prior_prev q qb u = Ok b.
Proof.
  intros Hu. unfold accept, math_log. destruct (is_ninf qb); [eauto|]. destruct (is_ninf q); [eauto|].
  destruct (Rlt_dec 0 u); [|contradiction]. simpl. eauto.
Qed.

(** * Runs *)
Section Loop.
Variable S : Type.
Variables (eval_ll eval_prior : S -> xf).
Variable from_prior : bool.
Let step := step eval_ll eval_prior from_prior.
Let recorded := recorded eval_ll eval_prior from_prior.
Let step_chains := step_chains eval_ll eval_prior from_prior.
Let step_all := step_all eval_ll eval_prior from_prior.
Let after := after eval_ll eval_prior from_prior.

Lemma step_recorded ch d ch' b : recorded ch ->
  (forall s, match d_prop d s with RInPlace _ _ _ => False | _ => True end) ->
  step ch d = Ok (ch', b) -> recorded ch'.
Proof.
  intros (H1 & H2 & H3 & H4) Hd. unfold step, M_mcmc.step. cbv zeta.
  specialize (Hd (content (c_obj ch))).
  destruct (accept _ _ _ _ _ _ _) as [acc|] eqn:Ea; simpl; [|discriminate]. intros [= E].
  destruct acc.
  - injection E as <- <-. unfold recorded, S_mcmc.recorded; simpl. auto.
  - injection E as <- <-. unfold recorded, S_mcmc.recorded.
    destruct (d_prop d (content (c_obj ch))) as [|s|s q qb|s q qb]; simpl in *; auto.
    + (* a Gibbs step is never rejected *) discriminate.
    + contradiction.
Qed.
Lemma step_chains_recorded i draws : (forall c s, match d_prop (draws c) s with RInPlace _ _ _ => False | _ => True end) ->
  forall chs c st chs' st', Forall recorded chs -> step_chains i draws c chs st = Ok (chs', st') -> Forall recorded chs'.
Proof.
  intros Hd. induction chs as [|ch chs IH]; intros c st chs' st' H; simpl.
  - intros [= <- <-]. constructor.
  - inversion H as [|? ? Hc Hr]; subst. fold step.
    destruct (step ch (draws c)) as [[ch' acc]|] eqn:Es; simpl; [|discriminate].
    fold step_chains. destruct (step_chains i draws _ chs _) as [[rest st2]|] eqn:Er; simpl; [|discriminate].
    intros [= <- <-]. constructor.
    + exact (step_recorded Hc (Hd c) Es).
    + eapply IH; eauto.
Qed.
Lemma step_all_recorded i draws sm sm' : (forall c s, match d_prop (draws c) s with RInPlace _ _ _ => False | _ => True end) ->
  Forall recorded (chains sm) -> step_all i draws sm = Ok sm' -> Forall recorded (chains sm').
Proof.
  intros Hd H. unfold step_all, M_mcmc.step_all. fold step_chains.
  destruct (step_chains _ _ _ _ _) as [[chs st]|] eqn:E; simpl; [|discriminate]. intros [= <-]. simpl.
  eapply step_chains_recorded; eauto.
Qed.
Lemma init_recorded n_ops ss : Forall recorded (chains (init_sampler eval_ll eval_prior from_prior n_ops ss)).
Proof.
  simpl. apply Forall_forall. intros ch H. apply in_map_iff in H as (s & <- & _).
  unfold recorded, S_mcmc.recorded; simpl; auto.
Qed.
Lemma after_recorded draws n_ops ss n sm : configured draws ->
  after draws (init_sampler eval_ll eval_prior from_prior n_ops ss) n = Ok sm -> Forall recorded (chains sm).
Proof.
  intros Hd. revert sm; induction n as [|n IH]; intros sm; simpl.
  - intros [= <-]. apply init_recorded.
  - fold after step_all. destruct (after draws _ n) as [sm0|] eqn:E; simpl; [|discriminate].
    intros H. eapply step_all_recorded; [|eapply IH; reflexivity|exact H]. intros c s. apply Hd.
Qed.

(** * Counters *)
Definition good_stats (n_ops steps : nat) (st : stats) : Prop :=
  length (st_ops st) = n_ops /\ op_ops st = st_ops st /\ st_total st = sum_fst (st_ops st) /\
  (sum_fst (st_ops st) + sum_snd (st_ops st) = steps)%nat.
Lemma sum_count op acc l : (op < length l)%nat ->
  sum_fst (upd op (count acc) l) = ((if acc then 1 else 0) + sum_fst l)%nat /\
  sum_snd (upd op (count acc) l) = ((if acc then 0 else 1) + sum_snd l)%nat.
Proof.
  unfold sum_fst, sum_snd. revert op; induction l as [|[a r] l IH]; intros op H; simpl in *; [lia|].
  destruct op as [|op]; simpl.
  - destruct acc; simpl; lia.
  - destruct (IH op) as [H1 H2]; [lia|]. rewrite H1, H2. lia.
Qed.
Lemma register_good n_ops steps st op acc : good_stats n_ops steps st -> (op < n_ops)%nat ->
  good_stats n_ops (Datatypes.S steps) (register op acc st).
Proof.
  intros (H1 & H2 & H3 & H4) Hop. unfold good_stats, register; simpl.
  rewrite upd_length, H2. destruct (@sum_count op acc (st_ops st)) as [F1 F2]; [lia|].
  rewrite F1, F2. repeat apply conj; auto; destruct acc; lia.
Qed.
Lemma step_chains_good n_ops i draws : (forall c, (d_op (draws c) < n_ops)%nat) ->
  forall chs c st chs' st' k, good_stats n_ops k st -> step_chains i draws c chs st = Ok (chs', st') ->
  length chs' = length chs /\ good_stats n_ops (k + length chs) st'.
Proof.
  intros Hd. induction chs as [|ch chs IH]; intros c st chs' st' k H; simpl.
  - intros [= <- <-]. rewrite Nat.add_0_r. auto.
  - fold step. destruct (step ch (draws c)) as [[ch' acc]|]; simpl; [|discriminate].
    fold step_chains. destruct (step_chains i draws _ chs _) as [[rest st2]|] eqn:Er; simpl; [|discriminate].
    intros [= <- <-]. apply (IH _ _ _ _ (Datatypes.S k)) in Er; [|apply register_good; auto].
    simpl. destruct Er as [-> Er]. split; auto. replace (k + Datatypes.S (length chs))%nat with (Datatypes.S k + length chs)%nat by lia. exact Er.
Qed.
Lemma after_good draws n_ops ss n sm : ops_below n_ops draws ->
  after draws (init_sampler eval_ll eval_prior from_prior n_ops ss) n = Ok sm ->
  length (chains sm) = length ss /\ good_stats n_ops (n * length ss) (statistics sm).
Proof.
  intros Hd. revert sm; induction n as [|n IH]; intros sm; simpl.
  - intros [= <-]. simpl. rewrite map_length. split; auto. unfold good_stats; simpl. rewrite repeat_length.
    assert (H : sum_fst (repeat (0%nat, 0%nat) n_ops) = 0%nat /\ sum_snd (repeat (0%nat, 0%nat) n_ops) = 0%nat).
    { unfold sum_fst, sum_snd. clear. induction n_ops; simpl; auto. }
    destruct H as [-> ->]. auto.
  - fold after step_all. destruct (after draws _ n) as [sm0|] eqn:E; simpl; [|discriminate].
    destruct (IH _ eq_refl) as [Hl Hg]. unfold step_all, M_mcmc.step_all. fold step_chains.
    destruct (step_chains _ _ _ _ _) as [[chs st]|] eqn:E2; simpl; [|discriminate]. intros [= <-]. simpl.
    pose proof (step_chains_good (Hd n) Hg E2) as E3. rewrite Hl in E3.
    replace (length ss + n * length ss)%nat with (n * length ss + length ss)%nat by lia. auto.
Qed.

(** * Counters of single operators *)
Lemma list_sum_snoc l a : list_sum (l ++ [a]) = (list_sum l + a)%nat.
Proof. rewrite list_sum_app. simpl. lia. Qed.
Lemma register_nth k op acc st : (op < length (st_ops st))%nat ->
  nth k (st_ops (register op acc st)) (0%nat, 0%nat) =
  (fst (nth k (st_ops st) (0%nat, 0%nat)) + (if Nat.eqb op k && Bool.eqb acc true then 1 else 0),
   snd (nth k (st_ops st) (0%nat, 0%nat)) + (if Nat.eqb op k && Bool.eqb acc false then 1 else 0))%nat.
Proof.
  intros Hop. unfold register; simpl. destruct (Nat.eqb_spec op k) as [->|Hne].
  - rewrite (nth_error_nth _ k _ (x := count acc (nth k (st_ops st) (0%nat, 0%nat)))).
    + unfold count. destruct acc; simpl; f_equal; lia.
    + rewrite nth_error_upd_same, (nth_error_nth' _ (0%nat, 0%nat)) by auto. reflexivity.
  - simpl. rewrite !Nat.add_0_r. rewrite <- surjective_pairing.
    destruct (Nat.lt_ge_cases k (length (st_ops st))) as [Hk|Hk].
    + apply nth_error_nth. rewrite nth_error_upd_other by auto. apply nth_error_nth'; auto.
    + rewrite !nth_overflow; auto. rewrite upd_length; auto.
Qed.
Definition acc_of (ch : chain S) (d : draw S) : bool := match step ch d with Ok (_, b) => b | Err _ => false end.
Lemma step_chains_ops k i draws : forall chs c st chs' st', (forall c, (d_op (draws c) < length (st_ops st))%nat) ->
  step_chains i draws c chs st = Ok (chs', st') ->
  length (st_ops st') = length (st_ops st) /\
  nth k (st_ops st') (0%nat, 0%nat) =
  (fst (nth k (st_ops st) (0%nat, 0%nat)) + list_sum (mapi_from c (fun j ch => if Nat.eqb (d_op (draws j)) k && Bool.eqb (acc_of ch (draws j)) true then 1 else 0) chs),
   snd (nth k (st_ops st) (0%nat, 0%nat)) + list_sum (mapi_from c (fun j ch => if Nat.eqb (d_op (draws j)) k && Bool.eqb (acc_of ch (draws j)) false then 1 else 0) chs))%nat.
Proof.
  induction chs as [|ch chs IH]; intros c st chs' st' Hd; simpl.
  - intros [= <- <-]. rewrite !Nat.add_0_r, <- surjective_pairing. auto.
  - fold step. unfold acc_of at 1 3. destruct (step ch (draws c)) as [[ch' acc]|] eqn:Es; simpl; [|discriminate].
    fold step_chains. destruct (step_chains i draws _ chs _) as [[rest st2]|] eqn:Er; simpl; [|discriminate].
    intros [= <- <-]. assert (Hr : length (st_ops (register (d_op (draws c)) acc st)) = length (st_ops st)) by (simpl; apply upd_length).
    apply IH in Er as [E1 E2]; [|intros c'; rewrite Hr; auto]. split; [congruence|]. rewrite E2, register_nth by auto. simpl. f_equal; lia.
Qed.
Lemma mapi_seq_sum A (f : nat -> A -> nat) (g : nat -> nat) l : forall c, (forall j x, nth_error l j = Some x -> f (c + j)%nat x = g (c + j)%nat) ->
  list_sum (mapi_from c f l) = list_sum (map g (seq c (length l))).
Proof.
  induction l as [|x l IH]; intros c H; simpl; auto. f_equal.
  - specialize (H 0%nat x eq_refl). rewrite Nat.add_0_r in H. exact H.
  - apply IH. intros j y Hj. specialize (H (Datatypes.S j) y Hj). rewrite Nat.add_succ_r in H. exact H.
Qed.
Lemma after_ops draws n_ops ss n sm k : ops_below n_ops draws ->
  after draws (init_sampler eval_ll eval_prior from_prior n_ops ss) n = Ok sm ->
  length (st_ops (statistics sm)) = n_ops /\
  nth k (st_ops (statistics sm)) (0%nat, 0%nat) =
  (tally eval_ll eval_prior from_prior draws (init_sampler eval_ll eval_prior from_prior n_ops ss) n (length ss) k true,
   tally eval_ll eval_prior from_prior draws (init_sampler eval_ll eval_prior from_prior n_ops ss) n (length ss) k false).
Proof.
  intros Hd. revert sm; induction n as [|n IH]; intros sm H.
  - simpl in H. injection H as <-. simpl. rewrite repeat_length. split; auto. unfold tally. simpl.
    generalize n_ops as m. clear. intros m. revert k. induction m as [|m IH]; intros [|k]; simpl; auto.
  - pose proof H as H0. simpl in H. fold after step_all in H. destruct (after draws _ n) as [sm0|] eqn:E; simpl in H; [|discriminate].
    destruct (IH _ eq_refl) as [Hl Hn]. destruct (after_good Hd E) as [Hc _]. unfold step_all, M_mcmc.step_all in H. fold step_chains in H.
    destruct (step_chains _ _ _ _ _) as [[chs st]|] eqn:E2; simpl in H; [|discriminate]. injection H as <-. simpl.
    apply (@step_chains_ops k) in E2 as [E3 E4]; [|intros c; rewrite Hl; apply Hd]. split; [congruence|]. rewrite E4, Hn. simpl.
    unfold tally. rewrite !(seq_S n), !map_app. cbn [map]. rewrite !list_sum_snoc. cbn [Nat.add].
    assert (G : forall b, list_sum (mapi_from 0 (fun j ch => if Nat.eqb (d_op (draws n j)) k && Bool.eqb (acc_of ch (draws n j)) b then 1%nat else 0%nat) (chains sm0)) =
      list_sum (map (fun c => if Nat.eqb (d_op (draws n c)) k && Bool.eqb (accepts eval_ll eval_prior from_prior draws (init_sampler eval_ll eval_prior from_prior n_ops ss) n c) b then 1%nat else 0%nat) (seq 0 (length ss)))).
    { intros b. rewrite <- Hc. apply mapi_seq_sum. intros j ch Hj. simpl. unfold accepts. unfold after in E. rewrite E, Hj. reflexivity. }
    rewrite !G. reflexivity.
Qed.

(** * The loop is iteration of steps *)
Lemma loop_after draws sm n_steps n_samples : (n_steps <> 1)%nat ->
  forall todo i sm0 log last, after draws sm i = Ok sm0 -> (i + todo <= n_steps)%nat ->
  loop eval_ll eval_prior from_prior n_steps n_samples draws todo i sm0 log last =
  match after draws sm (i + todo) with
  | Err e => loop eval_ll eval_prior from_prior n_steps n_samples draws todo i sm0 log last
  | Ok sm' =>
      Ok (sm',
          log ++ concat (map (fun j => if (j mod steps_per_sample n_steps n_samples =? 0)%nat
                            then match cold_sample eval_ll eval_prior from_prior draws sm (Datatypes.S j) with
                                 | Some o => [((j / steps_per_sample n_steps n_samples)%nat, o)] | None => [] end
                            else []) (seq i todo)),
          fold_left (fun l j => if ((j mod (n_steps - 1) =? 0) && negb (j =? 0))%nat
                                then cold_sample eval_ll eval_prior from_prior draws sm (Datatypes.S j) else l) (seq i todo) last)
  end.
Proof.
  intros Hn. induction todo as [|todo IH]; intros i sm0 log last H Hle.
  - rewrite Nat.add_0_r. rewrite H. simpl. rewrite app_nil_r. reflexivity.
  - destruct (after draws sm (i + Datatypes.S todo)) as [sm'|] eqn:Ea; [|reflexivity].
    assert (Hnext : exists sm1, step_all i (draws i) sm0 = Ok sm1 /\ after draws sm (Datatypes.S i) = Ok sm1).
    { assert (Hs : exists sm1, after draws sm (Datatypes.S i) = Ok sm1).
      { clear IH Hle. replace (i + Datatypes.S todo)%nat with (Datatypes.S i + todo)%nat in Ea by lia.
        revert Ea. generalize (Datatypes.S i) as m. intros m. revert sm'.
        induction todo as [|t IHt]; intros sm' Ea; [rewrite Nat.add_0_r in Ea; eauto|].
        replace (m + Datatypes.S t)%nat with (Datatypes.S (m + t)) in Ea by lia. simpl in Ea. fold after in Ea.
        destruct (after draws sm (m + t)) as [sm2|] eqn:E2; [|discriminate]. eauto. }
      destruct Hs as [sm1 Hs]. exists sm1. split; auto. simpl in Hs. fold after step_all in Hs. rewrite H in Hs. exact Hs. }
    destruct Hnext as (sm1 & Hst & Haf). simpl loop. fold step_all. rewrite Hst. simpl rbind.
    destruct (Nat.eqb_spec (n_steps - 1) 0) as [E0|E0]; [lia|].
    assert (Hc : option_map (@c_obj S) (nth_error (chains sm1) 0) =
                 cold_sample eval_ll eval_prior from_prior draws sm (Datatypes.S i)).
    { unfold cold_sample. fold after. rewrite Haf. reflexivity. }
    simpl nth_error in Hc. rewrite Hc. rewrite IH by (auto; lia).
    replace (Datatypes.S i + todo)%nat with (i + Datatypes.S todo)%nat by lia. rewrite Ea.
    f_equal. f_equal. f_equal. simpl seq. simpl map. simpl concat.
    destruct (Nat.eqb _ _); [|reflexivity].
    destruct (cold_sample _ _ _ _ _ _); rewrite <- ?app_assoc; reflexivity.
Qed.

Lemma after_ok draws sm n : positive_draws draws -> exists sm', after draws sm n = Ok sm'.
Proof.
  intros Hp. induction n as [|n [sm' IH]]; simpl; [eauto|]. fold after. rewrite IH. simpl. fold step_all.
  unfold step_all, M_mcmc.step_all. fold step_chains.
  assert (H : forall chs c st, exists r, step_chains n (draws n) c chs st = Ok r).
  { induction chs as [|ch chs IHc]; intros c st; simpl; [eauto|].
    unfold M_mcmc.step. cbv zeta.
    edestruct accept_positive as [b Hb]; [apply (Hp n c)|]. rewrite Hb. simpl.
    destruct b; simpl; fold step_chains; match goal with |- context [step_chains n (draws n) ?c ?ch ?s] =>
      destruct (IHc c s) as [[r1 r2] Hr]; rewrite Hr end; simpl; eauto. }
  destruct (H (chains sm') 0%nat (statistics sm')) as [[r1 r2] ->]. simpl. eauto.
Qed.

Lemma after_chains_length draws sm n sm' : after draws sm n = Ok sm' -> length (chains sm') = length (chains sm).
Proof.
  revert sm'; induction n as [|n IH]; intros sm'; simpl; [intros [= <-]; auto|]. fold after step_all.
  destruct (after draws sm n) as [sm0|]; simpl; [|discriminate]. rewrite <- (IH _ eq_refl).
  unfold step_all, M_mcmc.step_all. fold step_chains.
  destruct (step_chains _ _ _ _ _) as [[chs st]|] eqn:E2; simpl; [|discriminate]. intros [= <-]. simpl.
  revert E2. generalize 0%nat as c. generalize (statistics sm0) as st0. revert chs st. generalize (chains sm0) as l.
  induction l as [|ch l IHl]; intros chs st st0 c; simpl; [intros [= <- <-]; auto|].
  fold step step_chains. destruct (step ch _) as [[ch' acc]|]; simpl; [|discriminate].
  destruct (step_chains _ _ _ _ _) as [[rest st2]|] eqn:Er; simpl; [|discriminate].
  intros [= <- <-]. simpl. f_equal. eapply IHl; eauto.
Qed.

Lemma steps_per_sample_exact m s : (0 < m)%nat -> steps_per_sample (s * m) m = s.
Proof.
  intros Hm. unfold steps_per_sample. replace (s * m + m - 1)%nat with (s * m + (m - 1))%nat by lia.
  rewrite Nat.div_add_l by lia. rewrite Nat.div_small by lia. lia.
Qed.

(** Multiples of [s] among [0, s*m). *)
Lemma concat_multiples A (f : nat -> list A) s m : (0 < s)%nat ->
  concat (map (fun j => if (j mod s =? 0)%nat then f j else []) (seq 0 (s * m))) =
  concat (map (fun k => f (k * s)%nat) (seq 0 m)).
Proof.
  intros Hs. induction m as [|m IH]; [rewrite Nat.mul_0_r; reflexivity|].
  rewrite seq_S, map_app, concat_app, <- IH. simpl (0 + m)%nat.
  replace (s * Datatypes.S m)%nat with (s * m + s)%nat by lia. rewrite seq_app, map_app, concat_app. f_equal.
  change (0 + s * m)%nat with (s * m)%nat. cbn [map concat]. rewrite app_nil_r.
  assert (Hseq : forall a, seq a s = a :: seq (Datatypes.S a) (s - 1)).
  { intros a. destruct s as [|s']; [lia|]. rewrite Nat.sub_succ, Nat.sub_0_r. reflexivity. }
  rewrite Hseq, map_cons, concat_cons. rewrite (Nat.mul_comm s m), Nat.mod_mul by lia. rewrite Nat.eqb_refl.
  rewrite <- (app_nil_r (f (m * s)%nat)) at 2. f_equal.
  assert (H : forall t k, (0 < k)%nat -> (k + t <= s)%nat ->
    concat (map (fun j => if (j mod s =? 0)%nat then f j else []) (seq (m * s + k) t)) = []).
  { induction t as [|t IHt]; intros k Hk Hkt; [reflexivity|]. cbn [seq map concat].
    rewrite (Nat.add_comm (m * s) k), Nat.mod_add, Nat.mod_small by lia.
    destruct (Nat.eqb_spec k 0) as [E0|E0]; [lia|].
    replace (Datatypes.S (k + m * s))%nat with (m * s + Datatypes.S k)%nat by lia. apply IHt; lia. }
  replace (Datatypes.S (m * s))%nat with (m * s + 1)%nat by lia.
  apply H; lia.
Qed.
Lemma concat_single A (f : nat -> list A) (g : nat -> A) l : (forall k, In k l -> f k = [g k]) -> concat (map f l) = map g l.
Proof.
  induction l as [|x l IH]; intros H; [reflexivity|]. simpl. rewrite H by (left; auto). simpl. f_equal. apply IH.
  intros k Hk. apply H. right; auto.
Qed.

Lemma fold_last A (f : nat -> option A) n : (2 <= n)%nat ->
  fold_left (fun l j => if ((j mod (n - 1) =? 0) && negb (j =? 0))%nat then f j else l) (seq 0 n) None = f (n - 1)%nat.
Proof.
  intros Hn. destruct n as [|n]; [lia|]. rewrite seq_S, fold_left_app. cbn [fold_left].
  replace (Datatypes.S n - 1)%nat with n by lia. change (0 + n)%nat with n. rewrite Nat.mod_same, Nat.eqb_refl by lia.
  destruct (Nat.eqb_spec n 0); [lia|]. reflexivity.
Qed.

Theorem samples_logged draws n_ops ss steps samples : valid_spacing steps samples -> (1 < steps)%nat ->
  positive_draws draws -> ss <> [] ->
  exists sm obs, generate_samples eval_ll eval_prior from_prior n_ops ss steps samples draws =
      Ok (sm, combine (seq 0 samples) obs, cold_sample eval_ll eval_prior from_prior draws (init_sampler eval_ll eval_prior from_prior n_ops ss) steps) /\
    after draws (init_sampler eval_ll eval_prior from_prior n_ops ss) steps = Ok sm /\
    length obs = samples /\
    forall j, (j < samples)%nat -> nth_error obs j =
      cold_sample eval_ll eval_prior from_prior draws (init_sampler eval_ll eval_prior from_prior n_ops ss) (Datatypes.S (j * (steps / samples))).
Proof.
  intros (H1 & H2 & H3) Hs Hp Hss. set (sm0 := init_sampler eval_ll eval_prior from_prior n_ops ss).
  destruct (after_ok sm0 steps Hp) as [sm Hsm].
  assert (Hcold : forall n, exists o, cold_sample eval_ll eval_prior from_prior draws sm0 n = Some o).
  { intros n. unfold cold_sample. fold after. destruct (after_ok sm0 n Hp) as [sm' Hsm']. rewrite Hsm'.
    pose proof (after_chains_length Hsm') as Hl. unfold sm0 in Hl; simpl in Hl. rewrite map_length in Hl.
    destruct (nth_error (chains sm') 0) as [ch|] eqn:E; [simpl; eauto|].
    apply nth_error_None in E. destruct ss; [congruence|simpl in Hl; lia]. }
  assert (Hst : (steps = (steps / samples) * samples)%nat).
  { pose proof (Nat.div_mod steps samples ltac:(lia)) as D. rewrite H3 in D. lia. }
  set (s := (steps / samples)%nat) in *.
  assert (Hspos : (0 < s)%nat) by (destruct s; lia).
  destruct (Hcold 0%nat) as [o0 _].
  set (g := fun j => match cold_sample eval_ll eval_prior from_prior draws sm0 (Datatypes.S (j * s)) with Some o => o | None => o0 end).
  exists sm, (map g (seq 0 samples)). conj; auto.
  - unfold generate_samples. fold sm0.
    rewrite (@loop_after draws sm0 steps samples ltac:(lia) steps 0 sm0 [] None eq_refl ltac:(lia)). simpl (0 + steps)%nat.
    rewrite Hsm. simpl app. f_equal. f_equal; [f_equal|].
    + assert (Hsps : steps_per_sample steps samples = s) by (rewrite Hst at 1; apply steps_per_sample_exact; lia).
      rewrite Hsps. replace (seq 0 steps) with (seq 0 (s * samples)) by (f_equal; lia).
      rewrite (@concat_multiples _ (fun j => match cold_sample eval_ll eval_prior from_prior draws sm0 (Datatypes.S j) with
               | Some o => [((j / s)%nat, o)] | None => [] end)) by auto.
      rewrite (@concat_single _ _ (fun k => (k, g k))).
      * generalize (seq 0 samples) as l. induction l as [|x l IH]; [reflexivity|]. simpl. f_equal; auto.
      * intros k _. unfold g. destruct (Hcold (Datatypes.S (k * s))) as [o ->]. rewrite Nat.div_mul by lia. reflexivity.
    + rewrite fold_last by lia. f_equal. lia.
  - rewrite map_length, seq_length. reflexivity.
  - intros j Hj. erewrite map_nth_error; [|apply (nth_error_nth' _ 0%nat); rewrite seq_length; exact Hj].
    rewrite seq_nth by auto. simpl. unfold g. destruct (Hcold (Datatypes.S (j * s))) as [o ->]. reflexivity.
Qed.

(** Every logged sample carries its own likelihood and prior. *)
Lemma cold_recorded draws n_ops ss n o : configured draws ->
  cold_sample eval_ll eval_prior from_prior draws (init_sampler eval_ll eval_prior from_prior n_ops ss) n = Some o ->
  last_lh o = Some (lh_of eval_ll from_prior (content o)) /\ last_prior o = Some (eval_prior (content o)).
Proof.
  intros Hc. unfold cold_sample. fold after. destruct (after draws _ n) as [sm|] eqn:E; [|discriminate].
  apply after_recorded in E; auto. destruct (nth_error (chains sm) 0) as [ch|] eqn:En; [|discriminate].
  intros [= <-]. rewrite Forall_forall in E. apply nth_error_In in En. destruct (E _ En) as (_ & _ & H3 & H4). auto.
Qed.
Lemma loop_recorded draws n_steps n_samples : configured draws -> forall todo i sm log last sm' log' last',
  Forall recorded (chains sm) ->
  Forall (fun p => last_lh (snd p) = Some (lh_of eval_ll from_prior (content (snd p))) /\ last_prior (snd p) = Some (eval_prior (content (snd p)))) log ->
  loop eval_ll eval_prior from_prior n_steps n_samples draws todo i sm log last = Ok (sm', log', last') ->
  Forall (fun p => last_lh (snd p) = Some (lh_of eval_ll from_prior (content (snd p))) /\ last_prior (snd p) = Some (eval_prior (content (snd p)))) log'.
Proof.
  intros Hc. induction todo as [|todo IH]; intros i sm log last sm' log' last' Hr Hl; simpl.
  - intros [= _ <- _]. auto.
  - fold step_all. destruct (step_all i (draws i) sm) as [sm1|] eqn:E; simpl; [|discriminate].
    destruct (_ =? 0)%nat; [discriminate|]. apply step_all_recorded in E; auto; [|intros c s; apply Hc].
    apply IH; auto. destruct (_ =? 0)%nat; auto. destruct (chains sm1) as [|ch chs]; simpl; auto.
    inversion E as [|? ? Hch _]; subst. destruct Hch as (_ & _ & H3 & H4).
    apply Forall_app; split; auto.
Qed.
End Loop.

(** * The maximum *)
Lemma xle_refl a : a <> NaN -> xle a a.
Proof. destruct a; simpl; auto; try lra. Qed.
Lemma xle_trans a b c : xle a b -> xle b c -> xle a c.
Proof. destruct a, b, c; simpl; intros; try contradiction; auto; lra. Qed.
Lemma xlt_false a b : a <> NaN -> b <> NaN -> xlt a b = false -> xle b a.
Proof. destruct a, b; simpl; intros; try congruence; auto. destruct (Rlt_dec r r0); [discriminate|lra]. Qed.
Lemma xlt_true a b : xlt a b = true -> xle a b.
Proof. destruct a, b; simpl; intros; try discriminate; auto. destruct (Rlt_dec r r0); [lra|discriminate]. Qed.
Lemma xmax_spec l : forall best, best <> NaN -> Forall (fun x => x <> NaN) l ->
  In (xmax best l) (best :: l) /\ Forall (fun x => xle x (xmax best l)) (best :: l).
Proof.
  induction l as [|x l IH]; intros best Hb Hl; simpl.
  - split; auto. constructor; auto. apply xle_refl; auto.
  - inversion Hl as [|? ? Hx Hl']; subst. destruct (xlt best x) eqn:E.
    + destruct (IH x Hx Hl') as [H1 H2]. inversion H2; subst. split.
      * destruct H1; auto.
      * constructor; [eapply xle_trans; [apply xlt_true; exact E|]; auto|constructor; auto].
    + destruct (IH best Hb Hl') as [H1 H2]. inversion H2; subst. split.
      * destruct H1; auto.
      * constructor; auto. constructor; auto. eapply xle_trans; [apply xlt_false; [| |exact E]; auto|auto].
Qed.
Lemma xeqb_spec a b : b <> NaN -> xeqb a b = true <-> a = b.
Proof.
  intros Hb. destruct a, b; simpl; try congruence; try (split; congruence).
  destruct (Req_EM_T r r0); split; intros; try congruence.
Qed.
Lemma index_of_spec v l : v <> NaN -> In v l -> exists i, index_of v l = Some i /\ nth_error l i = Some v /\
  forall j, (j < i)%nat -> nth_error l j <> Some v.
Proof.
  intros Hv. induction l as [|x l IH]; intros Hin; [contradiction|]. simpl.
  destruct (xeqb x v) eqn:E.
  - apply xeqb_spec in E as ->; auto. exists 0%nat. conj; auto. intros j Hj; lia.
  - destruct Hin as [->|Hin]; [rewrite (proj2 (xeqb_spec v Hv) eq_refl) in E; discriminate|].
    destruct (IH Hin) as (i & Hi & Hn & Hj). exists (Datatypes.S i). rewrite Hi. conj; auto.
    intros [|j] Hlt; simpl; [intros [= ->]; rewrite (proj2 (xeqb_spec v Hv) eq_refl) in E; discriminate|apply Hj; lia].
Qed.
Lemma best_sample_spec S (chs : list (chain S)) : chs <> [] -> Forall (fun ch => posterior ch <> NaN) chs ->
  exists i ch, nth_error chs i = Some ch /\ best_sample chs = Some (c_obj ch) /\
    Forall (fun ch' => xle (posterior ch') (posterior ch)) chs /\
    forall j ch', (j < i)%nat -> nth_error chs j = Some ch' -> posterior ch' <> posterior ch.
Proof.
  intros Hne Hnan. destruct chs as [|c0 chs]; [congruence|]. inversion Hnan as [|? ? H0 Hr]; subst.
  unfold best_sample. simpl map.
  assert (Hr' : Forall (fun x => x <> NaN) (map (@posterior S) chs)).
  { apply Forall_forall. intros x Hx. apply in_map_iff in Hx as (c & <- & Hc). rewrite Forall_forall in Hr; auto. }
  destruct (xmax_spec H0 Hr') as [Hin Hall]. set (m := xmax _ _) in *.
  assert (Hm : m <> NaN). { destruct Hin as [<-|Hin]; auto. rewrite Forall_forall in Hr'. auto. }
  destruct (index_of_spec Hm Hin) as (i & -> & Hn & Hj).
  change (posterior c0 :: map (@posterior S) chs) with (map (@posterior S) (c0 :: chs)) in *.
  rewrite nth_error_map in Hn. destruct (nth_error (c0 :: chs) i) as [ch|] eqn:E; [|discriminate]. injection Hn as Hn.
  exists i, ch. conj; auto.
  - rewrite Hn. apply Forall_forall. intros c Hc. rewrite Forall_forall in Hall. apply Hall. apply in_map; auto.
  - intros j ch' Hlt Hj' Heq. apply (Hj j Hlt). rewrite nth_error_map, Hj'. simpl. congruence.
Qed.

Lemma warm_after S (ll pr : S -> xf) fp draws sm : forall todo i sm0, after ll pr fp draws sm i = Ok sm0 ->
  warm_loop ll pr fp draws todo i sm0 = after ll pr fp draws sm (i + todo) \/
  exists e, warm_loop ll pr fp draws todo i sm0 = Err e.
Proof.
  induction todo as [|todo IH]; intros i sm0 H; simpl.
  - rewrite Nat.add_0_r. auto.
  - destruct (step_all ll pr fp i (draws i) sm0) as [sm1|] eqn:E; simpl; [|eauto].
    replace (i + Datatypes.S todo)%nat with (Datatypes.S i + todo)%nat by lia. apply IH. simpl. rewrite H. exact E.
Qed.
